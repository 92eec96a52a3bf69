(** C39: asynchronous sends on a socket keep their order. *)
From Coq Require Import ZArith List Arith Lia Bool.
From Verif Require Import M_Net M_Socket S_Socket P_Net P_Socket P_SocketStep P_SocketEnd.
Import ListNotations.
Open Scope nat_scope.

(** In every reachable state the messages that were handed over, in this order, are
    messages that were written completely, at most one of which a part was written,
    and messages that were not begun.  Every thread's messages are handed over in
    the order of its calls. *)
Theorem C39_messages_keep_order : forall progs c, disciplined progs -> reached progs c ->
  exists complete current waiting,
    handed c = complete ++ current ++ waiting /\ length current <= 1 /\
    (forall s, exists part missing, wire c s = bytes s complete ++ part /\ bytes s current = part ++ missing) /\
    (forall t p, nth_error progs t = Some p -> exists later, messages p = from (S t) (handed c) ++ later).
Proof.
  intros progs c D R. destruct (reached_inv progs D c R) as (dn & I & J).
  set (ops := blk (pcOf c 1) ++ writes c).
  assert (L1 : length ops <= 1).
  { unfold ops. rewrite app_length. pose proof (i_tok _ _ J) as K.
    destruct (pcOf c 1) as [| | | | | | | | | | |x r|] eqn:P; cbn [blk length]; try (destruct (ready c); lia).
    destruct (i_block _ _ J 1 x r P) as (_ & -> & _). cbn. lia. }
  exists dn, (map fst ops), (regs (holder c) ++ queue c).
  split; [rewrite (i_handed _ _ J); unfold ops; rewrite map_app, <- !app_assoc; reflexivity|].
  split; [rewrite map_length; exact L1|]. split.
  - intros s. pose proof (i_wire _ _ J s) as W. fold ops in W. rewrite bytes_app in W.
    assert (SF : exists part, bytes s (map fst ops) = part ++ rems s ops).
    { pose proof (i_rest _ _ J) as Rs. fold ops in Rs. destruct ops as [|(x, r) [|o ops]]; [exists []; reflexivity| |cbn in L1; lia].
      destruct (Rs x r) as (pre & E); [left; reflexivity|]. cbn. destruct (sockOf x =? s); [|exists []; reflexivity].
      exists pre. rewrite !app_nil_r. exact E. }
    destruct SF as (part & SF). exists part, (rems s ops). split; [|exact SF].
    rewrite SF, app_assoc in W. apply app_inv_tail in W. exact W.
  - intros t p E. exists (pend (pcOf c (S t)) ++ messages (todoOf c (S t))). symmetry. apply (i_prog _ _ I), E.
Qed.
Print Assumptions C39_messages_keep_order.

(** one write at a time *)
Theorem C39_one_write_at_a_time : forall progs c, disciplined progs -> reached progs c ->
  length (writes c) <= 1 /\
  forall t th x r, nth_error (threads c) t = Some th -> at_ th = SBlock x r -> writes c = [].
Proof.
  intros progs c D R. destruct (reached_inv progs D c R) as (dn & I & J). split.
  - pose proof (i_tok _ _ J) as K. destruct (ready c); lia.
  - intros t th x r E A. apply (i_block _ _ J t x r). unfold pcOf. rewrite E. exact A.
Qed.
Print Assumptions C39_one_write_at_a_time.

(** A request is completed at most once, in the order of the sends, and only after
    its message and all messages before it were written. *)
Theorem C39_completion_is_reported_once : forall progs c, disciplined progs -> reached progs c ->
  NoDup (completed c) /\ (exists later, requests (handed c) = completed c ++ later) /\
  forall r, In r (completed c) -> exists before x after, handed c = before ++ x :: after /\ requestOf x = Some r /\
    forall s, exists later, wire c s = bytes s (before ++ [x]) ++ later.
Proof.
  intros progs c D R. destruct (reached_inv progs D c R) as (dn & I & J).
  pose proof (handed_nodup progs D c I) as ND. pose proof (i_handed _ _ J) as Ha. pose proof (i_done _ _ J) as Dn.
  assert (Pre : exists later, requests (handed c) = completed c ++ later).
  { rewrite Ha, requests_app, Dn, <- app_assoc. eexists. reflexivity. }
  split; [|split; [exact Pre|]].
  - destruct Pre as (later & E). rewrite E in ND. now apply nodup_l in ND.
  - intros r Hr. assert (X : In r (requests dn)) by (rewrite Dn; apply in_or_app; auto).
    apply in_requests in X as (x & X1 & X2). apply in_split in X1 as (a & b & ->).
    exists a, x, (b ++ map fst (blk (pcOf c 1)) ++ map fst (writes c) ++ regs (holder c) ++ queue c).
    split; [rewrite Ha, <- app_assoc; reflexivity|]. split; [exact X2|]. intros s.
    clear - J.
    pose proof (i_wire _ _ J s) as W. set (ops := blk (pcOf c 1) ++ writes c) in *. rewrite bytes_app in W.
    change (a ++ x :: b) with (a ++ [x] ++ b) in W. rewrite app_assoc, bytes_app, <- app_assoc in W.
    assert (L : length (rems s ops) <= length (bytes s b ++ bytes s (map fst ops))).
    { rewrite app_length. enough (length (rems s ops) <= length (bytes s (map fst ops))) by lia.
      pose proof (i_rest _ _ J) as Rs. fold ops in Rs. revert Rs. generalize ops. clear. induction ops as [|(y, r) l IH]; intros Rs; [cbn; lia|].
      cbn [rems bytes flat_map map fst snd]. rewrite !app_length.
      assert (length (rems s l) <= length (bytes s (map fst l))) by (apply IH; intros y' r' H; apply Rs; right; exact H).
      destruct (Rs y r) as (pre & E); [left; reflexivity|]. unfold rems, bytes in *. destruct (sockOf y =? s); [|lia].
      rewrite E, app_length. lia. }
    set (B := bytes s (a ++ [x])) in *. set (C := bytes s b ++ bytes s (map fst ops)) in *.
    exists (firstn (length C - length (rems s ops)) C).
    assert (E : C = firstn (length C - length (rems s ops)) C ++ skipn (length C - length (rems s ops)) C) by (rewrite firstn_skipn; reflexivity).
    rewrite E, app_assoc in W.
    assert (F : forall (u v w z : list Z), u ++ v = w ++ z -> length v = length z -> u = w).
    { clear. intros u v w z E L. assert (length u = length w) by (apply (f_equal (@length Z)) in E; rewrite !app_length in E; lia).
      revert w E H. induction u as [|h u IH]; intros [|h' w] E H; try discriminate; auto. injection E as -> E. f_equal. apply IH; auto. }
    apply F in W; auto. rewrite skipn_length. lia.
Qed.
Print Assumptions C39_completion_is_reported_once.

(** Every run ends, and then everything was written and reported. *)
Theorem C39_every_run_ends : forall progs, exists bound, forall ls c, steps ls (start progs) = Some c -> length ls <= bound.
Proof. intros progs. exists (weight (start progs)). intros ls c E. apply steps_weight in E. lia. Qed.
Print Assumptions C39_every_run_ends.

Theorem C39_everything_is_sent : forall progs c, disciplined progs -> reached progs c -> still c ->
  (forall t p, nth_error progs t = Some p -> from (S t) (handed c) = messages p) /\
  (forall s, wire c s = bytes s (handed c)) /\
  completed c = requests (handed c) /\ queue c = [] /\
  (forall th, In th (threads c) -> at_ th = Idle /\ todo th = []).
Proof.
  intros progs c D R St. destruct (reached_inv progs D c R) as (dn & I & J).
  destruct (still_end progs c dn (conj I J) St) as (-> & Q & W & Hh & Co & M & Re & T).
  assert (B : blk (pcOf c 1) = []) by (destruct (T 1) as (-> & _); reflexivity).
  split.
  - intros t p E. pose proof (i_prog _ _ I t p E) as K. destruct (T (S t)) as (P & X). rewrite P, X in K by lia.
    cbn in K. rewrite app_nil_r in K. exact K.
  - split; [intros s; pose proof (i_wire _ _ J s) as K; rewrite B, W in K; cbn in K; rewrite !app_nil_r in K; exact K|].
    split; [exact Co|]. split; [exact Q|]. intros th H. apply In_nth_error in H as (t & E).
    destruct (T t) as (P & X). unfold pcOf, todoOf in *. rewrite E in *. split; [exact P|]. destruct t as [|t]; [|apply X; lia].
    destruct R as (ls & _ & R). pose proof (steps_io _ _ _ R) as K. unfold todoOf in K. rewrite E in K. exact K.
Qed.
Print Assumptions C39_everything_is_sent.

(** * Limits *)
(** A blocking send does not use the queue: it writes into the middle of an
    asynchronous send that was not waited for. *)
Definition mixed : list call := [ASend 0 7 [1; 2]%Z; Send 7 [3]%Z].
Definition mixedRun : list label :=
  [Run 1 0; Run 1 0; Run 1 0; Run 1 0; Run 1 0; Run 1 0; Run 1 0; Run 1 0; Bytes 0 1;
   Run 1 0; Run 1 1; Run 1 0; Bytes 0 1; Done 0; Run 0 0; Run 0 0; Run 0 0; Run 0 0; Run 0 0; Run 0 0].
Lemma run_out : forall t k c, length (threads c) <= t -> run t k c = None.
Proof. intros t k c H. unfold run. apply nth_error_None in H. rewrite H. reflexivity. Qed.
Theorem C39_blocking_send_refuted : exists c, reached [mixed] c /\ still c /\ proper [] mixed /\ wire c 7 = [1; 3; 2]%Z.
Proof.
  destruct (steps mixedRun (start [mixed])) as [c|] eqn:E; [|vm_compute in E; discriminate].
  exists c. split; [exists mixedRun; split; [repeat constructor|exact E]|].
  vm_compute in E. injection E as <-. split; [|split; [cbn; tauto|reflexivity]].
  intros [t k|i k|i|i] W; [|destruct i; reflexivity|destruct i; reflexivity|destruct W].
  destruct t as [|[|t]]; [reflexivity|reflexivity|]. apply run_out. cbn. lia.
Qed.
Print Assumptions C39_blocking_send_refuted.

(** The handler ignores errors: a send that failed is reported as complete. *)
Theorem C39_failed_send_is_reported_refuted : exists ls c, steps ls (start [[ASend 0 7 [1; 2]%Z; Wait 0]]) = Some c /\
  still c /\ completed c = [(1, 0)] /\ wire c 7 = [].
Proof.
  set (ls := [Run 1 0; Run 1 0; Run 1 0; Run 1 0; Run 1 0; Run 1 0; Run 1 0; Run 1 0; Fail_ 0;
              Run 0 0; Run 0 0; Run 0 0; Run 0 0; Run 0 0; Run 0 0; Run 1 0; Run 1 0]).
  destruct (steps ls (start [[ASend 0 7 [1; 2]%Z; Wait 0]])) as [c|] eqn:E; [|vm_compute in E; discriminate].
  exists ls, c. split; [exact E|]. vm_compute in E. injection E as <-. split; [|split; reflexivity].
  intros [t k|i k|i|i] W; [|destruct i; reflexivity|destruct i; reflexivity|destruct W].
  destruct t as [|[|t]]; [reflexivity|reflexivity|]. apply run_out. cbn. lia.
Qed.
Print Assumptions C39_failed_send_is_reported_refuted.

(** Closing the connection stops the thread that writes: messages that were not
    waited for are lost. *)
Theorem C39_close_loses_messages_refuted : exists ls c,
  Forall works ls /\ steps ls (start [[ASend 0 7 [1]%Z; ASend 1 7 [2]%Z; Close]]) = Some c /\
  still c /\ completed c = [] /\ queue c <> [] /\ wire c 7 = [].
Proof.
  set (ls := repeat (Run 1 0) 14).
  destruct (steps ls (start [[ASend 0 7 [1]%Z; ASend 1 7 [2]%Z; Close]])) as [c|] eqn:E; [|vm_compute in E; discriminate].
  exists ls, c. split; [repeat constructor|]. split; [exact E|]. vm_compute in E. injection E as <-. split; [|split; [reflexivity|split; [discriminate|reflexivity]]].
  intros [t k|i k|i|i] W; [|destruct i; reflexivity|destruct i; reflexivity|destruct W].
  destruct t as [|[|t]]; [reflexivity|reflexivity|]. apply run_out. cbn. lia.
Qed.
Print Assumptions C39_close_loses_messages_refuted.

(** * Cases that meet the hypotheses *)
Example two_threads : disciplined [[ASend 0 1 [1; 2]%Z; ASend 1 2 [3]%Z; Wait 0]; [ASend 0 1 [4]%Z; Wait 0; ASend 5 1 []]].
Proof.
  split.
  - intros p [<-|[<-|[]]]; cbn; intuition discriminate.
  - left. intros p [<-|[<-|[]]] s d; cbn; intuition discriminate.
Qed.
Example one_thread : disciplined [[ASend 0 1 [1; 2]%Z; ASend 3 1 [5]%Z; Wait 3; Wait 0; Send 1 [3]%Z; ASend 1 1 [4]%Z]].
Proof.
  split; [intros p [<-|[]]; cbn; intuition discriminate|]. right. eexists. split; [reflexivity|]. cbn. auto.
Qed.
Example one_thread_ends : exists c, reached [[ASend 0 1 [1; 2]%Z; Wait 0; Send 1 [3]%Z]] c /\ still c /\ wire c 1 = [1; 2; 3]%Z /\ completed c = [(1, 0)].
Proof.
  set (ls := [Run 1 0; Run 1 0; Run 1 0; Run 1 0; Run 1 0; Run 1 0; Run 1 0; Run 1 0; Bytes 0 2; Done 0; Run 1 0;
              Run 0 0; Run 0 0; Run 1 0; Run 1 0; Run 0 0; Run 0 0; Run 1 1; Run 0 0; Run 0 0; Run 1 0]).
  destruct (steps ls (start [[ASend 0 1 [1; 2]%Z; Wait 0; Send 1 [3]%Z]])) as [c|] eqn:E; [|vm_compute in E; discriminate].
  exists c. split; [exists ls; split; [repeat constructor|exact E]|]. vm_compute in E. injection E as <-. split; [|split; reflexivity].
  intros [t k|i k|i|i] W; [|destruct i; reflexivity|destruct i; reflexivity|destruct W].
  destruct t as [|[|t]]; [reflexivity|reflexivity|]. apply run_out. cbn. lia.
Qed.
