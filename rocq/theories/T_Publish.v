(** Connections through address files (C63, C64). *)
From Coq Require Import List Arith ZArith Bool Lia.
From Verif Require Import M_Publish M_Names S_Publish P_Publish P_Names.
Import ListNotations.

Section T.
Variables (server : bool) (address description : text) (rank : nat -> nat) (size : nat) (foreign : text -> bool).
Notation exec := (exec server address description rank size foreign).
Notation runs := (runs server address description rank size foreign).

(** C63: whatever crashes, and in every schedule: requesters only ever use the
    address of the acceptor, and the file is never seen incomplete *)
Theorem C63_only_the_published_address : proper_address address ->
  forall ls s, runs ls (before size None None) s ->
  (forall i p, nth_error (s_req s) i = Some p -> (forall a, has_address p a -> a = address) /\ forall a, p <> RWrong a) /\
  (s_pub s = None \/ s_pub s = Some (content address description)).
Proof. exact (published server address description rank size foreign). Qed.

(** C63: without crashes no process fails, and every schedule ends after a
    bounded number of steps with all requesters connected *)
Theorem C63_everybody_connects : proper_address address -> 0 < size ->
  (forall i j, i < size -> j < size -> rank i = rank j -> i = j) ->
  forall ls s, runs ls (before size None None) s -> crash_free ls ->
  no_failure s /\
  (all_connected rank size s \/ exists l s', ~ is_crash l /\ exec l s = Some s') /\
  length ls <= 12 * size + 12 + length (content address description).
Proof.
  intros HA Hs Hr ls s R cf. pose proof (J_run server address description rank size foreign HA Hs Hr ls s R cf) as j. split; [|split].
  - eapply J_ok, j.
  - destruct (J_progress server address description rank size foreign Hs s j) as [A|P]; [left|right; exact P].
    exact (J_final server address description rank size foreign Hs Hr s j A).
  - pose proof (run_bound server address description rank size foreign HA Hs Hr ls _ _ R cf (J_before server address description rank size)) as B.
    rewrite measure_before in B by exact Hs. lia.
Qed.

(** C63: a file left by an earlier run is detected: the acceptor publishes
    nothing, accepts nobody and can only end with an error.  A published file is removed then. *)
Theorem C63_leftover_file_is_detected : forall t tmp ls s, runs ls (before size (Some t) tmp) s ->
  (forall k, s_acc s <> AAccept k) /\ s_acc s <> AOver None /\ s_table s = [] /\
  (s_pub s = Some t \/ s_pub s = None) /\ (s_acc s = AOver (Some 1) -> s_pub s = None).
Proof.
  intros t tmp ls s R. destruct (leftover_pub server address description rank size foreign t tmp ls s R) as (H1 & H2 & H3).
  split; [intros k Q; rewrite Q in H1; exact H1|]. split; [intros Q; rewrite Q in H1; discriminate H1|].
  split; [exact (leftover_pub_table server address description rank size foreign t tmp ls s R)|].
  split; [tauto|]. exact (leftover_pub_removed server address description rank size foreign t tmp ls s R).
Qed.
(** C63: a temporary file left by an acceptor that crashed stays and stops every
    later run, until it is removed by hand *)
Theorem C63_leftover_temporary_file_stops_every_run : forall t ls s, runs ls (before size None (Some t)) s ->
  (forall k, s_acc s <> AAccept k) /\ s_acc s <> AOver None /\ s_pub s = None /\ s_tmp s = Some t.
Proof.
  intros t ls s R. destruct (leftover_tmp server address description rank size foreign t ls s R) as (H1 & H2 & H3).
  split; [intros k Q; rewrite Q in H1; exact H1|]. split; [intros Q; rewrite Q in H1; discriminate H1|]. split; assumption.
Qed.
End T.
Print Assumptions C63_only_the_published_address.
Print Assumptions C63_everybody_connects.
Print Assumptions C63_leftover_file_is_detected.
Print Assumptions C63_leftover_temporary_file_stops_every_run.

(** ** Examples *)
Definition exAddr : text := [49; 50; 55; 58; 57].
Definition exDescr : text := [65; 99; 99].
Definition exRank (i : nat) : nat := match i with 0 => 2 | 1 => 0 | _ => 1 end.
Definition sched (server : bool) (a : text) (ls : list label) (s : st) : st :=
  fold_left (fun s l => match exec server a exDescr exRank 3 (fun _ => true) l s with Some s' => s' | None => s end) ls s.
Lemma sched_runs server a ls : forall s, exists ls', runs server a exDescr exRank 3 (fun _ => true) ls' s (sched server a ls s) /\ incl ls' ls.
Proof.
  unfold sched. induction ls as [|l ls IH]; intros s; cbn [fold_left]; [exists []; split; [constructor|intros x []]|].
  destruct (exec server a exDescr exRank 3 (fun _ => true) l s) as [s1|] eqn:E.
  - destruct (IH s1) as (ls' & R & I). exists (l :: ls'). split; [econstructor; eassumption|]. intros x [->|H]; [left; reflexivity|right; apply I, H].
  - destruct (IH s) as (ls' & R & I). exists ls'. split; [exact R|]. intros x H. right. apply I, H.
Qed.
Definition many : list label := concat (repeat [LR 2; LA 1; LR 0; LR 1] 40).
Example ex_address : proper_address exAddr.
Proof. split; [discriminate|]. split; [cbn; unfold newline; lia|reflexivity]. Qed.
Example ex_ranks : forall i j, i < 3 -> j < 3 -> exRank i = exRank j -> i = j.
Proof. intros [|[|[|i]]] [|[|[|j]]]; cbn; lia. Qed.
Example ex_connects : s_acc (sched false exAddr many (before 3 None None)) = AOver None /\ s_table (sched false exAddr many (before 3 None None)) = [(2, 0); (0, 1); (1, 2)].
Proof. vm_compute. split; reflexivity. Qed.
Example ex_connects_server : s_acc (sched true exAddr many (before 3 None None)) = AOver None /\ s_table (sched true exAddr many (before 3 None None)) = [(2, 0); (0, 1); (1, 2)].
Proof. vm_compute. split; reflexivity. Qed.

(** C63: the address of an earlier run.  An acceptor crashes after it has
    published its address; in the next run, with another address, a requester
    finds the old file before the new acceptor detects it, and connects to
    whatever is listening there. *)
Definition oldAddr : text := [49; 48; 58; 49].
Theorem C63_address_of_this_run_refuted : exists ls s ls' s',
  proper_address oldAddr /\ proper_address exAddr /\ oldAddr <> exAddr /\
  runs false oldAddr exDescr exRank 3 (fun _ => true) ls (before 3 None None) s /\ s_acc s = ADead /\
  runs false exAddr exDescr exRank 3 (fun _ => true) ls' (before 3 (s_pub s) (s_tmp s)) s' /\ crash_free ls' /\
  nth_error (s_req s') 0 = Some (RWrong oldAddr).
Proof.
  set (l1 := repeat (LA 20) 9 ++ [LCrashA]). set (s1 := sched false oldAddr l1 (before 3 None None)).
  set (l2 := repeat (LR 0) 4). set (s2 := sched false exAddr l2 (before 3 (s_pub s1) (s_tmp s1))).
  destruct (sched_runs false oldAddr l1 (before 3 None None)) as (ls & R & _).
  destruct (sched_runs false exAddr l2 (before 3 (s_pub s1) (s_tmp s1))) as (ls' & R' & I').
  exists ls, s1, ls', s2. split; [split; [discriminate|split; [cbn; unfold newline; lia|reflexivity]]|]. split; [exact ex_address|]. split; [discriminate|].
  split; [exact R|]. split; [vm_compute; reflexivity|]. split; [exact R'|]. split; [|vm_compute; reflexivity].
  intros l Hl. apply I' in Hl. unfold l2 in Hl. apply repeat_spec in Hl. subst l. intros [].
Qed.
Print Assumptions C63_address_of_this_run_refuted.

(** ** File names *)
Definition plain_names (k : connection) : Prop :=
  ~ In minus (k_acceptor k) /\ ~ In minus (k_requester k) /\ k_requester k <> [] /\ isDigit (last (k_requester k) 0) = false.
(** C64: different connections use different files, and the clean-up after one
    pair of participants does not remove the files of another pair *)
Theorem C64_connections_use_different_files : forall hash, (forall a b, hash a = hash b -> a = b) ->
  forall dir k k', plain_names k -> plain_names k' -> filename hash dir k = filename hash dir k' -> k = k'.
Proof. intros hash H dir k k' (A & B & D & E) (A' & _ & _ & _). apply (distinct_files hash H); assumption. Qed.
Theorem C64_clean_up_keeps_other_files : forall hash dir k a r, plain_names k -> ~ In minus a ->
  removed dir a r (filename hash dir k) -> k_acceptor k = a /\ k_requester k = r.
Proof. intros hash dir k a r (A & _) A' H. eapply distinct_dirs; [exact A|exact A'|exact H]. Qed.
Print Assumptions C64_connections_use_different_files.
Print Assumptions C64_clean_up_keeps_other_files.
(** participants A and B, mesh "Mesh-1", ranks 11 and -1 *)
Example ex_plain : plain_names (Connection [65] [66] [77; 101; 115; 104; 45; 49] 11) /\ plain_names (Connection [66] [65] [] (-1)).
Proof. split; (split; [cbn; unfold minus; lia|split; [cbn; unfold minus; lia|split; [discriminate|reflexivity]]]). Qed.

(** C64: requester "1": rank 11 for mesh "M" and rank 1 for mesh "M1" use one file *)
Theorem C64_digits_refuted : exists k k', k <> k' /\ k_acceptor k = k_acceptor k' /\ k_requester k = k_requester k' /\
  ~ In minus (k_acceptor k) /\ ~ In minus (k_requester k) /\ forall hash dir, filename hash dir k = filename hash dir k'.
Proof.
  exists (Connection [65] [49] [77] 11), (Connection [65] [49] [77; 49] 1). split; [discriminate|]. split; [reflexivity|]. split; [reflexivity|].
  split; [cbn; unfold minus; lia|]. split; [cbn; unfold minus; lia|]. intros hash dir. reflexivity.
Qed.
(** C64: participants "A-B", "C", "A" and "B-C": the clean-up of the first pair removes the files of the second *)
Theorem C64_clean_up_refuted : exists a r k, ~ (k_acceptor k = a /\ k_requester k = r) /\
  forall hash dir, removed dir a r (filename hash dir k).
Proof.
  exists [65; 45; 66], [67], (Connection [65] [66; 45; 67] [80] (-1)). split; [cbn; intros (Q & _); discriminate Q|]. intros hash dir. reflexivity.
Qed.
(** C64: the rings that the quasi-Newton acceleration sets up in two
    participants use the same files *)
Theorem C64_rings_of_two_participants_refuted : forall hash dir p q rank size, p <> q ->
  filename hash dir (ringConnection p rank size) = filename hash dir (ringConnection q rank size).
Proof. reflexivity. Qed.
Print Assumptions C64_digits_refuted.
Print Assumptions C64_clean_up_refuted.
Print Assumptions C64_rings_of_two_participants_refuted.
