(** Every run of the sends on sockets ends, and everything was sent then. *)
From Coq Require Import ZArith List Arith Lia Bool.
From Verif Require Import M_Net M_Socket S_Socket P_Net P_Socket P_SocketStep.
Import ListNotations.
Open Scope nat_scope.

Definition opw (x : item) : nat := length (dataOf x) + 10.
Definition pcw (p : pc) : nat :=
  match p with
  | Idle => 0 | DLock x => 7 + opw x | DPush x => 6 + opw x | PTest => 5 | PTake => 4 | PClear x => 3 + opw x | PWrite x => 2 + opw x
  | PUnlock => 1 | HComplete _ => 8 | HLock => 7 | HReady => 6 | SBlock _ r => 1 + length r | WaitFor _ => 1
  end.
Definition callw (k : call) : nat :=
  match k with ASend _ _ d => 18 + length d | Send _ d => 2 + length d | Wait _ => 2 | Close => 1 end.
Definition thw (th : thread) : nat := pcw (at_ th) + list_sum (map callw (todo th)).
Definition weight (c : st) : nat :=
  list_sum (map thw (threads c)) + list_sum (map opw (queue c)) + list_sum (map (fun w => length (snd w) + 10) (writes c)) + 9 * length (handlers c).

Lemma sum_upd : forall {A} (f : A -> nat) l t a b, nth_error l t = Some a ->
  list_sum (map f (upd t b l)) + f a = list_sum (map f l) + f b.
Proof.
  intros A f l. induction l as [|y l IH]; intros [|t] a b E; try discriminate.
  - injection E as ->. cbn [upd map list_sum fold_right]. lia.
  - cbn [nth_error] in E. specialize (IH t a b E). cbn [upd map]. unfold list_sum in *. cbn [fold_right]. lia.
Qed.
Lemma weight_move : forall c t p th, nth_error (threads c) t = Some th ->
  weight (moveTo t p c) + pcw (at_ th) = weight c + pcw p.
Proof.
  intros c t p th E. unfold weight, moveTo. rewrite E. cbn [threads queue writes handlers].
  pose proof (sum_upd thw (threads c) t th {| at_ := p; todo := todo th |} E) as K. unfold thw in K at 2 4. cbn [at_ todo] in K. lia.
Qed.
Lemma sum_app : forall l k, list_sum (l ++ k) = list_sum l + list_sum k.
Proof. intros l k. apply list_sum_app. Qed.
Lemma sum_drop : forall {A} (f : A -> nat) l i a, nth_error l i = Some a -> list_sum (map f (drop i l)) + f a = list_sum (map f l).
Proof.
  intros A f l. induction l as [|y l IH]; intros [|i] a E; try discriminate.
  - injection E as ->. unfold drop. cbn [firstn skipn app map]. change (list_sum (f a :: map f l)) with (f a + list_sum (map f l)). lia.
  - cbn [nth_error] in E. specialize (IH i a E). unfold drop in *. cbn [firstn app map].
    change (skipn (S (S i)) (y :: l)) with (skipn (S i) l). unfold list_sum in *. cbn [fold_right]. lia.
Qed.

Lemma next_weight : forall l c c', next l c = Some c' -> weight c' < weight c.
Proof.
  intros l c c' N. destruct l as [t k|i k|i|i]; cbn [next] in N.
  - unfold run in N. destruct (nth_error (threads c) t) as [th|] eqn:E; [|discriminate].
    assert (MV : forall c1 p, threads c1 = threads c -> weight (moveTo t p c1) + pcw (at_ th) = weight c1 + pcw p).
    { intros c1 p T. apply weight_move. rewrite T. exact E. }
    destruct (at_ th) as [|x|x| | |x|x| |x| | |x rest|r] eqn:A; cbn [pcw] in MV.
    + destruct t as [|u]; cbn [fetch] in N.
      * destruct (handlers c) as [|x l] eqn:H; [discriminate|]. destruct (stopped c); [discriminate|]. injection N as <-.
        specialize (MV (setHandlers l c) (HComplete x) eq_refl). cbn [pcw] in MV.
        assert (W : weight (setHandlers l c) + 9 = weight c) by (unfold weight; rewrite H; cbn [threads queue writes handlers setHandlers length]; lia).
        lia.
      * destruct (todo th) as [|k0 l] eqn:T; [discriminate|].
        set (c1 := setThreads (upd (S u) {| at_ := Idle; todo := l |} (threads c)) c) in *. rewrite A in N. fold c1 in N.
        assert (E1 : nth_error (threads c1) (S u) = Some {| at_ := Idle; todo := l |}).
        { unfold c1. cbn [threads setThreads]. apply nth_upd_eq, nth_error_Some. congruence. }
        assert (W1 : weight c1 + callw k0 = weight c).
        { unfold c1, weight. cbn [threads queue writes handlers setThreads].
          pose proof (sum_upd thw (threads c) (S u) th {| at_ := Idle; todo := l |} E) as K. unfold thw in K at 2 4. rewrite A, T in K. cbn [at_ todo map pcw] in K.
          change (list_sum (callw k0 :: map callw l)) with (callw k0 + list_sum (map callw l)) in K. lia. }
        destruct k0 as [id s d|s d|id|].
        -- injection N as <-. pose proof (weight_move c1 (S u) (DLock (S u, ASend id s d)) _ E1) as K. cbn [pcw at_ callw] in *. unfold opw in K. cbn [dataOf snd] in K. lia.
        -- injection N as <-. pose proof (weight_move (setHanded (handed c1 ++ [(S u, Send s d)]) c1) (S u) (SBlock (S u, Send s d) d) _ E1) as K. cbn [pcw at_ callw] in *.
           change (weight (setHanded (handed c1 ++ [(S u, Send s d)]) c1)) with (weight c1) in K. change (handed c) with (handed c1). lia.
        -- injection N as <-. pose proof (weight_move c1 (S u) (WaitFor (S u, id)) _ E1) as K. cbn [pcw at_ callw] in *. lia.
        -- destruct (nth_error (threads c1) 0) as [io|]; [|discriminate]. destruct (at_ io); try discriminate. injection N as <-.
           change (weight (setStopped true c1)) with (weight c1). cbn [callw] in W1. lia.
    + destruct (mutex c); [discriminate|]. injection N as <-. specialize (MV (setMutex (Some t) c) (DPush x) eq_refl).
      change (weight (setMutex (Some t) c)) with (weight c) in MV. cbn [pcw] in MV. lia.
    + injection N as <-. specialize (MV (setHanded (handed c ++ [x]) (setQueue (queue c ++ [x]) c)) PTest eq_refl). cbn [pcw] in MV.
      assert (W : weight (setHanded (handed c ++ [x]) (setQueue (queue c ++ [x]) c)) = weight c + opw x).
      { unfold weight. cbn [threads queue writes handlers setHanded setQueue]. rewrite map_app, sum_app. cbn. lia. }
      lia.
    + injection N as <-. destruct (_ || _); specialize (MV c); [specialize (MV PUnlock eq_refl)|specialize (MV PTake eq_refl)]; cbn [pcw] in MV; lia.
    + destruct (queue c) as [|x l] eqn:Q.
      * injection N as <-. specialize (MV c PUnlock eq_refl). cbn [pcw] in MV.
        change (weight (setBroken true (moveTo t PUnlock c))) with (weight (moveTo t PUnlock c)). lia.
      * injection N as <-. specialize (MV (setQueue l c) (PClear x) eq_refl). cbn [pcw] in MV.
        assert (W : weight (setQueue l c) + opw x = weight c).
        { unfold weight. rewrite Q. cbn [threads queue writes handlers setQueue map]. change (list_sum (opw x :: map opw l)) with (opw x + list_sum (map opw l)). lia. }
        lia.
    + injection N as <-. specialize (MV (setReady false c) (PWrite x) eq_refl). change (weight (setReady false c)) with (weight c) in MV. cbn [pcw] in MV. lia.
    + injection N as <-. specialize (MV (setWrites (writes c ++ [(x, dataOf x)]) c) PUnlock eq_refl). cbn [pcw] in MV.
      assert (W : weight (setWrites (writes c ++ [(x, dataOf x)]) c) = weight c + opw x).
      { unfold weight. cbn [threads queue writes handlers setWrites]. rewrite map_app, sum_app. unfold opw. cbn [map snd list_sum fold_right]. lia. }
      lia.
    + injection N as <-. specialize (MV (setMutex None c) Idle eq_refl). change (weight (setMutex None c)) with (weight c) in MV. cbn [pcw] in MV. lia.
    + injection N as <-. match goal with |- weight (moveTo t HLock ?C) < _ => specialize (MV C HLock eq_refl); change (weight C) with (weight c) in MV end.
      cbn [pcw] in MV. lia.
    + destruct (mutex c); [discriminate|]. injection N as <-. specialize (MV (setMutex (Some t) c) HReady eq_refl).
      change (weight (setMutex (Some t) c)) with (weight c) in MV. cbn [pcw] in MV. lia.
    + injection N as <-. specialize (MV (setReady true c) PTest eq_refl). change (weight (setReady true c)) with (weight c) in MV. cbn [pcw] in MV. lia.
    + destruct rest as [|b rest].
      * injection N as <-. specialize (MV c Idle eq_refl). cbn [pcw length] in MV. lia.
      * destruct (Nat.ltb_spec 0 k) as [K|]; [|discriminate]. destruct (Nat.leb_spec k (length (b :: rest))) as [K'|]; [|discriminate]. cbn [andb] in N.
        injection N as <-.
        match goal with |- weight (moveTo t ?P ?C) < _ => specialize (MV C P eq_refl); change (weight C) with (weight c) in MV end.
        cbn [pcw] in MV. rewrite skipn_length in MV. lia.
    + destruct (existsb _ _); [|discriminate]. injection N as <-. specialize (MV c Idle eq_refl). cbn [pcw] in MV. lia.
  - destruct (stopped c); [discriminate|]. destruct (nth_error (writes c) i) as [(x, rest)|] eqn:E; [|discriminate].
    destruct (Nat.ltb_spec 0 k) as [K|]; [|discriminate]. destruct (Nat.leb_spec k (length rest)) as [K'|]; [|discriminate]. cbn [andb] in N.
    injection N as <-. unfold weight. cbn [threads queue writes handlers setWrites setWire].
    pose proof (sum_upd (fun w => length (snd w) + 10) (writes c) i (x, rest) (x, skipn k rest) E) as U. cbn [snd] in U. rewrite skipn_length in U. lia.
  - destruct (stopped c); [discriminate|]. destruct (nth_error (writes c) i) as [(x, rest)|] eqn:E; [|discriminate]. destruct rest; [|discriminate].
    injection N as <-. unfold weight. cbn [threads queue writes handlers setWrites setHandlers].
    pose proof (sum_drop (fun w => length (snd w) + 10) (writes c) i (x, []) E) as U. cbn [snd length] in U. rewrite app_length. cbn [length]. lia.
  - destruct (stopped c); [discriminate|]. destruct (nth_error (writes c) i) as [(x, rest)|] eqn:E; [|discriminate].
    injection N as <-. unfold weight. cbn [threads queue writes handlers setWrites setHandlers].
    pose proof (sum_drop (fun w => length (snd w) + 10) (writes c) i (x, rest) E) as U. cbn [snd length] in U. rewrite app_length. cbn [length]. lia.
Qed.
Lemma steps_weight : forall ls c c', steps ls c = Some c' -> length ls + weight c' <= weight c.
Proof.
  induction ls as [|l ls IH]; intros c c' E; cbn [steps length] in *; [injection E as <-; lia|].
  destruct (next l c) as [c1|] eqn:N; [|discriminate]. apply next_weight in N. apply IH in E. lia.
Qed.

(** the io context makes no calls *)
Lemma next_io : forall l c c', next l c = Some c' -> todoOf c' 0 = todoOf c 0.
Proof.
  intros l c c' N. destruct l as [t k|i k|i|i]; cbn [next] in N.
  - unfold run in N. destruct (nth_error (threads c) t) as [th|] eqn:E; [|discriminate].
    destruct (at_ th) as [|x|x| | |x|x| |x| | |x rest|r] eqn:A.
    + destruct t as [|u]; cbn [fetch] in N.
      * destruct (handlers c); [discriminate|]. destruct (stopped c); [discriminate|]. injection N as <-. rewrite todo_moveTo. reflexivity.
      * destruct (todo th) as [|k0 l]; [discriminate|].
        assert (Z : forall c3, threads c3 = upd (S u) {| at_ := at_ th; todo := l |} (threads c) -> todoOf c3 0 = todoOf c 0).
        { intros c3 T. unfold todoOf. rewrite T. rewrite nth_upd_ne by lia. reflexivity. }
        destruct k0.
        -- injection N as <-. rewrite todo_moveTo. apply Z. reflexivity.
        -- injection N as <-. rewrite todo_moveTo. apply Z. reflexivity.
        -- injection N as <-. rewrite todo_moveTo. apply Z. reflexivity.
        -- match type of N with match ?X with _ => _ end = _ => destruct X as [io|]; [|discriminate] end.
           destruct (at_ io); try discriminate. injection N as <-. apply Z. reflexivity.
    + destruct (mutex c); [discriminate|]. injection N as <-. rewrite todo_moveTo. reflexivity.
    + injection N as <-. rewrite todo_moveTo. reflexivity.
    + injection N as <-. rewrite todo_moveTo. reflexivity.
    + destruct (queue c); injection N as <-; [|rewrite todo_moveTo; reflexivity].
      change (todoOf (setBroken true (moveTo t PUnlock c)) 0) with (todoOf (moveTo t PUnlock c) 0). apply todo_moveTo.
    + injection N as <-. rewrite todo_moveTo. reflexivity.
    + injection N as <-. rewrite todo_moveTo. reflexivity.
    + injection N as <-. rewrite todo_moveTo. reflexivity.
    + injection N as <-. rewrite todo_moveTo. reflexivity.
    + destruct (mutex c); [discriminate|]. injection N as <-. rewrite todo_moveTo. reflexivity.
    + injection N as <-. rewrite todo_moveTo. reflexivity.
    + destruct rest; [injection N as <-; rewrite todo_moveTo; reflexivity|]. destruct (_ && _); [|discriminate]. injection N as <-. rewrite todo_moveTo. reflexivity.
    + destruct (existsb _ _); [|discriminate]. injection N as <-. rewrite todo_moveTo. reflexivity.
  - destruct (stopped c); [discriminate|]. destruct (nth_error (writes c) i) as [(x, r)|]; [|discriminate].
    destruct (_ && _); [|discriminate]. injection N as <-. reflexivity.
  - destruct (stopped c); [discriminate|]. destruct (nth_error (writes c) i) as [(x, [|])|]; try discriminate. injection N as <-. reflexivity.
  - destruct (stopped c); [discriminate|]. destruct (nth_error (writes c) i) as [(x, r)|]; [|discriminate]. injection N as <-. reflexivity.
Qed.
Lemma steps_io : forall ls c c', steps ls c = Some c' -> todoOf c' 0 = todoOf c 0.
Proof.
  induction ls as [|l ls IH]; intros c c' E; cbn [steps] in E; [injection E as <-; reflexivity|].
  destruct (next l c) as [c2|] eqn:N; [|discriminate]. rewrite (IH _ _ E). apply (next_io l), N.
Qed.

(** * The end *)
Section End_.
Variable progs : list (list call).
Hypothesis Disc : disciplined progs.
Notation inv := (inv progs).

Lemma still_end : forall c dn, inv c dn -> still c ->
  dn = handed c /\ queue c = [] /\ writes c = [] /\ handlers c = [] /\ completed c = requests (handed c) /\
  mutex c = None /\ ready c = true /\ forall t, pcOf c t = Idle /\ (t <> 0 -> todoOf c t = []).
Proof.
  intros c dn (I & J) St. destruct (i_run _ _ I) as (Sp & _).
  assert (RN : forall t, run t 1 c = None) by (intros t; apply (St (Run t 1) Logic.I)).
  assert (TH : forall t, t < length (threads c) -> exists th, nth_error (threads c) t = Some th /\ at_ th = pcOf c t /\ todo th = todoOf c t).
  { intros t L. destruct (nth_error (threads c) t) as [th|] eqn:E; [|apply nth_error_None in E; lia].
    exists th. split; [reflexivity|]. unfold pcOf, todoOf. rewrite E. auto. }
  (* nobody holds the lock *)
  assert (M : mutex c = None).
  { destruct (mutex c) as [t|] eqn:M; auto. exfalso. pose proof M as M'. apply (i_mutex _ _ J) in M'.
    assert (L : t < length (threads c)) by (apply in_range; intros E; rewrite E in M'; discriminate).
    destruct (TH t L) as (th & E & A & _). specialize (RN t). unfold run in RN. rewrite E, A in RN.
    destruct (pcOf c t); try discriminate. destruct (queue c); discriminate. }
  assert (H : holder c = Idle) by (unfold holder; rewrite M; reflexivity).
  (* no operation is in progress *)
  assert (W : writes c = []).
  { destruct (writes c) as [|(x, r) w] eqn:W; auto. exfalso. destruct r as [|b r].
    - specialize (St (Done 0) Logic.I). cbn [next] in St. rewrite Sp, W in St. discriminate.
    - specialize (St (Bytes 0 1) Logic.I). cbn [next] in St. rewrite Sp, W in St. discriminate. }
  assert (P0 : pcOf c 0 = Idle).
  { destruct (TH 0) as (th & E & A & _); [rewrite (i_len _ _ I); lia|]. specialize (RN 0). unfold run in RN. rewrite E, A, M in RN.
    pose proof (i_io _ _ I) as K. destruct (pcOf c 0); try discriminate; auto. destruct (queue c); discriminate. }
  assert (HD : handlers c = []).
  { destruct (handlers c) as [|x l] eqn:Hh; auto. exfalso. destruct (TH 0) as (th & E & A & _); [rewrite (i_len _ _ I); lia|].
    specialize (RN 0). unfold run in RN. rewrite E, A, P0 in RN. cbn [fetch] in RN. rewrite Hh, Sp in RN. discriminate. }
  assert (Re : ready c = true).
  { pose proof (i_tok _ _ J) as K. rewrite W, HD, P0, H in K. cbn in K. destruct (ready c); auto. discriminate. }
  assert (Q : queue c = []).
  { destruct (queue c) as [|x l] eqn:Q; auto. exfalso. destruct (i_queue _ _ J Re) as (K & _); [congruence|]. contradiction. }
  (* nobody sends a blocking message *)
  assert (NB : forall t x r, pcOf c t <> SBlock x r).
  { intros t x r E. assert (L : t < length (threads c)) by (apply in_range; congruence).
    destruct (TH t L) as (th & E1 & A & _). specialize (RN t). unfold run in RN. rewrite E1, A, E in RN. destruct r; discriminate. }
  assert (B : blk (pcOf c 1) = []) by (destruct (pcOf c 1) eqn:E; try reflexivity; destruct (NB _ _ _ E)).
  assert (HA : handed c = dn).
  { rewrite (i_handed _ _ J), B, W, H, Q. cbn. apply app_nil_r. }
  assert (CO : completed c = requests (handed c)).
  { rewrite HA, (i_done _ _ J), P0, HD. cbn. rewrite app_nil_r. reflexivity. }
  assert (PI : forall t, pcOf c t = Idle).
  { intros [|u]; [exact P0|]. destruct (le_lt_dec (length (threads c)) (S u)) as [G|L].
    - unfold pcOf. apply nth_error_None in G. rewrite G. reflexivity.
    - destruct (TH (S u) L) as (th & E & A & _). pose proof (RN (S u)) as R. unfold run in R. rewrite E, A, M in R.
      destruct (i_app _ _ I u) as (K1 & K2).
      destruct (pcOf c (S u)) as [|x|x| | |x|x| |x| | |x rest|r] eqn:P; try discriminate; auto.
      + destruct (queue c); discriminate.
      + destruct (NB _ _ _ P).
      + exfalso. cbn [own] in K2. destruct r as (r1, id). cbn [fst] in K2. subst r1.
        pose proof (i_wait _ _ I (S u) id P) as X. apply in_ids_from in X. rewrite <- CO in X.
        assert (Y : existsb (reqEqb (S u, id)) (completed c) = true).
        { apply existsb_exists. exists (S u, id). split; [exact X|]. unfold reqEqb. cbn [fst snd]. rewrite !Nat.eqb_refl. reflexivity. }
        rewrite Y in R. discriminate. }
  do 7 (split; [first [auto|congruence]|]). intros t. split; [apply PI|]. intros T0. destruct t as [|u]; [contradiction|].
  destruct (le_lt_dec (length (threads c)) (S u)) as [G|L].
  - unfold todoOf. apply nth_error_None in G. rewrite G. reflexivity.
  - destruct (TH (S u) L) as (th & E & A & T). pose proof (RN (S u)) as R. unfold run in R. rewrite E, A, PI in R. cbn [fetch] in R.
    rewrite <- T. destruct (todo th) as [|k l] eqn:T'; auto. exfalso. destruct k; try discriminate.
    rewrite (i_len _ _ I) in L. destruct (i_seen _ _ I u) as (seen & S1 & _); [lia|]. rewrite <- T in S1. destruct S1.
Qed.
End End_.
