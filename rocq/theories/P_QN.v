(** Proofs about the columns of quasi-Newton acceleration. *)
From Coq Require Import Bool List Arith Lia Sorted.
From Verif Require Import M_QN.
Import ListNotations.

(** * Lists *)
Lemma some_inj {A} (a b : A) : Some a = Some b -> a = b.
Proof. congruence. Qed.
Lemma sum_app a b : sum (a ++ b) = sum a + sum b.
Proof. induction a as [|n a IH]; cbn; [reflexivity|rewrite IH; lia]. Qed.
Lemma length_removelast {A} (l : list A) : length (removelast l) = length l - 1.
Proof. induction l as [|a [|b l] IH]; [reflexivity|reflexivity|]. cbn [removelast length] in *. rewrite IH. cbn. lia. Qed.
Lemma removelast_In {A} (x : A) l : In x (removelast l) -> In x l.
Proof. induction l as [|a [|b l] IH]; cbn [removelast]; [auto|intros []|]. intros [->|H]; [now left|right; now apply IH]. Qed.
Lemma removeColumn_length {A} i (m m' : list A) : removeColumnFromMatrix i m = Some m' -> S (length m') = length m /\ i < length m.
Proof.
  unfold removeColumnFromMatrix. destruct (Nat.ltb_spec i (length m)); [|discriminate]. intro E. apply some_inj in E. subst.
  rewrite app_length, firstn_length, skipn_length. lia.
Qed.
Lemma removeColumn_In {A} i (m m' : list A) x : removeColumnFromMatrix i m = Some m' -> In x m' -> In x m.
Proof.
  unfold removeColumnFromMatrix. destruct (i <? length m); [|discriminate]. intro E. apply some_inj in E. subst.
  intro H. apply in_app_or in H as [H|H]; [rewrite <- (firstn_skipn i m)|rewrite <- (firstn_skipn (S i) m)]; apply in_or_app; auto.
Qed.
Lemma shiftSetFirst_some {A} (v : A) m m' : shiftSetFirst v m = Some m' -> m <> [] /\ m' = v :: removelast m.
Proof. destruct m; [discriminate|]. intro E. apply some_inj in E. subst. split; [discriminate|reflexivity]. Qed.
Lemma shiftSetFirst_length {A} (v : A) m m' : shiftSetFirst v m = Some m' -> length m' = length m.
Proof. intro E. apply shiftSetFirst_some in E as [N ->]. cbn [length]. rewrite length_removelast. destruct m; [contradiction|cbn; lia]. Qed.

(** * Counting columns *)
Definition positive (l : list nat) : Prop := Forall (fun n => 0 < n) l.
Lemma reduceCount_sum : forall l cols i, cols <= i -> i < cols + sum l -> S (sum (reduceCount cols i l)) = sum l.
Proof.
  induction l as [|n r IH]; intros cols i L H; cbn [reduceCount sum tl] in *; [lia|].
  destruct (Nat.ltb_spec i (cols + n)) as [B|B].
  - destruct (Nat.eqb_spec n 1) as [->|N]; [lia|]. destruct n; cbn [pred sum]; lia.
  - cbn [sum]. specialize (IH (cols + n) i B). lia.
Qed.
Lemma reduceCount_positive : forall l cols i, cols <= i -> positive l -> positive (reduceCount cols i l).
Proof.
  induction l as [|n r IH]; intros cols i L P; cbn [reduceCount sum tl] in *; [constructor|]. inversion P as [|? ? P1 P2]; subst.
  destruct (Nat.ltb_spec i (cols + n)) as [B|B].
  - destruct (Nat.eqb_spec n 1) as [->|N]; [assumption|]. constructor; [destruct n; cbn; lia|assumption].
  - constructor; [assumption|]. now apply IH.
Qed.
Lemma reduceCount_tl : forall l i, positive (tl l) -> positive (tl (reduceCount 0 i l)).
Proof.
  intros [|n r] i P; cbn [tl reduceCount Nat.add] in *; [constructor|].
  destruct (i <? n) eqn:B.
  - destruct (n =? 1); [|exact P]. inversion P; subst; cbn [tl]; [constructor|assumption].
  - cbn [tl]. apply reduceCount_positive; [|exact P]. apply Nat.ltb_ge in B. lia.
Qed.
Lemma reduceCount_length : forall l cols i, length (reduceCount cols i l) <= length l.
Proof.
  induction l as [|n r IH]; intros cols i; cbn [reduceCount length]; [lia|]. destruct (_ <? _); [destruct (_ =? _); cbn [length]; lia|]. cbn [length]. specialize (IH (cols + n) i). lia.
Qed.
Lemma reduceCount_front l i : hd 1 l = 0 -> reduceCount 0 i l = 0 :: reduceCount 0 i (tl l).
Proof. destruct l as [|n r]; cbn; [discriminate|]. intros ->. cbn. now destruct (Nat.ltb_spec i 0); [lia|]. Qed.
Lemma backDecrement_some : forall l l', backDecrement l = Some l' -> positive (tl l) ->
  S (sum l') = sum l /\ positive (tl l') /\ length l' <= length l /\ (2 <= length l -> exists q, l' = hd 0 l :: q /\ positive q).
Proof.
  induction l as [|n r IH]; intros l' E P; [discriminate|]. destruct r as [|m r].
  - destruct n as [|[|n]]; [discriminate| |]; apply some_inj in E; subst l'; cbn; repeat split; try lia; try constructor.
  - change (match backDecrement (m :: r) with None => None | Some q => Some (n :: q) end = Some l') in E.
    destruct (backDecrement (m :: r)) as [q|] eqn:F; [|discriminate]. apply some_inj in E. subst l'.
    cbn [tl] in P. assert (Pr : positive (tl (m :: r))) by (inversion P; assumption).
    destruct (IH q eq_refl Pr) as (A & B & C & D).
    assert (Pq : positive q).
    { destruct r as [|k r].
      - destruct m as [|[|m]]; [discriminate| |]; apply some_inj in F; subst q; [constructor|]. constructor; [lia|constructor].
      - destruct D as (q' & -> & D); [cbn; lia|]. constructor; [|exact D]. now inversion P. }
    repeat split.
    + cbn [sum] in *. lia.
    + exact Pq.
    + cbn in *. lia.
    + intros _. exists q. split; [reflexivity|exact Pq].
Qed.

(** * The core invariant *)
Definition core (s : qn) : Prop :=
  q_cols s <> [] /\ positive (tl (q_cols s)) /\ sum (q_cols s) = length (q_V s) /\ q_W s = q_V s.
Definition sub (V V' : list column) : Prop := forall R, StronglySorted R V -> StronglySorted R V'.
Definition subset (V V' : list column) : Prop := forall x, In x V' -> In x V.
Definition frame (s s' : qn) : Prop :=
  q_firstIteration s' = q_firstIteration s /\ q_firstWindow s' = q_firstWindow s /\ q_window s' = q_window s /\ q_iteration s' = q_iteration s.
Lemma frame_refl s : frame s s. Proof. repeat split. Qed.
Lemma frame_trans a b c : frame a b -> frame b c -> frame a c.
Proof. intros (A1 & A2 & A3 & A4) (B1 & B2 & B3 & B4). repeat split; congruence. Qed.

Lemma core_cols s : core s -> getLSSystemCols s = Some (length (q_V s)).
Proof. intros (A & B & C & D). unfold getLSSystemCols. rewrite D, C, Nat.eqb_refl. reflexivity. Qed.

Lemma sorted_app_inv {A} (R : A -> A -> Prop) a b : StronglySorted R (a ++ b) ->
  StronglySorted R a /\ StronglySorted R b /\ forall x y, In x a -> In y b -> R x y.
Proof.
  induction a as [|z a IH]; cbn; intro H.
  - repeat split; [constructor|assumption|intros x y []].
  - inversion H as [|? ? H1 H2]; subst. destruct (IH H1) as (B1 & B2 & B3). rewrite Forall_forall in H2. repeat split.
    + constructor; [assumption|]. apply Forall_forall. intros x I. apply H2. apply in_or_app. now left.
    + assumption.
    + intros x y [->|I] J; [apply H2; apply in_or_app; now right|now apply B3].
Qed.
Lemma sorted_app {A} (R : A -> A -> Prop) a b : StronglySorted R a -> StronglySorted R b -> (forall x y, In x a -> In y b -> R x y) ->
  StronglySorted R (a ++ b).
Proof.
  intros H1 H2 H3. induction a as [|z a IH]; cbn; [assumption|]. inversion H1 as [|? ? G1 G2]; subst. constructor.
  - apply IH; [assumption|]. intros x y I J. apply H3; [now right|assumption].
  - apply Forall_forall. intros x I. rewrite Forall_forall in G2. apply in_app_or in I as [I|I]; [now apply G2|apply H3; [now left|assumption]].
Qed.
Lemma removeColumn_sub i V V' : removeColumnFromMatrix i V = Some V' -> sub V V'.
Proof.
  unfold removeColumnFromMatrix. destruct (i <? length V); [|discriminate]. intro E. apply some_inj in E. subst.
  intros R H. rewrite <- (firstn_skipn i V) in H. apply sorted_app_inv in H as (A & B & C).
  apply sorted_app; [exact A| |].
  - destruct (skipn i V) as [|x r] eqn:E; [replace (skipn (S i) V) with (@nil column); [constructor|]|].
    + symmetry. apply skipn_all2. assert (length (skipn i V) = 0) by now rewrite E. rewrite skipn_length in *. lia.
    + assert (F : skipn (S i) V = r).
      { rewrite <- (firstn_skipn i V) at 1. rewrite skipn_app, E. assert (L : length (firstn i V) = i).
        { rewrite firstn_length. assert (length (skipn i V) = S (length r)) by now rewrite E. rewrite skipn_length in *. lia. }
        rewrite L. rewrite (skipn_all2 (firstn i V)) by lia. now replace (S i - i) with 1 by lia. }
      rewrite F. now inversion B.
  - intros x y I J. apply C; [assumption|]. destruct (skipn i V) as [|z r] eqn:E.
    + exfalso. assert (length (skipn i V) = 0) by now rewrite E. rewrite skipn_length in *. rewrite skipn_all2 in J by lia. destruct J.
    + assert (F : skipn (S i) V = r).
      { rewrite <- (firstn_skipn i V) at 1. rewrite skipn_app, E. assert (L : length (firstn i V) = i).
        { rewrite firstn_length. assert (length (skipn i V) = S (length r)) by now rewrite E. rewrite skipn_length in *. lia. }
        rewrite L. rewrite (skipn_all2 (firstn i V)) by lia. now replace (S i - i) with 1 by lia. }
      rewrite F in J. now right.
Qed.
Lemma removelast_sub V : sub V (removelast V).
Proof.
  intros R. induction V as [|a [|b l] IH]; intro H; cbn [removelast]; [constructor|constructor|].
  inversion H as [|? ? H1 H2]; subst. constructor; [now apply IH|]. apply Forall_forall. intros x I. rewrite Forall_forall in H2. apply H2. now apply removelast_In.
Qed.

(** what removing columns preserves *)
Definition shrinks (s s' : qn) : Prop :=
  core s' /\ frame s s' /\ sub (q_V s) (q_V s') /\ subset (q_V s) (q_V s') /\ length (q_V s') <= length (q_V s) /\
  (q_V s <> [] -> q_V s' <> []) /\ length (q_cols s') <= length (q_cols s) /\
  (hd 1 (q_cols s) = 0 -> hd 1 (q_cols s') = 0).
Lemma shrinks_refl s : core s -> shrinks s s.
Proof. intro H. repeat split; try apply H; auto; intros R; auto. Qed.
Lemma shrinks_trans a b c : shrinks a b -> shrinks b c -> shrinks a c.
Proof.
  intros (A1 & A2 & A3 & A4 & A5 & A6 & A7 & A8) (B1 & B2 & B3 & B4 & B5 & B6 & B7 & B8).
  split; [exact B1|]. split; [now apply (frame_trans a b)|]. split; [intros R H; now apply B3, A3|]. split; [intros x I; now apply A4, B4|].
  split; [lia|]. split; [auto|]. split; [lia|auto].
Qed.
Lemma removeMatrixColumn_shrinks i s s' : core s -> removeMatrixColumn i s = Some s' -> shrinks s s' /\ q_qr s' = q_qr s.
Proof.
  intros (C1 & C2 & C3 & C4) H. unfold removeMatrixColumn in H. destruct (Nat.leb_spec (length (q_V s)) 1) as [|L]; [discriminate|].
  rewrite C4 in H. destruct (removeColumnFromMatrix i (q_V s)) as [V|] eqn:E; [|discriminate]. injection H as <-.
  pose proof (removeColumn_length i _ _ E) as [L1 L2]. split; [|reflexivity]. cbn.
  assert (S1 : S (sum (reduceCount 0 i (q_cols s))) = sum (q_cols s)) by (apply reduceCount_sum; lia).
  repeat split; cbn.
  - intro N. rewrite N in S1. cbn in S1. lia.
  - now apply reduceCount_tl.
  - lia.
  - now apply (removeColumn_sub i).
  - intros x I. now apply (removeColumn_In i _ V).
  - lia.
  - intros _ N. rewrite N in L1. cbn in L1. lia.
  - apply reduceCount_length.
  - intro F. now rewrite reduceCount_front.
Qed.
Lemma removeMatrixColumns_shrinks is : forall s s', core s -> removeMatrixColumns is s = Some s' -> shrinks s s' /\ q_qr s' = q_qr s.
Proof.
  induction is as [|i r IH]; intros s s' C H; cbn in H.
  - injection H as <-. split; [now apply shrinks_refl|reflexivity].
  - destruct (removeMatrixColumn i s) as [t|] eqn:E; [|discriminate].
    destruct (removeMatrixColumn_shrinks i s t C E) as [A A']. destruct (IH t s' (proj1 A) H) as [B B'].
    split; [now apply (shrinks_trans s t)|congruence].
Qed.
Lemma setQR_core s qr : core s -> shrinks s (setMatrices s (q_cols s) (q_V s) (q_W s) qr).
Proof. intro H. repeat split; cbn; try apply H; auto; intros R; auto. Qed.
Lemma setFallback_core s b : core s -> shrinks s (setFallback s b).
Proof. intro H. repeat split; cbn; try apply H; auto; intros R; auto. Qed.
Lemma checkColumns_some s s' : checkColumns s = Some s' -> s' = s /\ length (q_qr s) = length (q_V s).
Proof. unfold checkColumns. destruct (Nat.eqb_spec (length (q_V s)) (length (q_qr s))); [|discriminate]. intro E. injection E as <-. split; congruence. Qed.
Lemma resetQR_shrinks c d s s' : core s -> resetQR c d s = Some s' -> shrinks s s'.
Proof.
  intros C H. unfold resetQR in H. destruct (insertAll _ _ _ _ _) as [qr failed].
  destruct (removeMatrixColumns failed _) as [t|] eqn:E; [|discriminate]. apply checkColumns_some in H as [-> _].
  pose proof (setQR_core s qr C) as S1. apply (shrinks_trans _ _ _ S1).
  now apply (removeMatrixColumns_shrinks failed _ _ (proj1 S1)).
Qed.
Lemma newQR_shrinks c o s s' : core s -> newQR c o s = Some s' -> shrinks s s'.
Proof.
  intros C H. unfold newQR in H. destruct (o_newQR o); [|injection H as <-; now apply shrinks_refl].
  destruct (isQR23 (c_filter c)).
  - injection H as <-. now apply setFallback_core.
  - destruct (resetQR c (o_reset o) s) as [t|] eqn:E; [|discriminate]. injection H as <-.
    pose proof (resetQR_shrinks _ _ _ _ C E) as S1. apply (shrinks_trans _ _ _ S1). now apply setFallback_core, S1.
Qed.
Lemma applyFilter_shrinks c o s s' : core s -> applyFilter c o s = Some s' -> shrinks s s'.
Proof.
  intros C H. unfold applyFilter in H.
  destruct (c_filter c) eqn:F; [injection H as <-; now apply shrinks_refl| | |];
    (destruct (qrFilter c o s) as [[qr del]|]; [|discriminate]);
    (destruct (removeMatrixColumns (rev del) _) as [t|] eqn:E; [|discriminate]);
    apply checkColumns_some in H as [-> _];
    pose proof (setQR_core s qr C) as S1; apply (shrinks_trans _ _ _ S1);
    pose proof (proj1 (removeMatrixColumns_shrinks _ _ _ (proj1 S1) E)) as S2; apply (shrinks_trans _ _ _ S2); now apply setFallback_core, S2.
Qed.

(** * Adding a column *)
Lemma update_cases c o s s' : 0 < c_max c -> core s -> length (q_V s) <= c_max c -> q_firstIteration s = false ->
  updateDifferenceMatrices c o s = Some s' ->
  let v := (q_window s, q_iteration s) in
  core s' /\ frame s s' /\ (q_V s' = v :: q_V s \/ q_V s' = v :: removelast (q_V s)) /\
  length (q_V s') <= c_max c /\ length (q_V s') <= Nat.max (length (q_V s)) (S (c_rows c)) /\ length (q_cols s') <= length (q_cols s) /\
  (q_V s = [] -> q_V s' = [v]).
Proof.
  intros M C L F H v. unfold updateDifferenceMatrices in H. rewrite F, (core_cols s C) in H. destruct C as (C1 & C2 & C3 & C4).
  rewrite C4, Nat.eqb_refl in H. destruct (Nat.leb_spec (length (q_V s)) (c_max c)); [|lia]. cbn [negb orb] in H.
  destruct (q_cols s) as [|n r] eqn:E; [contradiction|]. cbn [frontIncrement] in H. cbn [tl sum] in C2, C3.
  destruct (negb (length (q_V s) =? c_max c) && (length (q_V s) <=? c_rows c)) eqn:B.
  - apply some_inj in H. subst s'. apply andb_true_iff in B as [B1 B2]. apply negb_true_iff, Nat.eqb_neq in B1. apply Nat.leb_le in B2.
    cbn. repeat split; cbn; try lia; try assumption; try discriminate; [now left|intros ->; reflexivity].
  - destruct (shiftSetFirst (q_window s, q_iteration s) (q_V s)) as [V|] eqn:SV; [|discriminate].
    destruct (popBack _) as [qr|]; [|discriminate]. destruct (backDecrement (S n :: r)) as [cols|] eqn:BD; [|discriminate].
    apply some_inj in H. subst s'. destruct (backDecrement_some _ _ BD C2) as (D1 & D2 & D3 & D4).
    pose proof (shiftSetFirst_length _ _ _ SV) as LV. apply shiftSetFirst_some in SV as [SV ->].
    assert (P : 0 < length (q_V s)) by (destruct (q_V s); [contradiction|cbn; lia]).
    unfold setMatrices, setFallback. cbn [sum] in D1. repeat split; cbn [q_cols q_V q_W q_firstIteration q_firstWindow q_window q_iteration].
    + intros ->. cbn [sum] in D1. lia.
    + exact D2.
    + unfold v, column in *. rewrite LV. lia.
    + now right.
    + unfold v, column in *. rewrite LV. lia.
    + unfold v, column in *. rewrite LV. lia.
    + cbn [length] in *. lia.
    + intro N. contradiction.
Qed.

(** * The invariant *)
Definition newer (a b : column) : Prop := fst b < fst a \/ (fst b = fst a /\ snd b < snd a).
Definition old (s : qn) (V : list column) : Prop := forall x, In x V -> newer (q_window s, q_iteration s) x.
Definition uninitialized (s : qn) : bool := q_firstWindow s && q_firstIteration s.
Record Inv (c : config) (s : qn) : Prop := {
  i_first : uninitialized s = true -> q_cols s = [0];
  i_core : uninitialized s = false -> core s /\ StronglySorted newer (q_V s) /\ old s (q_V s);
  i_limit : length (q_V s) <= c_max c /\ length (q_V s) <= S (c_rows c) /\ q_W s = q_V s;
  i_front : q_firstIteration s = true -> hd 1 (q_cols s) = 0;
  i_entries : length (q_cols s) <= S (Nat.max 1 (c_reused c));
  i_keep : q_firstWindow s = false -> c_reused c = 0 -> c_force c = false -> q_V s <> [] \/ q_firstIteration s = false;
  i_zero : c_reused c = 0 -> q_firstIteration s = false -> forall x, In x (q_V s) -> fst x = q_window s;
  i_forced : c_reused c = 0 -> c_force c = true -> q_firstWindow s = false -> q_firstIteration s = true -> q_V s = [];
  i_single : c_reused c = 0 -> q_firstIteration s = false -> length (q_cols s) <= 1 }.

Lemma start_inv c : Inv c start.
Proof. split; cbn; try reflexivity; try discriminate; try lia. repeat split; lia. Qed.
Lemma initialize_inv c s : Inv c s -> Inv c (initialize s).
Proof. intros I. split; cbn; try reflexivity; try discriminate; try lia. apply I. Qed.

Lemma old_shrink s s' V V' : frame s s' -> subset V V' -> old s V -> old s' V'.
Proof. intros (_ & _ & F1 & F2) S O x I. unfold newer in *. rewrite F1, F2. now apply (O x (S x I)). Qed.
Lemma sorted_added s V : StronglySorted newer V -> old s V -> StronglySorted newer ((q_window s, q_iteration s) :: V).
Proof. intros A B. constructor; [exact A|]. now apply Forall_forall. Qed.

(** the state after initializeVectorsAndPreconditioner() *)
Lemma initializeMatrices_inv c s : Inv c s ->
  let t := initializeMatrices s in
  core t /\ StronglySorted newer (q_V t) /\ old t (q_V t) /\ frame s t /\ length (q_V t) <= c_max c /\ length (q_V t) <= S (c_rows c) /\
  q_cols t = q_cols s /\ (uninitialized s = true -> q_V t = [] /\ q_qr t = []) /\ (uninitialized s = false -> t = s).
Proof.
  intros I t. unfold t, initializeMatrices. change (q_firstWindow s && q_firstIteration s) with (uninitialized s).
  destruct (uninitialized s) eqn:U.
  - cbn. pose proof (i_first _ _ I U) as E. unfold core. cbn. rewrite E. cbn. split; [now repeat split; try constructor|]. split; [constructor|]. split; [intros x []|]. repeat split; try lia; discriminate.
  - destruct (i_core _ _ I U) as (A & B & D). destruct (i_limit _ _ I) as (L1 & L2 & L3). repeat split; auto; try apply A; discriminate.
Qed.

Lemma restore_same c o s : core s -> (q_firstWindow s = false -> c_reused c = 0 -> c_force c = false -> q_V s <> []) -> restoreBackup c o s = Some s.
Proof.
  intros C H. unfold restoreBackup. destruct (q_firstWindow s); [reflexivity|]. rewrite (core_cols s C).
  destruct ((length (q_V s) <? 1) && (c_reused c =? 0) && negb (c_force c)) eqn:B; [|reflexivity].
  apply andb_true_iff in B as [B B3]. apply andb_true_iff in B as [B1 B2]. apply Nat.ltb_lt in B1. apply Nat.eqb_eq in B2. apply negb_true_iff in B3.
  exfalso. apply (H eq_refl B2 B3). destruct (q_V s); [reflexivity|cbn in B1; lia].
Qed.
Lemma computeQNUpdate_same s s' : core s -> computeQNUpdate s = Some s' -> s' = s /\ length (q_qr s) = length (q_V s).
Proof.
  intros C H. unfold computeQNUpdate in H. rewrite (core_cols s C) in H.
  destruct (Nat.eqb_spec (length (q_qr s)) (length (q_V s))); [|discriminate]. injection H as <-. now split.
Qed.

(** a quasi-Newton step between adding the column and the end of the call *)
Definition qnStep (c : config) (o : decisions) (s : qn) : option qn :=
  bind (restoreBackup c o s) (fun s => bind (newQR c o s) (fun s => bind (applyFilter c o s) (fun s => bind (computeQNUpdate s) Some))).
Lemma qnStep_shrinks c o s s' : core s -> (q_firstWindow s = false -> c_reused c = 0 -> c_force c = false -> q_V s <> []) ->
  qnStep c o s = Some s' -> shrinks s s'.
Proof.
  intros C K H. unfold qnStep in H. rewrite (restore_same c o s C K) in H. cbn [bind] in H.
  destruct (newQR c o s) as [t1|] eqn:E1; [|discriminate]. cbn [bind] in H.
  destruct (applyFilter c o t1) as [t2|] eqn:E2; [|discriminate]. cbn [bind] in H.
  pose proof (newQR_shrinks _ _ _ _ C E1) as S1. pose proof (applyFilter_shrinks _ _ _ _ (proj1 S1) E2) as S2.
  destruct (computeQNUpdate t2) as [t3|] eqn:E3; [|discriminate]. cbn [bind] in H. injection H as <-.
  apply computeQNUpdate_same in E3 as [-> _]; [|apply S2]. now apply (shrinks_trans s t1).
Qed.
Lemma perform_unfold c o s : performAcceleration c o s =
  bind (updateDifferenceMatrices c o (initializeMatrices s)) (fun s =>
  if q_firstIteration s && (q_firstWindow s || c_force c) then Some (nextIteration s)
  else bind (qnStep c o s) (fun s => bind (pendingDeletion c s) (fun s => Some (nextIteration s)))).
Proof.
  unfold performAcceleration, qnStep. destruct (updateDifferenceMatrices _ _ _) as [t|]; [|reflexivity]. cbn [bind].
  destruct (q_firstIteration t && _); [reflexivity|].
  destruct (restoreBackup c o t) as [t0|]; [|reflexivity]. cbn [bind]. destruct (newQR c o t0) as [t1|]; [|reflexivity]. cbn [bind].
  destruct (applyFilter c o t1) as [t2|]; [|reflexivity]. cbn [bind]. destruct (computeQNUpdate t2); reflexivity.
Qed.
Lemma update_first c o s : q_firstIteration s = true -> updateDifferenceMatrices c o s = Some s.
Proof. intro F. unfold updateDifferenceMatrices. now rewrite F. Qed.

Lemma subset_tail (v : column) V V' : (V' = v :: V \/ V' = v :: removelast V) -> forall x, In x V' -> x = v \/ In x V.
Proof. intros [->| ->] x [->|I]; auto. right. now apply removelast_In. Qed.

Lemma perform_inv c o s s' : 0 < c_max c -> Inv c s -> performAcceleration c o s = Some s' -> Inv c s'.
Proof.
  intros M I H. rewrite perform_unfold in H.
  destruct (initializeMatrices_inv c s I) as (C & So & Ol & Fr & L1 & L2 & Ec & Un & In_). set (t := initializeMatrices s) in *.
  destruct Fr as (F1 & F2 & F3 & F4).
  assert (KP : q_firstWindow s = false -> c_reused c = 0 -> c_force c = false -> q_V t <> [] \/ q_firstIteration s = false).
  { intros A B D. destruct (i_keep _ _ I A B D) as [K|K]; [|now right]. left. rewrite In_; [exact K|]. unfold uninitialized. now rewrite A. }
  destruct (q_firstIteration s) eqn:FI.
  - (* first iteration *)
    rewrite update_first in H by congruence. cbn [bind] in H. rewrite F1 in H. cbn [andb] in H.
    destruct (q_firstWindow t || c_force c) eqn:FW.
    + apply some_inj in H. subst s'. split; unfold nextIteration, uninitialized; cbn [q_cols q_V q_W q_firstIteration q_firstWindow q_window q_iteration]; try discriminate.
      * rewrite andb_false_r. discriminate.
      * intros _. split; [exact C|]. split; [exact So|]. intros x J. specialize (Ol x J). unfold newer in *. cbn in *. lia.
      * split; [exact L1|]. split; [exact L2|]. apply C.
      * rewrite Ec. apply I.
      * now right.
      * intros R _ x J. destruct (uninitialized s) eqn:U; [destruct (Un eq_refl) as [E _]; rewrite E in J; destruct J|].
        assert (FWs : q_firstWindow s = false) by (unfold uninitialized in U; rewrite FI, andb_true_r in U; exact U).
        rewrite F2, FWs in FW. cbn in FW. rewrite (In_ eq_refl) in J. rewrite (i_forced _ _ I R FW FWs FI) in J. destruct J.
      * intros R _. destruct (uninitialized s) eqn:U; [rewrite Ec, (i_first _ _ I U); cbn; lia|].
        assert (FWs : q_firstWindow s = false) by (unfold uninitialized in U; rewrite FI, andb_true_r in U; exact U).
        rewrite F2, FWs in FW. cbn in FW. pose proof (i_forced _ _ I R FW FWs FI) as VE. rewrite (In_ eq_refl) in *.
        destruct C as (_ & C2 & C3 & _). rewrite VE in C3. destruct (q_cols s) as [|a [|b r]]; cbn in *; try lia. inversion C2; subst. lia.
    + apply orb_false_iff in FW as [FW Fo]. assert (FWs : q_firstWindow s = false) by congruence.
      destruct (qnStep c o t) as [u|] eqn:Q; [|discriminate]. cbn [bind] in H.
      assert (S1 : shrinks t u).
      { apply (qnStep_shrinks c o); [exact C| |exact Q]. intros _ B D. destruct (KP FWs B D) as [K|K]; [exact K|discriminate]. }
      destruct S1 as (S1 & (G1 & G2 & G3 & G4) & S3 & S4 & S5 & S6 & S7 & S8).
      unfold pendingDeletion in H. rewrite G1, F1, Fo in H. cbn [andb negb] in H.
      destruct (Nat.eqb_spec (c_reused c) 0) as [R|R]; cbn [andb] in H.
      * rewrite (core_cols u S1) in H. cbn [bind] in H. apply some_inj in H.
        set (w := if 0 <? length (q_V u) then _ else u) in H.
        assert (Ew : frame u w) by (unfold w; destruct (0 <? length (q_V u)); repeat split; cbn; congruence).
        destruct Ew as (W1 & W2 & W3 & W4). rewrite G2, FW in H. subst s'.
        split; unfold nextIteration, setMatrices, uninitialized; cbn [q_cols q_V q_W q_firstIteration q_firstWindow q_window q_iteration]; try discriminate.
        -- rewrite andb_false_r. discriminate.
        -- intros _. split; [now repeat split; try constructor|]. split; [constructor|]. intros x [].
        -- cbn. repeat split; lia.
        -- cbn. lia.
        -- now right.
        -- intros _ _ x [].
        -- cbn. lia.
      * cbn [bind] in H. apply some_inj in H. subst s'.
        split; unfold nextIteration, uninitialized; cbn [q_cols q_V q_W q_firstIteration q_firstWindow q_window q_iteration]; try discriminate.
        -- rewrite andb_false_r. discriminate.
        -- intros _. split; [exact S1|]. split; [now apply S3|]. intros x J. specialize (Ol x (S4 x J)). unfold newer in *. cbn in *. rewrite G3, G4. lia.
        -- split; [lia|]. split; [lia|]. apply S1.
        -- pose proof (i_entries _ _ I). rewrite Ec in S7. lia.
        -- now right.
        -- intros R0. contradiction.
        -- intros R0. contradiction.
  - (* later iterations *)
    assert (U : uninitialized s = false) by (unfold uninitialized; now rewrite FI, andb_false_r).
    destruct (updateDifferenceMatrices c o t) as [u|] eqn:UP; [|discriminate]. cbn [bind] in H.
    destruct (update_cases c o t u M C L1 F1 UP) as (S1 & (G1 & G2 & G3 & G4) & S3 & S4 & S5 & S6 & S7).
    rewrite G1, F1 in H. cbn [andb] in H.
    destruct (qnStep c o u) as [w|] eqn:Q; [|discriminate]. cbn [bind] in H.
    assert (Nu : q_V u <> []) by (destruct S3 as [-> | ->]; discriminate).
    destruct (qnStep_shrinks c o u w S1 (fun _ _ _ => Nu) Q) as (T1 & (H1 & H2 & H3 & H4) & T3 & T4 & T5 & T6 & T7 & T8).
    unfold pendingDeletion in H. rewrite H1, G1, F1 in H. cbn [andb bind] in H. apply some_inj in H. subst s'.
    split; unfold nextIteration, uninitialized; cbn [q_cols q_V q_W q_firstIteration q_firstWindow q_window q_iteration]; try discriminate.
    + rewrite andb_false_r. discriminate.
    + intros _. split; [exact T1|]. split.
      * apply T3. destruct S3 as [-> | ->]; rewrite F1 in *.
        -- now apply sorted_added.
        -- apply sorted_added; [now apply removelast_sub|]. intros x J. apply Ol. now apply removelast_In.
      * intros x J. apply T4 in J. destruct (subset_tail _ _ _ S3 x J) as [->|K]; unfold newer; cbn.
        -- rewrite H3, H4, G3, G4. right. lia.
        -- specialize (Ol x K). unfold newer in Ol. cbn in Ol. rewrite H3, H4, G3, G4. lia.
    + split; [lia|]. split; [lia|]. apply T1.
    + pose proof (i_entries _ _ I). rewrite Ec in S6. lia.
    + now right.
    + intros R _ x J. apply T4 in J. destruct (subset_tail _ _ _ S3 x J) as [->|K]; cbn.
      * congruence.
      * rewrite (In_ U) in K. rewrite (i_zero _ _ I R FI x K). congruence.
    + intros R _. pose proof (i_single _ _ I R FI). rewrite Ec in S6. lia.
Qed.

(** * Dropping windows *)
Lemma removeColumn_last {A} (V V' : list A) : removeColumnFromMatrix (length V - 1) V = Some V' -> V <> [] /\ V' = removelast V.
Proof.
  unfold removeColumnFromMatrix. destruct (Nat.ltb_spec (length V - 1) (length V)) as [L|L]; [|discriminate].
  intro E. apply some_inj in E. subst V'. split; [intros ->; cbn in L; lia|].
  rewrite skipn_all2 by lia. rewrite app_nil_r, removelast_firstn_len. f_equal. lia.
Qed.
Lemma dropBack_some n : forall V qr V' W' qr', dropBack n V V qr = Some (V', W', qr') ->
  W' = V' /\ sub V V' /\ subset V V' /\ length V' + n = length V /\ length qr' + n = length qr /\ (exists r, V = V' ++ r) /\ exists r, qr = qr' ++ r.
Proof.
  induction n as [|n IH]; intros V qr V' W' qr' H; cbn [dropBack] in H.
  - injection H as <- <- <-. repeat split; auto; try (intros R; auto); try lia; exists []; now rewrite app_nil_r.
  - destruct (removeColumnFromMatrix (length V - 1) V) as [X|] eqn:E; [|discriminate].
    destruct (popBack qr) as [q|] eqn:P; [|discriminate].
    apply removeColumn_last in E as [N ->].
    assert (Q : qr <> [] /\ q = removelast qr) by (destruct qr; [discriminate|]; apply some_inj in P; now split). destruct Q as [Nq ->].
    destruct (IH _ _ _ _ _ H) as (A & B & C & D & E & (r1 & F) & (r2 & G)). rewrite length_removelast in *.
    assert (0 < length V) by (destruct V; [contradiction|cbn; lia]). assert (0 < length qr) by (destruct qr; [contradiction|cbn; lia]).
    repeat split; auto; try lia.
    + intros R K. apply B. now apply removelast_sub.
    + intros x I. apply removelast_In. now apply C.
    + pose proof (app_removelast_last (0, 0) N) as X. unfold column in *. exists (r1 ++ [last V (0, 0)]). rewrite app_assoc, <- F. exact X.
    + pose proof (app_removelast_last (0, 0) Nq) as X. unfold column in *. exists (r2 ++ [last qr (0, 0)]). rewrite app_assoc, <- G. exact X.
Qed.

Lemma sum_removelast l : l <> [] -> sum (removelast l) + last l 0 = sum l.
Proof. intro N. pose proof (app_removelast_last 0 N) as E. rewrite E at 3. rewrite sum_app. cbn. lia. Qed.
Lemma positive_removelast l : positive l -> positive (removelast l).
Proof. intro P. apply Forall_forall. intros x I. apply removelast_In in I. unfold positive in P. rewrite Forall_forall in P. now apply P. Qed.

(** the numbers of columns between the end of a window and the next one *)
Definition settled (s : qn) : Prop := positive (q_cols s) /\ sum (q_cols s) = length (q_V s) /\ q_W s = q_V s.
Lemma settled_cols s : settled s -> getLSSystemCols s = Some (length (q_V s)).
Proof. intros (B & C & D). unfold getLSSystemCols. now rewrite D, C, Nat.eqb_refl. Qed.
Lemma dropOldWindows_some c s s' : settled s -> dropOldWindows c s = Some s' ->
  settled s' /\ frame s s' /\ sub (q_V s) (q_V s') /\ subset (q_V s) (q_V s') /\ length (q_V s') <= length (q_V s) /\
  length (q_cols s') <= length (q_cols s) /\
  (c_reused c <> 0 -> length (q_cols s) <= S (c_reused c) -> length (q_cols s') <= c_reused c) /\
  (c_reused c = 0 -> c_force c = true -> q_cols s' = [] /\ q_V s' = [] /\ q_qr s' = []) /\
  (c_reused c = 0 -> c_force c = false -> s' = s).
Proof.
  intros S H. pose proof S as (S1 & S2 & S3). unfold dropOldWindows in H.
  destruct (Nat.eqb_spec (c_reused c) 0) as [R|R].
  - destruct (c_force c); apply some_inj in H; subst s'.
    + cbn. split; [now repeat split; try constructor|]. split; [repeat split|]. split; [intros X _; constructor|]. split; [intros x []|].
      repeat split; cbn; try lia; try contradiction; discriminate.
    + split; [exact S|]. split; [apply frame_refl|]. split; [intros X Y; exact Y|]. split; [intros x I; exact I|]. repeat split; auto; try contradiction; discriminate.
  - destruct (Nat.ltb_spec (c_reused c) (length (q_cols s))) as [L|L].
    2: { apply some_inj in H. subst s'. split; [exact S|]. split; [apply frame_refl|]. split; [intros X Y; exact Y|]. split; [intros x I; exact I|].
         repeat split; auto; try contradiction; lia. }
    destruct (Nat.eqb_spec (last (q_cols s) 0) 0) as [Z|Z]; [discriminate|]. rewrite (settled_cols s S) in H.
    destruct (Nat.leb_spec (length (q_V s)) (last (q_cols s) 0)) as [|B]; [discriminate|]. rewrite S3 in H.
    destruct (dropBack _ _ _ _) as [[[V W] qr]|] eqn:D; [|discriminate]. apply some_inj in H. subst s'.
    destruct (dropBack_some _ _ _ _ _ _ D) as (A1 & A2 & A3 & A4 & _). subst W.
    assert (N : q_cols s <> []) by (intro N; rewrite N in L; cbn in L; lia).
    pose proof (sum_removelast _ N). cbn. split; [repeat split; cbn|].
    + now apply positive_removelast.
    + lia.
    + split; [repeat split|]. split; [exact A2|]. split; [exact A3|]. rewrite length_removelast.
      repeat split; try lia; contradiction.
Qed.
Lemma popZeroFront_positive l : positive (tl l) -> positive (popZeroFront (popZeroFront l)) /\ sum (popZeroFront (popZeroFront l)) = sum l /\
  popZeroFront (popZeroFront l) = popZeroFront l /\ (hd 1 l = 0 -> popZeroFront l = tl l) /\ (hd 0 l <> 0 -> popZeroFront l = l).
Proof.
  intro P. destruct l as [|[|n] r]; cbn; [repeat split; auto; constructor| |].
  - destruct r as [|[|m] r]; cbn; repeat split; auto; try lia; try constructor; inversion P; subst; try lia; auto.
  - repeat split; auto; try discriminate. constructor; [lia|exact P].
Qed.

Lemma converged_inv c o s s' : 0 < c_max c -> Inv c s -> iterationsConverged c o s = Some s' -> Inv c s'.
Proof.
  intros M I H. unfold iterationsConverged in H. destruct (getLSSystemCols s) as [gl|]; [|discriminate]. cbn [bind] in H.
  destruct (initializeMatrices_inv c s I) as (C & So & Ol & Fr & L1 & L2 & Ec & Un & In_). set (t := initializeMatrices s) in *.
  destruct (updateDifferenceMatrices c o t) as [u|] eqn:UP; [|discriminate]. cbn [bind] in H.
  assert (A : core u /\ frame t u /\ StronglySorted newer (q_V u) /\ (forall x, In x (q_V u) -> fst x <= q_window s) /\ length (q_V u) <= c_max c /\
     length (q_V u) <= S (c_rows c) /\ length (q_cols u) <= length (q_cols s) /\ (q_firstIteration s = false -> q_V u <> []) /\
     (q_firstIteration s = true -> u = t)).
  { destruct Fr as (F1 & F2 & F3 & F4). destruct (q_firstIteration s) eqn:FI.
    - rewrite update_first in UP by congruence. injection UP as <-. repeat split; try apply C; auto; try congruence.
      + intros x J. specialize (Ol x J). unfold newer in Ol. rewrite F3, F4 in Ol. cbn in Ol. lia.
      + rewrite Ec. lia.
    - destruct (update_cases c o t u M C L1 F1 UP) as (S1 & G & S3 & S4 & S5 & S6 & S7). rewrite Ec in S6.
      split; [exact S1|]. split; [exact G|]. split; [|split; [|repeat split; try lia; try discriminate]].
      + destruct S3 as [-> | ->]; [now apply sorted_added|]. apply sorted_added; [now apply removelast_sub|].
        intros x J. apply Ol. now apply removelast_In.
      + intros x J. destruct (subset_tail _ _ _ S3 x J) as [->|K]; cbn; [lia|]. specialize (Ol x K). unfold newer in Ol. rewrite F3 in Ol. cbn in Ol. lia.
      + destruct S3 as [-> | ->]; discriminate. }
  destruct A as (C' & Fu & So' & Ol' & L1' & L2' & Le & Ne & Sa).
  destruct (frame_trans _ _ _ Fr Fu) as (F1 & F2 & F3 & F4).
  set (p := setMatrices u (popZeroFront (popZeroFront (q_cols u))) (q_V u) (q_W u) (q_qr u)) in *.
  destruct C' as (C1 & C2 & C3 & C4). destruct (popZeroFront_positive (q_cols u) C2) as (P1 & P2 & P3 & P4 & P5).
  assert (Sp : settled p) by (unfold settled, p; cbn; repeat split; [exact P1|congruence|exact C4]).
  destruct (dropOldWindows c p) as [w|] eqn:D; [|discriminate]. cbn [bind] in H. apply some_inj in H. subst s'.
  destruct (dropOldWindows_some c p w Sp D) as ((W1 & W2 & W3) & (G1 & G2 & G3 & G4) & W5 & W6 & W7 & W8 & W9 & W10 & W11).
  assert (Ep : q_cols p = popZeroFront (q_cols u)) by exact P3.
  assert (Lp : length (q_cols p) <= length (q_cols s)).
  { rewrite Ep. destruct (q_cols u) as [|[|n] r]; cbn in *; lia. }
  split; cbn [q_cols q_V q_W q_firstIteration q_firstWindow q_window q_iteration]; try discriminate.
  - intro U. unfold uninitialized in U. cbn in U. rewrite andb_true_r in U. apply andb_true_iff in U as [U1 U2].
    rewrite G2 in U1. rewrite G1 in U2. change (q_firstWindow p) with (q_firstWindow u) in U1. change (q_firstIteration p) with (q_firstIteration u) in U2.
    assert (Us : uninitialized s = true) by (unfold uninitialized; rewrite <- F1, <- F2, U1, U2; reflexivity).
    assert (Eu : u = t) by (apply Sa; rewrite <- F1; exact U2). destruct (Un Us) as [Vt _].
    assert (Lw : length (q_V w) = 0) by (change (length (q_V p)) with (length (q_V u)) in W7; rewrite Eu, Vt in W7; cbn in W7; lia).
    rewrite Lw in W2. destruct (q_cols w) as [|n r]; [reflexivity|]. inversion W1; subst. cbn in W2. lia.
  - intros _. split; [|split].
    + unfold core. cbn. repeat split; auto. discriminate.
    + now apply W5.
    + intros x J. specialize (Ol' x (W6 x J)). unfold newer. cbn. rewrite G3. change (q_window p) with (q_window u). rewrite F3. left. lia.
  - change (length (q_V p)) with (length (q_V u)) in W7. repeat split; try lia. exact W3.
  - reflexivity.
  - cbn [length]. pose proof (i_entries _ _ I). destruct (Nat.eq_dec (c_reused c) 0) as [R|R].
    + destruct (c_force c) eqn:Fo; [destruct (W10 R eq_refl) as (-> & _); cbn; lia|]. rewrite (W11 R eq_refl), Ep.
      (* without reused windows there is at most one old window *)
      rewrite R in H |- *. cbn in H.
      destruct (q_firstIteration s) eqn:FI.
      * rewrite (Sa eq_refl). rewrite Ec. pose proof (i_front _ _ I FI) as FT. destruct (q_cols s) as [|[|n] r]; cbn in *; lia.
      * pose proof (i_single _ _ I R FI). destruct (q_cols u) as [|[|n] r]; cbn in *; lia.
    + assert (length (q_cols p) <= S (c_reused c)) by lia. specialize (W9 R H0). lia.
  - intros A B E. left. rewrite (W11 B E). cbn. destruct (q_firstIteration s) eqn:FI; [|now apply Ne].
    assert (FW : q_firstWindow s = false).
    { rewrite G1, G2 in A. change (q_firstWindow p) with (q_firstWindow u) in A. change (q_firstIteration p) with (q_firstIteration u) in A.
      rewrite F1, F2, andb_true_r in A. exact A. }
    rewrite (Sa eq_refl). destruct (i_keep _ _ I FW B E) as [K|K]; [|congruence]. rewrite In_; [exact K|]. unfold uninitialized. now rewrite FW.
  - intros B E _ _. now apply (W10 B E).
Qed.
