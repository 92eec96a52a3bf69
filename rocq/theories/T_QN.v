(** C48: the number and the age of the columns of quasi-Newton acceleration.
    C62: its matrices and its factorization stay consistent. *)
From Coq Require Import Bool List Arith Lia Sorted.
From Verif Require Import M_QN P_QN S_QN P_QNWin P_QNRun.
Import ListNotations.

Lemma columns_uninit s : uninitialized s = true -> columns s = [].
Proof. unfold columns, uninitialized. now intros ->. Qed.
Lemma columns_init s : uninitialized s = false -> columns s = q_V s.
Proof. unfold columns, uninitialized. now intros ->. Qed.
Lemma sorted_nth (R : column -> column -> Prop) V : StronglySorted R V -> forall i j, i < j -> j < length V -> R (nth i V (0, 0)) (nth j V (0, 0)).
Proof.
  induction 1 as [|v V S IH F]; intros i j I J; [cbn in J; lia|]. destruct j as [|j]; [lia|]. cbn [length] in J. destruct i as [|i]; cbn [nth].
  - rewrite Forall_forall in F. apply F. apply nth_In. lia.
  - apply IH; lia.
Qed.

(** [_firstIteration] is the iteration with number 0 *)
Definition counted (s : qn) : Prop := q_firstIteration s = (q_iteration s =? 0).
Lemma qnStep_frame c o s s' : core s -> (q_firstWindow s = false -> c_reused c = 0 -> c_force c = false -> q_V s <> []) -> qnStep c o s = Some s' -> frame s s'.
Proof. intros C K H. now apply (qnStep_shrinks c o s s' C K H). Qed.
Lemma perform_frame c o s s' : 0 < c_max c -> Inv c s -> performAcceleration c o s = Some s' ->
  q_firstIteration s' = false /\ q_window s' = q_window s /\ q_iteration s' = S (q_iteration s).
Proof.
  intros M I H. rewrite perform_unfold in H. apply bind_some in H as (u & UP & H). apply update_frame in UP.
  destruct (initializeMatrices_inv c s I) as (_ & _ & _ & Fr & _). pose proof (frame_trans _ _ _ Fr UP) as (F1 & F2 & F3 & F4).
  destruct (q_firstIteration u && _); [apply some_inj in H; subst; cbn; repeat split; congruence|].
  apply bind_some in H as (w & Q & H). apply bind_some in H as (x & P & H). apply some_inj in H. subst s'. cbn.
  assert (X : q_window w = q_window u /\ q_iteration w = q_iteration u).
  { clear P. unfold qnStep in Q. apply bind_some in Q as (r1 & E1 & Q). apply bind_some in Q as (r2 & E2 & Q). apply bind_some in Q as (r3 & E3 & Q).
    apply bind_some in Q as (r4 & E4 & Q). apply some_inj in Q. subst r4.
    assert (A0 : forall is a b, removeMatrixColumns is a = Some b -> q_window b = q_window a /\ q_iteration b = q_iteration a).
    { induction is as [|i r IH]; intros a b E; cbn in E; [apply some_inj in E; now subst|]. destruct (removeMatrixColumn i a) as [m|] eqn:R; [|discriminate].
      apply IH in E as [-> ->]. unfold removeMatrixColumn in R. destruct (length (q_V a) <=? 1); [discriminate|].
      destruct (removeColumnFromMatrix i (q_V a)); [|discriminate]. destruct (removeColumnFromMatrix i (q_W a)); [|discriminate]. apply some_inj in R. now subst. }
    assert (Rs : forall d a b, resetQR c d a = Some b -> q_window b = q_window a /\ q_iteration b = q_iteration a).
    { intros d a b E. unfold resetQR in E. destruct (insertAll _ _ _ _ _) as [qr fl]. destruct (removeMatrixColumns fl _) as [m|] eqn:R; [|discriminate].
      apply checkColumns_some in E as [-> _]. apply A0 in R as [-> ->]. now split. }
    assert (A1 : q_window r1 = q_window u /\ q_iteration r1 = q_iteration u).
    { unfold restoreBackup in E1. destruct (q_firstWindow u); [apply some_inj in E1; now subst|]. destruct (getLSSystemCols u); [|discriminate].
      destruct (_ && _); [|apply some_inj in E1; now subst]. apply Rs in E1 as [-> ->]. now split. }
    assert (A2 : q_window r2 = q_window r1 /\ q_iteration r2 = q_iteration r1).
    { unfold newQR in E2. destruct (o_newQR o); [|apply some_inj in E2; now subst]. destruct (isQR23 _); [apply some_inj in E2; now subst|].
      destruct (resetQR _ _ _) as [m|] eqn:R; [|discriminate]. apply Rs in R. apply some_inj in E2. subst. exact R. }
    assert (A3 : q_window r3 = q_window r2 /\ q_iteration r3 = q_iteration r2).
    { unfold applyFilter in E3. destruct (c_filter c); [apply some_inj in E3; now subst| | |];
      (destruct (qrFilter _ _ _) as [[qr del]|]; [|discriminate]); (destruct (removeMatrixColumns _ _) as [m|] eqn:R; [|discriminate]);
      apply checkColumns_some in E3 as [-> _]; apply A0 in R as [R1 R2]; now split. }
    assert (A4 : w = r3).
    { unfold computeQNUpdate in E4. destruct (getLSSystemCols r3); [|discriminate]. destruct (_ =? _); [apply some_inj in E4; now subst|discriminate]. }
    subst w. destruct A1, A2, A3. split; congruence. }
  assert (Y : q_window x = q_window w /\ q_iteration x = q_iteration w).
  { unfold pendingDeletion in P. destruct (_ && _); [|apply some_inj in P; now subst]. destruct (getLSSystemCols w); [|discriminate].
    apply some_inj in P. subst x. destruct (0 <? _); destruct (q_firstWindow w); now split. }
  destruct X, Y. repeat split; congruence.
Qed.
Lemma step_counted c e s s' : 0 < c_max c -> Inv c s -> counted s -> step c e s = Some s' -> counted s'.
Proof.
  intros M I K H. destruct e as [|o|o]; cbn in H.
  - apply some_inj in H. now subst.
  - destruct (perform_frame c o s s' M I H) as (A & _ & B). unfold counted. now rewrite A, B.
  - unfold iterationsConverged in H. apply bind_some in H as (gl & _ & H). apply bind_some in H as (u & _ & H). apply bind_some in H as (w & _ & H).
    apply some_inj in H. now subst.
Qed.
Lemma run_counted c : 0 < c_max c -> forall es s s', Inv c s -> counted s -> run c es s = Some s' -> counted s'.
Proof.
  intros M. induction es as [|e es IH]; intros s s' I K H; cbn in H; [apply some_inj in H; now subst|].
  apply bind_some in H as (t & E & H). apply (IH t); [now apply (step_inv c e s)|now apply (step_counted c e s)|exact H].
Qed.
Lemma start_counted : counted start. Proof. reflexivity. Qed.

(** ** There are never more columns than allowed, and their number is the sum of the numbers
    that are kept for the windows. *)
Theorem C48_columns_are_limited : forall c es s, 0 < c_max c -> run c es start = Some s ->
  length (columns s) <= c_max c /\ length (columns s) <= S (c_rows c) /\ q_W s = q_V s /\ sum (q_cols s) = length (columns s).
Proof.
  intros c es s M H. pose proof (run_inv c M es start s (start_inv c) H) as I. destruct (i_limit _ _ I) as (L1 & L2 & L3).
  destruct (uninitialized s) eqn:U.
  - rewrite (columns_uninit s U), (i_first _ _ I U). cbn. repeat split; try lia. exact L3.
  - rewrite (columns_init s U). destruct (i_core _ _ I U) as ((_ & _ & C3 & _) & _). now repeat split.
Qed.
Print Assumptions C48_columns_are_limited.

(** ** The columns are sorted by age, without duplicates, and all of them are from the past. *)
Theorem C48_newest_first : forall c es s, 0 < c_max c -> run c es start = Some s ->
  newest_first (columns s) /\ forall x, In x (columns s) -> added_after (q_window s, q_iteration s) x.
Proof.
  intros c es s M H. pose proof (run_inv c M es start s (start_inv c) H) as I. destruct (uninitialized s) eqn:U.
  - rewrite (columns_uninit s U). split; [intros i j _ J; cbn in J; lia|intros x []].
  - rewrite (columns_init s U). destruct (i_core _ _ I U) as (_ & So & Ol). split; [|exact Ol]. intros i j A B. exact (sorted_nth newer _ So i j A B).
Qed.
Print Assumptions C48_newest_first.

(** ** Without reuse all columns are from the current window, and with an enforced initial
    relaxation there are none when a window begins. *)
Theorem C48_no_reuse : forall c es s, 0 < c_max c -> c_reused c = 0 -> run c es start = Some s ->
  (1 <= q_iteration s -> forall x, In x (columns s) -> window_of x = q_window s) /\
  (c_force c = true -> q_iteration s = 0 -> columns s = []).
Proof.
  intros c es s M R H. pose proof (run_inv c M es start s (start_inv c) H) as I.
  pose proof (run_counted c M es start s (start_inv c) start_counted H) as K. unfold counted in K. split.
  - intros Q x X. assert (F : q_firstIteration s = false) by (rewrite K; now apply Nat.eqb_neq; lia).
    assert (U : uninitialized s = false) by (unfold uninitialized; now rewrite F, andb_false_r).
    rewrite (columns_init s U) in X. exact (i_zero _ _ I R F x X).
  - intros Fo Q. rewrite Q in K. cbn in K. destruct (uninitialized s) eqn:U; [now apply columns_uninit|]. rewrite (columns_init s U).
    apply (i_forced _ _ I R Fo); [|exact K]. unfold uninitialized in U. now rewrite K, andb_true_r in U.
Qed.
Print Assumptions C48_no_reuse.

(** ** Columns of at most [time-windows-reused] earlier windows are left, as long as some
    column of the current window is left in each window.  (Without reuse the columns of the
    window before stay until the first iteration is over.) *)
Lemma run_win c : 0 < c_max c -> forall es s0 s, Inv c s0 -> counted s0 -> Win s0 ->
  (forall before after t, es = before ++ after -> run c before s0 = Some t -> current_window_left t) -> run c es s0 = Some s -> Win s.
Proof.
  intro M. induction es as [|e es IH]; intros s0 s I K W T H; cbn in H; [apply some_inj in H; now subst|].
  apply bind_some in H as (t & E & H). apply (IH t s); [now apply (step_inv c e s0)|now apply (step_counted c e s0)| | |exact H].
  - destruct e as [|o|o]; cbn in E.
    + apply some_inj in E. subst. intro U. discriminate.
    + apply (perform_win c o s0 t M I W E). destruct (q_firstIteration s0) eqn:F; [now right|]. left.
      destruct (perform_frame c o s0 t M I E) as (A & B & D). unfold counted in K. rewrite F in K. symmetry in K. apply Nat.eqb_neq in K.
      destruct (T [Perform o] es t eq_refl) as (x & X & Y); [cbn; now rewrite E|lia|].
      assert (U : uninitialized t = false) by (unfold uninitialized; now rewrite A, andb_false_r). rewrite (columns_init t U) in X.
      unfold current. apply in_map_iff. now exists x.
    + now apply (converged_win c o s0).
  - intros b a x -> X. apply (T (e :: b) a x); [reflexivity|]. cbn. now rewrite E.
Qed.
Theorem C48_at_most_reused_windows : forall c es s, 0 < c_max c -> run c es start = Some s -> throughout c es current_window_left ->
  forall l, earlier_windows s l ->
  length l <= Nat.max 1 (c_reused c) /\ (1 <= q_iteration s \/ c_force c = true -> length l <= c_reused c).
Proof.
  intros c es s M H T l (N & L). pose proof (run_inv c M es start s (start_inv c) H) as I.
  pose proof (run_counted c M es start s (start_inv c) start_counted H) as K. unfold counted in K.
  assert (W : Win s) by (apply (run_win c M es start s (start_inv c) start_counted); [discriminate|exact T|exact H]).
  destruct (uninitialized s) eqn:U.
  { assert (l = []) by (destruct l as [|w l]; [reflexivity|]; destruct (L w (or_introl eq_refl)) as (_ & x & X & _); rewrite (columns_uninit s U) in X; destruct X).
    subst l. cbn. split; [lia|intros; lia]. }
  rewrite (columns_init s U) in *. destruct (i_core _ _ I U) as (C & _).
  assert (B : length l <= pred (length (q_cols s))).
  { apply (win_counts s C (W U) l N). intros w J. destruct (L w J) as (A & x & X & Y). split; [exact A|]. apply in_map_iff. exists x. now split. }
  pose proof (i_entries _ _ I). split; [lia|]. intro Q. destruct (c_reused c) as [|r] eqn:R; [|lia].
  destruct (q_firstIteration s) eqn:F.
  - destruct Q as [Q|Fo]; [symmetry in K; apply Nat.eqb_eq in K; lia|].
    assert (FW : q_firstWindow s = false) by (unfold uninitialized in U; now rewrite F, andb_true_r in U).
    destruct l as [|w l]; [cbn; lia|]. destruct (L w (or_introl eq_refl)) as (_ & x & X & _).
    rewrite (i_forced _ _ I R Fo FW F) in X. destruct X.
  - pose proof (i_single _ _ I R F). lia.
Qed.
Print Assumptions C48_at_most_reused_windows.

(** ** If no column is rejected and the newest one passes the filters, no assertion fails,
    the factorization is that of the columns, and some column of the current window is left. *)
Lemma run_left c : 0 < c_max c -> c_max c < c_rows c -> forall es f s0 s, Good c f s0 -> counted s0 -> current_window_left s0 -> all_independent es ->
  (f = true -> forall o r, es <> Converged o :: r) -> iterates_after_change es -> run c es s0 = Some s -> current_window_left s.
Proof.
  intros M R. induction es as [|e es IH]; intros f s0 s G K Cu A B D H; cbn in H; [apply some_inj in H; now subst|].
  apply bind_some in H as (t & E & H).
  assert (A' : all_independent es) by (intros e' o J; apply A; now right).
  assert (D' : iterates_after_change es) by (intros a o r X; apply (D (e :: a) o r); now rewrite X).
  pose proof (step_counted c e s0 t M (g_inv _ _ _ G) K E) as Kt.
  destruct e as [|o|o]; cbn in E.
  - apply some_inj in E. subst t. apply (IH true (initialize s0)); auto; [now apply (initialize_good c f)|intro X; cbn in X; lia|].
    intros _ o r X. apply (D [] o r). now rewrite X.
  - destruct (perform_ok c M R f o s0) as (u & Eu & Gu & Cr); [apply (A (Perform o)); [now left|reflexivity]|exact G|]. rewrite Eu in E. apply some_inj in E. subst u.
    apply (IH false t); auto; [|discriminate]. intro X. destruct (perform_frame c o s0 t M (g_inv _ _ _ G) Eu) as (F1 & F2 & F3).
    assert (F : q_firstIteration s0 = false) by (unfold counted in K; rewrite K; apply Nat.eqb_neq; lia).
    assert (U : uninitialized t = false) by (unfold uninitialized; now rewrite F1, andb_false_r). rewrite (columns_init t U).
    specialize (Cr F). unfold current in Cr. apply in_map_iff in Cr as (x & X1 & X2). now exists x.
  - assert (f = false) by (destruct f; [exfalso; now apply (B eq_refl o es)|reflexivity]). subst f.
    destruct (converged_ok c M R o s0) as (u & Eu & Gu); [apply (A (Converged o)); [now left|reflexivity]|exact G|]. rewrite Eu in E. apply some_inj in E. subst u.
    apply (IH false t); auto; [|discriminate]. intro X. unfold iterationsConverged in Eu.
    apply bind_some in Eu as (gl & _ & Eu). apply bind_some in Eu as (u & _ & Eu). apply bind_some in Eu as (w & _ & Eu). apply some_inj in Eu. subst t. cbn in X. lia.
Qed.
Theorem C62_no_assertion_fails : forall c es, 0 < c_max c -> c_max c < c_rows c -> all_independent es -> iterates_after_change es ->
  exists s, run c es start = Some s /\ factorized s = columns s /\ throughout c es current_window_left.
Proof.
  intros c es M R A D. pose proof (start_good c) as G0.
  destruct (run_ok c M R es false start G0 A) as (s & E & f & G); [discriminate|exact D|]. exists s. split; [exact E|]. split.
  - unfold factorized, columns. change (q_firstWindow s && q_firstIteration s) with (uninitialized s).
    destruct (uninitialized s) eqn:U; [reflexivity|now apply (g_sync _ _ _ G)].
  - intros b a t -> T. apply (run_left c M R b false start t G0 start_counted); auto; [intro X; cbn in X; lia| | |].
    + intros e o J. apply A. apply in_or_app. now left.
    + discriminate.
    + intros x o r X. apply (D x o (r ++ a)). rewrite X, <- app_assoc. reflexivity.
Qed.
Print Assumptions C62_no_assertion_fails.

(** ** Then columns of at most [time-windows-reused] earlier windows are left. *)
Theorem C48_reuse_of_independent_columns : forall c es s, 0 < c_max c -> c_max c < c_rows c -> all_independent es -> iterates_after_change es ->
  run c es start = Some s -> forall l, earlier_windows s l ->
  length l <= Nat.max 1 (c_reused c) /\ (1 <= q_iteration s \/ c_force c = true -> length l <= c_reused c).
Proof.
  intros c es s M R A D H. destruct (C62_no_assertion_fails c es M R A D) as (t & _ & _ & T). now apply (C48_at_most_reused_windows c es s).
Qed.
Print Assumptions C48_reuse_of_independent_columns.

(** * Examples and refutations *)
Definition yes : decisions := Decisions true false (fun _ => true) (fun _ => true) (fun _ => true) false.
Definition renew : decisions := Decisions true true (fun _ => true) (fun _ => true) (fun i => negb (i =? 1)) false.
Definition P := Perform yes. Definition K := Converged yes.
Definition window3 : list event := [P; P; P; K].
Definition cfg : config := Config 4 2 false QR1 10.

(** four windows, with a column removed by the filter and a renewed factorization: columns
    of two earlier windows are left *)
Definition history : list event := window3 ++ window3 ++ [P; Perform renew; P; K] ++ [P; P].
Definition cfg' : config := Config 7 2 false QR1 10.
Example reuses : exists s, run cfg' history start = Some s /\ columns s = [(3, 1); (2, 3); (2, 2); (2, 1); (1, 2); (1, 1)] /\ earlier_windows s [2; 1].
Proof.
  eexists. split; [vm_compute; reflexivity|]. split; [reflexivity|]. split; [repeat constructor; cbn; lia|].
  intros w [<-|[<-|[]]]; (split; [cbn; lia|]); [exists (2, 3)|exists (1, 2)]; (split; [cbn; tauto|reflexivity]).
Qed.
Example history_independent : all_independent history /\ iterates_after_change history.
Proof.
  split.
  - intros e o I D. unfold history, window3, P, K in I. cbn in I.
    repeat (destruct I as [<-|I]; [cbn in D; injection D as <-; repeat split|]). destruct I.
  - intros b o a E. assert (I : In Initialize history) by (rewrite E; apply in_or_app; right; now left).
    unfold history, window3, P, K in I. cbn in I. repeat (destruct I as [I|I]; [discriminate|]). destruct I.
Qed.
(** the limit is reached *)
Example limited : exists s, run cfg (window3 ++ window3) start = Some s /\ columns s = [(1, 3); (1, 2); (1, 1); (0, 3)] /\ length (columns s) = c_max cfg.
Proof. eexists. split; [vm_compute; reflexivity|]. split; reflexivity. Qed.
(** without reuse *)
Example not_reused : exists s t, run (Config 4 0 false QR2 10) (window3 ++ [P; P]) start = Some s /\ columns s = [(1, 1)] /\
  run (Config 4 0 true QR2 10) window3 start = Some t /\ columns t = [] /\ q_iteration t = 0.
Proof. do 2 eexists. split; [vm_compute; reflexivity|]. split; [reflexivity|]. split; [vm_compute; reflexivity|]. split; reflexivity. Qed.

(** a filter that deletes the newest column *)
Definition dropNewest : decisions := Decisions true false (fun _ => true) (fun _ => true) (fun i => negb (i =? 0)) false.
(** ** When a filter deletes all columns of the current window, the next column is counted
    for the window before, and columns of more windows than allowed are left. *)
Theorem C48_deleted_window_refuted : ~ forall c es s, 0 < c_max c -> c_max c < c_rows c -> run c es start = Some s -> 1 <= q_iteration s ->
  forall l, earlier_windows s l -> length l <= c_reused c.
Proof.
  intro H. set (c := Config 10 1 false QR1 20). set (es := [P; P; K; P; Perform dropNewest; P; K; P; P]).
  destruct (run c es start) as [s|] eqn:E; [|vm_compute in E; discriminate].
  specialize (H c es s ltac:(cbn; lia) ltac:(cbn; lia) E). vm_compute in E. apply some_inj in E. subst s.
  specialize (H ltac:(cbn; lia) [1; 0]). cut (2 <= 1); [lia|]. apply H. split; [repeat constructor; cbn; lia|].
  intros w [<-|[<-|[]]]; (split; [cbn; lia|]); [exists (1, 2)|exists (0, 1)]; (split; [cbn; tauto|reflexivity]).
Qed.
Print Assumptions C48_deleted_window_refuted.
(** ** Windows that converge in their first iteration do not count: columns can be older
    than the number of windows that are reused. *)
Theorem C48_age_of_columns_refuted : ~ forall c es s, 0 < c_max c -> c_max c < c_rows c -> all_independent es -> run c es start = Some s ->
  forall x, In x (columns s) -> q_window s <= window_of x + c_reused c + 1.
Proof.
  intro H. set (c := Config 10 1 false QR1 20). set (es := [P; P; K; K; K; P]).
  destruct (run c es start) as [s|] eqn:E; [|vm_compute in E; discriminate].
  assert (A : all_independent es).
  { intros e o I D. unfold es, P, K in I. cbn in I. repeat (destruct I as [<-|I]; [cbn in D; injection D as <-; repeat split|]). destruct I. }
  specialize (H c es s ltac:(cbn; lia) ltac:(cbn; lia) A E). vm_compute in E. apply some_inj in E. subst s.
  specialize (H (0, 1) ltac:(cbn; tauto)). cbn in H. lia.
Qed.
Print Assumptions C48_age_of_columns_refuted.

(** ** When the factorization is set up anew and rejects two columns, the wrong columns are
    removed from the matrices: the update is computed from a factorization of other columns. *)
Definition rejecting : decisions := Decisions true true (fun _ => true) (fun i => 2 <=? i) (fun _ => true) false.
Theorem C62_rejected_columns_refuted : ~ forall c es s, 0 < c_max c -> c_max c < c_rows c -> run c es start = Some s -> factorized s = columns s.
Proof.
  intro H. set (c := Config 10 1 false QR1 20). set (es := [P; P; P; Perform rejecting]).
  destruct (run c es start) as [s|] eqn:E; [|vm_compute in E; discriminate].
  specialize (H c es s ltac:(cbn; lia) ltac:(cbn; lia) E). vm_compute in E. apply some_inj in E. subst s. vm_compute in H. discriminate.
Qed.
Print Assumptions C62_rejected_columns_refuted.
(** ** A new column that cannot be inserted into the factorization trips an assertion, or
    with QR3 an access out of range, since the result is ignored. *)
Definition dependent : decisions := Decisions false false (fun _ => true) (fun _ => true) (fun _ => true) false.
Theorem C62_dependent_column_refuted :
  run (Config 10 1 false NoFilter 20) [P; P; Perform dependent] start = None /\
  run (Config 10 1 false QR1 20) [P; P; Perform dependent] start = None /\
  run (Config 10 1 false QR3 20) [P; Perform dependent] start = None.
Proof. repeat split; vm_compute; reflexivity. Qed.
Print Assumptions C62_dependent_column_refuted.
(** ** With as many or more columns allowed than there are unknowns an assertion fails even
    if all columns that can be inserted are. *)
Theorem C62_few_unknowns_refuted : ~ forall c es, 0 < c_max c -> all_independent es -> iterates_after_change es -> run c es start <> None.
Proof.
  intro H. apply (H (Config 3 1 false QR1 2) [P; P; P; P]); [cbn; lia| | |vm_compute; reflexivity].
  - intros e o I D. unfold P in I. cbn in I. repeat (destruct I as [<-|I]; [cbn in D; injection D as <-; repeat split|]). destruct I.
  - intros b o a E. assert (I : In Initialize [P; P; P; P]) by (rewrite E; apply in_or_app; right; now left).
    unfold P in I. cbn in I. repeat (destruct I as [I|I]; [discriminate|]). destruct I.
Qed.
Print Assumptions C62_few_unknowns_refuted.
(** ** If the meshes are changed and the next window converges in its first iteration, an
    assertion fails. *)
Theorem C62_convergence_after_change_refuted : ~ forall c es, 0 < c_max c -> c_max c < c_rows c -> all_independent es -> run c es start <> None.
Proof.
  intro H. apply (H (Config 3 1 false QR1 20) [P; P; K; Initialize; K]); [cbn; lia|cbn; lia| |vm_compute; reflexivity].
  intros e o I D. unfold P, K in I. cbn in I. repeat (destruct I as [<-|I]; [cbn in D; try discriminate; injection D as <-; repeat split|]). destruct I.
Qed.
Print Assumptions C62_convergence_after_change_refuted.
(** a change of meshes in between *)
Example changed : exists s, run cfg [P; P; K; Initialize; P; P; P] start = Some s /\ columns s = [(1, 2); (1, 1)] /\ factorized s = columns s.
Proof. eexists. split; [vm_compute; reflexivity|]. split; reflexivity. Qed.
