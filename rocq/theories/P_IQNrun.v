(** IQN-ILS: every run. *)
From Coq Require Import Field Field_theory List Arith Lia Bool Sorted.
From Verif Require Import S_Field M_QR S_QR M_IQN S_IQN P_Field P_Dim P_QR P_QRsolve P_QRfilter P_IQNlist P_IQN.
From Verif Require M_QN.
Import ListNotations.

Section P.
Variable F : field.
Add Field KJ : (K_theory F).
Local Infix "+" := (@add F). Local Infix "*" := (@mul F). Local Infix "-" := (@sub F). Local Notation "0" := (@zero F). Local Notation "1" := (@one F).
Local Infix "/" := (@div F).
Notation vec := (nat -> F).
Variable hyp : F -> F -> F.
Variable norm : nat -> vec -> F.
Variable tiny : F -> bool.
Variable again : F -> F -> vec -> bool.
Variable singular : (nat -> nat -> F) -> nat -> nat -> bool.
Variable drop weak : F -> F -> bool.
Variable small : F -> bool.
Variable moved : vec -> vec -> bool.
Variable c : config F.
Notation n := (rowsOf c).
Notation qnc := (c_qn c).
Hypothesis HR : roots_ok hyp norm.
Hypothesis HT : tiny_ok tiny.
Hypothesis HS : small_ok small.
Hypothesis HF : factors_ok c.
Notation step := (step hyp norm tiny again singular drop weak small moved c).
Notation run := (run hyp norm tiny again singular drop weak small moved c).
Notation perform := (performAcceleration hyp norm tiny again singular drop weak small moved c).
Notation converged := (iterationsConverged hyp norm tiny again small moved c).

Definition known (D : list (vec * vec)) (v w : vec) : Prop := In (v, w) D.
Definition now (prev : option (vec * vec)) (x xt : vec) : list (vec * vec) :=
  match prev with None => [] | Some (x0, xt0) => [(fun e => residual c x xt e - residual c x0 xt0 e, fun e => xt e - xt0 e)] end.
Record inv (D : list (vec * vec)) (prev : option (vec * vec)) (s : iqn F) : Prop := {
  i_sync : synced F c s;
  i_w : weights_ok F c (a_p s);
  i_cols : Forall2 (known D) (a_V s) (a_W s);
  i_backup : Forall2 (known D) (a_VBackup s) (a_WBackup s);
  i_old : a_first s = false -> exists x0 xt0, prev = Some (x0, xt0) /\ a_oldR s = residual c x0 xt0 /\ a_oldXt s = xt0;
  i_new : a_first s = true -> prev = None /\ (a_firstWindow s = true <-> D = []) }.
Lemma known_app D D' V W : Forall2 (known D) V W -> Forall2 (known (D ++ D')) V W.
Proof. intros H. induction H as [|v w V W A H IH]; constructor; [apply in_or_app; left; exact A|exact IH]. Qed.
Lemma start_inv : inv [] None (start c).
Proof.
  constructor; cbn; try constructor; try discriminate; auto.
  - exists []. split; [apply empty_ok|right; right]. split; [cbn; lia|reflexivity].
  - exact (start_weights F c).
  - split; reflexivity.
Qed.
Lemma initializeMatrices_inv D prev s : inv D prev s -> inv D prev (initializeMatrices c s) /\
  a_first (initializeMatrices c s) = a_first s /\ a_firstWindow (initializeMatrices c s) = a_firstWindow s /\ a_several (initializeMatrices c s) = a_several s.
Proof.
  intros I. unfold initializeMatrices. destruct (a_firstWindow s && a_first s) eqn:E; [|split; [exact I|auto]]. apply andb_prop in E. destruct E as [E1 E2]. cbn. split; [|auto].
  constructor; cbn.
  - exists []. split; [apply empty_ok|right; right]. split; [cbn; lia|reflexivity].
  - apply initializePrecond_ok; [exact HF|apply I].
  - constructor.
  - apply I.
  - intros H. rewrite E2 in H. discriminate.
  - apply I.
Qed.

(** after updateDifferenceMatrices *)
Record mid (D : list (vec * vec)) (s : iqn F) : Prop := { m_sync : synced F c s; m_w : weights_ok F c (a_p s); m_cols : Forall2 (known D) (a_V s) (a_W s); m_backup : Forall2 (known D) (a_VBackup s) (a_WBackup s) }.
Lemma updateDifference_inv D prev x xt s s' : inv D prev s -> updateDifferenceMatrices hyp norm tiny again c x xt s = Some s' ->
  mid (D ++ now prev x xt) s' /\ a_first s' = a_first s /\ a_firstWindow s' = a_firstWindow s /\ a_several s' = a_several s /\
  (a_first s && (a_firstWindow s || M_QN.c_force qnc) = false -> a_oldR s' = residual c x xt /\ a_oldXt s' = xt).
Proof.
  intros I E. pose proof (updateDifference_synced F hyp norm tiny again c HR HT x xt s s' (i_sync _ _ _ I) E) as [S1 [S2 S3]].
  assert (M : Forall2 (known (D ++ now prev x xt)) (a_V s') (a_W s') /\ a_VBackup s' = a_VBackup s /\ a_WBackup s' = a_WBackup s /\ a_first s' = a_first s /\ a_firstWindow s' = a_firstWindow s /\
    (a_first s && (a_firstWindow s || M_QN.c_force qnc) = false -> a_oldR s' = residual c x xt /\ a_oldXt s' = xt)).
  { pose proof (known_app D (now prev x xt) _ _ (i_cols _ _ _ I)) as K. unfold updateDifferenceMatrices in E. destruct (a_first s && (a_firstWindow s || M_QN.c_force qnc)); [injection E as <-; repeat split; auto; discriminate|].
    destruct (a_first s) eqn:Fi; [injection E as <-; cbn; repeat split; auto|].
    apply bind_some in E. destruct E as [m [Em E]]. destruct (negb (length (a_V s) =? length (a_W s)) || negb (m <=? M_QN.c_max qnc)); [discriminate|].
    destruct (i_old _ _ _ I Fi) as [x0 [xt0 [Hp [Ho Hx]]]]. rewrite Ho, Hx in E.
    assert (KN : known (D ++ now prev x xt) (fun e => residual c x xt e - residual c x0 xt0 e) (fun e => xt e - xt0 e)) by (unfold known; apply in_or_app; right; rewrite Hp; left; reflexivity).
    apply bind_some in E. destruct E as [[b q] [Eq E]]. apply bind_some in E. destruct E as [cols' [Ec E]].
    destruct (negb (m =? M_QN.c_max qnc) && (m <=? n)).
    - injection E as <-. cbn. split; [constructor; assumption|]. repeat split; auto.
    - apply bind_some in E. destruct E as [V [EV E]]. apply bind_some in E. destruct E as [W [EW E]]. apply bind_some in E. destruct E as [q2 [Eq2 E]]. apply bind_some in E. destruct E as [cols2 [Ec2 E]].
      injection E as <-. cbn. split; [|repeat split; auto]. apply shift_some in EV. destruct EV as [_ ->]. apply shift_some in EW. destruct EW as [_ ->]. constructor; [exact KN|]. apply Forall2_removelast, K. }
  destruct M as [M1 [M2 [M3 [M4 [M5 M6]]]]]. split; [|repeat split; auto; apply M6; assumption]. constructor; [exact S1|rewrite S3; apply I|exact M1|rewrite M2, M3; apply known_app, I].
Qed.

Lemma precond_synced s b v r : synced F c s -> synced F c (setPrecond s (updatePrecond norm small moved c b v r (a_p s))).
Proof.
  intros [U [FU HU]]. exists U. split; [exact FU|]. cbn. destruct HU as [A|[A|A]]; [left; exact A|right|right].
  - left. unfold stale in *. cbn. destruct (updatePrecond_newQR F norm small moved c b v r (a_p s)) as [N|[N _]]; [left; exact N|]. rewrite N. exact A.
  - destruct (updatePrecond_newQR F norm small moved c b v r (a_p s)) as [N|[_ W]]; [left; left; exact N|]. right. unfold matches, scaledV in *. cbn. rewrite W. exact A.
Qed.
Lemma weights_ext (p p' : precond F) : p_w p' = p_w p -> p_inv p' = p_inv p -> weights_ok F c p -> weights_ok F c p'.
Proof. intros A B H e He. rewrite A, B. exact (H e He). Qed.
Lemma prepareUpdate_ok D x xt s s' : mid D s -> prepareUpdate hyp norm tiny again singular drop weak small moved c x xt s = Some s' ->
  mid D s' /\ ready F c s' /\ (a_several s' = false -> a_several s = false) /\ a_first s' = a_first s /\ a_firstWindow s' = a_firstWindow s /\ a_oldR s' = a_oldR s /\ a_oldXt s' = a_oldXt s.
Proof.
  intros M E. unfold prepareUpdate in E. apply bind_some in E. destruct E as [s1 [E1 E]]. apply bind_some in E. destruct E as [s2 [E2 E3]].
  apply (restoreBackup_ok F hyp norm tiny again c HR HT) in E1; [|apply M]. destruct E1 as [S1 [[Fp [Ff [_ [FV [FW [Fi [Fw [Fo Fx]]]]]]]] [V1 C1]]].
  apply (newQR_ok F hyp norm tiny again c HR HT) in E2; [|apply precond_synced, S1]. destruct E2 as [S2 [N2 [P2 [Q2 [V2 [I2 [W2 [O2 [X2 [BV [BW C2]]]]]]]]]]]. cbn in *.
  apply (applyFilter_ok F hyp norm tiny again singular drop weak c HR HT) in E3; [|exact S2|exact N2]. destruct E3 as [R3 [N3 [P3 [V3 [S3 [I3 [W3 [O3 [X3 [BV3 [BW3 C3]]]]]]]]]]].
  split; [|split; [exact R3|split; [intros A; rewrite V3 in A; apply V1, V2, A|]]].
  - constructor.
    + exact S3.
    + rewrite P3. apply (weights_ext _ _ P2 Q2). apply updatePrecond_ok; [exact HS|]. rewrite Fp. apply M.
    + apply C3, C2, C1; apply M.
    + rewrite BV3, BW3, BV, BW, FV, FW. apply M.
  - rewrite I3, W3, O3, X3, I2, W2, O2, X2, Fi, Fw, Fo, Fx. repeat split.
Qed.

(** the update *)
Lemma nth_scaled (w : vec) V j e : (j < length V)%nat -> nth j (map (scale w) V) (fun _ => 0) e = nth j V (fun _ => 0) e * w e.
Proof. intros Hj. rewrite (nth_indep (map (scale w) V) (fun _ => 0) (scale w (fun _ => 0))) by (rewrite map_length; exact Hj). rewrite map_nth. reflexivity. Qed.
Lemma combination_scaled (w : vec) V y e : combination (map (scale w) V) y e = combination V y e * w e.
Proof.
  unfold combination. rewrite map_length. rewrite <- (fsum_scale_r F (length V) (w e) (fun j => nth j V (fun _ => 0) e * y j)).
  apply fsum_ext. intros j Hj. rewrite nth_scaled by exact Hj. ring.
Qed.
Lemma computeQNUpdate_ok x xt s u : ready F c s -> a_several s = false -> length (a_V s) = length (a_W s) -> computeQNUpdate c (residual c x xt) s = Some u ->
  least_squares_step c (p_w (a_p s)) (a_V s) (a_W s) (residual c x xt) xt (fun e => xt e + u e).
Proof.
  intros [U [FU HU]] Sv LVW E. destruct HU as [A|[_ HU]]; [rewrite A in Sv; discriminate|].
  unfold computeQNUpdate in E. apply bind_some in E. destruct E as [m [Em E]]. unfold getLSSystemCols in Em. destruct (Nat.eqb_spec (M_QN.sum (a_cols s)) (length (a_V s))) as [L1|]; [|discriminate].
  destruct (Nat.eqb_spec (M_QN.sum (a_cols s)) (length (a_W s))) as [L2|]; [|discriminate]. cbn [andb] in Em. injection Em as <-.
  destruct (Nat.eqb_spec (cols (a_qr s)) (M_QN.sum (a_cols s))) as [L3|]; [|discriminate]. assert (Hc : cols (a_qr s) = length U) by apply FU. rewrite (HU ltac:(lia)) in FU. injection E as <-.
  set (r := residual c x xt) in *. set (w := p_w (a_p s)) in *.
  pose proof (normal_equations F n (scaledV s) (a_qr s) (scale w r) FU) as NE. cbv zeta in NE.
  set (y := solveUpper (cols (a_qr s)) (Rm (a_qr s)) (fun i => opp (fdot n (fun e => Qm (a_qr s) e i) (scale w r)))) in *. exists y. split; [|split; [|split]].
  - intros e. reflexivity.
  - intros j Hj. specialize (NE j). unfold scaledV in NE. rewrite map_length in NE. specialize (NE Hj). refine (eq_trans _ NE). apply fdot_ext; intros e He.
    + fold w. rewrite nth_scaled by exact Hj. cbv beta. ring.
    + fold w. rewrite combination_scaled. unfold scale. ring.
  - intros z. pose proof (pythagoras F n (scaledV s) (scale w r) y z NE) as PY. unfold weighted.
    transitivity (fdot n (fun e => scale w r e + combination (scaledV s) z e) (fun e => scale w r e + combination (scaledV s) z e)).
    + apply fdot_ext; intros e He; unfold scaledV; fold w; rewrite combination_scaled; unfold scale; ring.
    + rewrite PY. f_equal; apply fdot_ext; intros e He; unfold scaledV; fold w; rewrite combination_scaled; unfold scale; ring.
  - intros z Hz j Hj. apply (independent F n (scaledV s) (a_qr s) z FU); [|unfold scaledV; rewrite map_length; exact Hj].
    intros e He. unfold scaledV. rewrite combination_scaled, Hz by exact He. ring.
Qed.

(** performAcceleration *)
Lemma perform_inv D prev x xt s x' s' : inv D prev s -> perform x xt s = Some (x', s') ->
  inv (D ++ now prev x xt) (Some (x, xt)) s' /\ (a_several s' = false -> a_several s = false) /\
  if a_first s && (a_firstWindow s || M_QN.c_force qnc)
  then forall e, x' e = c_relaxation c * xt e + (1 - c_relaxation c) * x e
  else a_several s' = false -> exists w V W, (forall e, (e < n)%nat -> w e <> 0) /\ Forall2 (known (D ++ now prev x xt)) V W /\ least_squares_step c w V W (residual c x xt) xt x'.
Proof.
  intros I E. unfold performAcceleration in E. apply bind_some in E. destruct E as [s1 [E1 E]].
  destruct (initializeMatrices_inv D prev s I) as [I0 [Z1 [Z2 Z3]]].
  destruct (updateDifference_inv D prev x xt _ s1 I0 E1) as [M1 [Fi [Fw [Sv Old]]]]. rewrite Fi, Fw, Z1, Z2 in E. rewrite Z1, Z2 in Old.
  destruct (a_first s && (a_firstWindow s || M_QN.c_force qnc)) eqn:Rel.
  - injection E as <- <-. split; [|split; [cbn; rewrite Sv, Z3; auto|intros e; reflexivity]]. constructor; cbn; try apply M1.
    + intros _. exists x, xt. repeat split.
    + discriminate.
  - apply bind_some in E. destruct E as [s2 [E2 E]]. apply bind_some in E. destruct E as [u [E3 E]]. apply bind_some in E. destruct E as [s3 [E4 E]]. injection E as <- <-.
    destruct (prepareUpdate_ok _ x xt s1 s2 M1 E2) as [M2 [R2 [V2 [Fi2 [Fw2 [Fo2 Fx2]]]]]].
    destruct (Old eq_refl) as [O1 O2].
    assert (P : a_several s3 = a_several s2 /\ a_oldR s3 = a_oldR s2 /\ a_oldXt s3 = a_oldXt s2 /\ mid (D ++ now prev x xt) s3).
    { unfold pendingDeletion in E4. destruct (a_first s2 && (M_QN.c_reused qnc =? 0) && negb (M_QN.c_force qnc)); [|injection E4 as <-; split; [reflexivity|split; [reflexivity|split; [reflexivity|exact M2]]]].
      apply bind_some in E4. destruct E4 as [m [Em E4]].
      destruct (a_firstWindow s2); destruct (0 <? m); injection E4 as <-; cbn; (split; [reflexivity|split; [reflexivity|split; [reflexivity|]]]).
      - constructor; cbn; apply M2.
      - exact M2.
      - constructor; cbn; try apply M2; [|constructor]. exists []. split; [apply empty_ok|right; right]. split; [cbn; lia|reflexivity].
      - constructor; cbn; try apply M2; [|constructor]. exists []. split; [apply empty_ok|right; right]. split; [cbn; lia|reflexivity]. }
    destruct P as [P1 [P2 [P3 P4]]]. split; [|split].
    + constructor; cbn; try apply P4; [intros _|discriminate].
      exists x, xt. rewrite P2, P3, Fo2, Fx2, O1, O2. repeat split.
    + cbn. rewrite P1. intros A. rewrite <- Z3, <- Sv. apply V2, A.
    + cbn. rewrite P1. intros A. exists (p_w (a_p s2)), (a_V s2), (a_W s2). split; [|split].
      * intros e He. apply (weights_nonzero F c); [apply M2|exact He].
      * apply M2.
      * apply computeQNUpdate_ok; [exact R2|exact A|apply (Forall2_len _ _ _ (m_cols _ _ M2))|exact E3].
Qed.

Lemma dropBack_ok D k : forall V W q V' W' q' U, Forall2 (known D) V W -> factorizes n U q -> dropBack hyp k V W q = Some (V', W', q') ->
  Forall2 (known D) V' W' /\ exists U', factorizes n U' q' /\ forall w, (length U <= length V /\ (length U = length V -> U = map (scale w) V) -> length U' <= length V' /\ (length U' = length V' -> U' = map (scale w) V'))%nat.
Proof.
  induction k as [|k IH]; intros V W q V' W' q' U K FU E.
  - injection E as <- <- <-. split; [exact K|]. exists U. split; [exact FU|auto].
  - cbn [dropBack] in E. apply bind_some in E. destruct E as [V1 [EV E]]. apply bind_some in E. destruct E as [W1 [EW E]]. apply bind_some in E. destruct E as [q1 [Eq E]].
    apply removeColumn_some in EV. destruct EV as [LV ->]. apply removeColumn_some in EW. destruct EW as [LW ->]. rewrite !removelast_delete in E.
    destruct (popBack_ok F hyp norm c HR U q q1 FU Eq) as [FU1 NU]. destruct (IH _ _ _ _ _ _ _ (Forall2_removelast _ _ _ K) FU1 E) as [K' [U' [FU' HU']]]. split; [exact K'|]. exists U'. split; [exact FU'|].
    intros w [A B]. apply HU'. rewrite !removelast_length. destruct U as [|u U]; [contradiction|]. cbn [length] in *. split; [lia|]. intros L. rewrite (B ltac:(lia)), removelast_map. reflexivity.
Qed.
Lemma converged_inv D prev x xt s s' : inv D prev s -> converged x xt s = Some s' -> inv (D ++ now prev x xt) None s' /\ a_several s' = a_several s.
Proof.
  intros I E. unfold iterationsConverged in E. apply bind_some in E. destruct E as [m0 [_ E]]. apply bind_some in E. destruct E as [s1 [E1 E]].
  destruct (initializeMatrices_inv D prev s I) as [I0 [Z1 [Z2 Z3]]].
  destruct (updateDifference_inv D prev x xt _ s1 I0 E1) as [M1 [Fi [Fw [Sv Old]]]].
  cbv zeta in E. set (s2 := setMatrices s1 (M_QN.popZeroFront (M_QN.popZeroFront (a_cols s1))) (a_V s1) (a_W s1) (a_qr s1)) in E.
  assert (M2 : mid (D ++ now prev x xt) s2) by (constructor; apply M1).
  set (s3 := setPrecond s2 (updatePrecond norm small moved c true (primary c xt) (residual c x xt) (a_p s2))) in E.
  assert (M3 : mid (D ++ now prev x xt) s3) by (constructor; [apply precond_synced, M2|apply updatePrecond_ok; [exact HS|apply M2]|apply M2|apply M2]).
  apply bind_some in E. destruct E as [s4 [E4 E]].
  assert (P : mid (D ++ now prev x xt) s4 /\ a_several s4 = a_several s3 /\ a_first s4 = a_first s3 /\ a_firstWindow s4 = a_firstWindow s3).
  { clearbody s3. clear E. unfold dropOldWindows in E4. destruct (M_QN.c_reused qnc =? 0).
    - injection E4 as <-. destruct (M_QN.c_force qnc); [|split; [exact M3|auto]]. cbn. split; [|repeat split]. constructor; cbn; try apply M3; [|constructor].
      exists []. split; [apply empty_ok|right; right]. split; [cbn; lia|reflexivity].
    - destruct (M_QN.c_reused qnc <? length (a_cols s3)); [|injection E4 as <-; split; [exact M3|auto]]. cbv zeta in E4. destruct (last (a_cols s3) O =? 0); [discriminate|].
      apply bind_some in E4. destruct E4 as [m [Em E4]]. destruct (m <=? last (a_cols s3) O); [discriminate|]. apply bind_some in E4. destruct E4 as [[[V W] q] [Ed E4]]. injection E4 as <-. cbn. split; [|repeat split].
      destruct (m_sync _ _ M3) as [U [FU HU]]. destruct (dropBack_ok _ _ _ _ _ _ _ _ _ (m_cols _ _ M3) FU Ed) as [K [U' [FU' HU']]]. constructor; cbn; try apply M3; [|exact K].
      exists U'. split; [exact FU'|]. cbn. destruct HU as [A|[A|A]]; [left; exact A|right; left; exact A|right; right]. exact (HU' _ A). }
  destruct P as [M4 [P1 [P2 P3]]]. injection E as <-. cbn. split; [|rewrite P1; cbn; rewrite Sv; exact Z3].
  assert (Ff : a_first s4 = a_first s) by (rewrite P2; cbn; rewrite Fi; exact Z1). assert (Fg : a_firstWindow s4 = a_firstWindow s) by (rewrite P3; cbn; rewrite Fw; exact Z2).
  constructor; cbn; try apply M4; [discriminate|].
  intros _. split; [reflexivity|]. rewrite Ff, Fg. destruct (a_first s) eqn:Ef.
  - destruct (i_new _ _ _ I Ef) as [-> H]. rewrite andb_true_r. unfold now. rewrite app_nil_r. exact H.
  - destruct (i_old _ _ _ I Ef) as [x0 [xt0 [-> _]]]. rewrite andb_false_r. split; [discriminate|]. intros H. apply app_eq_nil in H. destruct H as [_ H]. discriminate.
Qed.

(** all runs *)
Fixpoint prevAfter (prev : option (vec * vec)) (evs : list (event F)) : option (vec * vec) :=
  match evs with [] => prev | Perform x xt :: r => prevAfter (Some (x, xt)) r | Converged _ _ :: r => prevAfter None r end.
Lemma differences_app prev evs evs' : differences c prev (evs ++ evs') = differences c prev evs ++ differences c (prevAfter prev evs) evs'.
Proof. revert prev. induction evs as [|[x xt|x xt] evs IH]; intros prev; [reflexivity| |]; cbn [app differences prevAfter]; rewrite IH, app_assoc; reflexivity. Qed.
Lemma prevAfter_new evs : forall prev, prevAfter prev evs = match rev evs with [] => prev | Perform x xt :: _ => Some (x, xt) | Converged _ _ :: _ => None end.
Proof.
  induction evs as [|ev evs IH]; intros prev; [reflexivity|]. cbn [rev]. destruct ev as [x xt|x xt]; cbn [prevAfter]; rewrite IH; destruct (rev evs) as [|[y yt|y yt] r]; reflexivity.
Qed.
Lemma run_inv evs : forall D prev s s', inv D prev s -> run evs s = Some s' -> inv (D ++ differences c prev evs) (prevAfter prev evs) s' /\ (a_several s' = false -> a_several s = false).
Proof.
  induction evs as [|ev evs IH]; intros D prev s s' I E.
  - injection E as <-. cbn. rewrite app_nil_r. split; [exact I|auto].
  - cbn [M_IQN.run] in E. apply bind_some in E. destruct E as [s1 [E1 E2]]. destruct ev as [x xt|x xt]; cbn [M_IQN.step] in E1.
    + destruct (perform x xt s) as [[x' s0]|] eqn:EP; [|discriminate]. injection E1 as ->. destruct (perform_inv D prev x xt s x' s1 I EP) as [I1 [V1 _]].
      destruct (IH _ _ _ _ I1 E2) as [I2 V2]. rewrite <- app_assoc in I2. split; [exact I2|auto].
    + destruct (converged_inv D prev x xt s s1 I E1) as [I1 V1]. destruct (IH _ _ _ _ I1 E2) as [I2 V2]. rewrite <- app_assoc in I2. split; [exact I2|rewrite <- V1; exact V2].
Qed.

(** configurations in which columns are never removed because they were refused *)
Definition calm (s : iqn F) : Prop := a_several s = false /\ (M_QN.isQR23 (M_QN.c_filter qnc) = false -> p_newQR (a_p s) = false).
Lemma calm_precond b v r p f : c_precond c = Constant f -> p_newQR (updatePrecond norm small moved c b v r p) = p_newQR p.
Proof. intros E. unfold updatePrecond, updateWeights. rewrite E. destruct (p_frozen p); reflexivity. Qed.
Lemma calm_run evs : (M_QN.isQR23 (M_QN.c_filter qnc) = true \/ exists f, c_precond c = Constant f) -> (M_QN.c_reused qnc <> O \/ M_QN.c_force qnc = true) ->
  forall D prev s s', inv D prev s -> calm s -> run evs s = Some s' -> calm s'.
Proof.
  intros H1 H2.
  assert (CP : forall b v r s, calm s -> M_QN.isQR23 (M_QN.c_filter qnc) = false -> p_newQR (updatePrecond norm small moved c b v r (a_p s)) = false).
  { intros b v r s [_ C] E. destruct H1 as [H1|[f Hf]]; [rewrite H1 in E; discriminate|]. rewrite (calm_precond _ _ _ _ f Hf). exact (C E). }
  assert (CI : forall s, calm s -> calm (initializeMatrices c s)).
  { intros s [C1 C2]. unfold initializeMatrices. destruct (a_firstWindow s && a_first s); [|split; assumption]. split; [exact C1|]. cbn. unfold initializePrecond. destruct (c_precond c); exact C2. }
  induction evs as [|ev evs IH]; intros D prev s s' I C E; [injection E as <-; exact C|].
  cbn [M_IQN.run] in E. apply bind_some in E. destruct E as [s1 [E1 E2]]. destruct (initializeMatrices_inv D prev s I) as [I0 _]. specialize (CI s C). destruct ev as [x xt|x xt]; cbn [M_IQN.step] in E1.
  - destruct (perform x xt s) as [[x' s0]|] eqn:EP; [|discriminate]. injection E1 as ->. pose proof (perform_inv D prev x xt s x' s1 I EP) as [I1 _]. refine (IH _ _ _ _ I1 _ E2). clear IH E2 I1.
    unfold performAcceleration in EP. apply bind_some in EP. destruct EP as [t1 [U1 EP]].
    destruct (updateDifference_inv D prev x xt _ t1 I0 U1) as [M1 _].
    pose proof (updateDifference_synced F hyp norm tiny again c HR HT x xt _ t1 (i_sync _ _ _ I0) U1) as [_ [S1 S2]]. assert (C1 : calm t1) by (split; [rewrite S1|rewrite S2]; apply CI).
    destruct (a_first t1 && (a_firstWindow t1 || M_QN.c_force qnc)); [injection EP as _ <-; exact C1|].
    apply bind_some in EP. destruct EP as [t2 [P2 EP]]. apply bind_some in EP. destruct EP as [u [_ EP]]. apply bind_some in EP. destruct EP as [t3 [P3 EP]]. injection EP as _ <-.
    assert (C2 : calm t2).
    { unfold prepareUpdate in P2. apply bind_some in P2. destruct P2 as [a [Q1 P2]]. apply bind_some in P2. destruct P2 as [b [Q2 P2]].
      assert (a = t1) as ->.
      { unfold restoreBackup in Q1. destruct (a_firstWindow t1); [injection Q1 as <-; reflexivity|]. apply bind_some in Q1. destruct Q1 as [m [_ Q1]].
        destruct ((m <? 1) && (M_QN.c_reused qnc =? O) && negb (M_QN.c_force qnc)) eqn:Z; [|injection Q1 as <-; reflexivity]. apply andb_prop in Z. destruct Z as [Z1 Z2]. apply andb_prop in Z1. destruct Z1 as [_ Z1].
        apply Nat.eqb_eq in Z1. apply negb_true_iff in Z2. destruct H2 as [H2|H2]; [contradiction|rewrite H2 in Z2; discriminate]. }
      set (t1' := setPrecond t1 _) in Q2. assert (C1' : calm t1') by (split; [apply C1|intros Z; apply (CP false (primary c xt) (residual c x xt) t1 C1 Z)]).
      assert (S1' : synced F c t1') by (apply precond_synced; apply M1).
      assert (CB : calm b /\ synced F c b /\ p_newQR (a_p b) = false).
      { pose proof (newQR_ok F hyp norm tiny again c HR HT t1' b S1' Q2) as [SB [NB _]]. split; [|split; assumption]. split; [|intros _; exact NB].
        unfold newQR in Q2. destruct (p_newQR (a_p t1')) eqn:NQ; [|injection Q2 as <-; apply C1']. apply bind_some in Q2. destruct Q2 as [d [Q2 Q3]]. injection Q3 as <-. cbn.
        destruct (M_QN.isQR23 (M_QN.c_filter qnc)) eqn:Z; [injection Q2 as <-; apply C1'|]. destruct C1' as [_ C1']. rewrite (C1' Z) in NQ. discriminate. }
      destruct CB as [CB [SB NB]]. pose proof (applyFilter_ok F hyp norm tiny again singular drop weak c HR HT b t2 SB NB P2) as [_ [N3 [P3' [V3 _]]]]. split; [rewrite V3; apply CB|intros _; exact N3]. }
    unfold pendingDeletion in P3. destruct (a_first t2 && _ && _); [|injection P3 as <-; exact C2]. apply bind_some in P3. destruct P3 as [m [_ P3]]. destruct (a_firstWindow t2); destruct (0 <? m); injection P3 as <-; exact C2.
  - pose proof (converged_inv D prev x xt s s1 I E1) as [I1 V1]. refine (IH _ _ _ _ I1 _ E2). split; [rewrite V1; apply C|]. intros Z.
    unfold iterationsConverged in E1. apply bind_some in E1. destruct E1 as [m0 [_ E1]]. apply bind_some in E1. destruct E1 as [t1 [U1 E1]].
    pose proof (updateDifference_synced F hyp norm tiny again c HR HT x xt _ t1 (i_sync _ _ _ I0) U1) as [_ [S1 S2]]. assert (C1 : calm t1) by (split; [rewrite S1|rewrite S2]; apply CI).
    cbv zeta in E1. apply bind_some in E1. destruct E1 as [t2 [D2 E1]]. injection E1 as <-. cbn.
    assert (P2 : a_p t2 = updatePrecond norm small moved c true (primary c xt) (residual c x xt) (a_p t1)).
    { unfold dropOldWindows in D2. destruct (M_QN.c_reused qnc =? O); [injection D2 as <-; destruct (M_QN.c_force qnc); reflexivity|].
      destruct (M_QN.c_reused qnc <? _); [|injection D2 as <-; reflexivity]. cbv zeta in D2. destruct (_ =? O); [discriminate|]. apply bind_some in D2. destruct D2 as [m [_ D2]]. destruct (m <=? _); [discriminate|].
      apply bind_some in D2. destruct D2 as [[[V W] q] [_ D2]]. injection D2 as <-. reflexivity. }
    rewrite P2. exact (CP true _ _ t1 C1 Z).
Qed.
End P.
