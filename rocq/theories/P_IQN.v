(** IQN-ILS: the factorization belongs to the columns and the weights in use. *)
From Coq Require Import Field Field_theory List Arith Lia Bool Sorted.
From Verif Require Import S_Field M_QR S_QR M_IQN S_IQN P_Field P_Dim P_QR P_QRsolve P_QRfilter P_IQNlist.
From Verif Require M_QN.
Import ListNotations.

Lemma bind_some {A B} (a : option A) (f : A -> option B) y : bind a f = Some y -> exists x, a = Some x /\ f x = Some y.
Proof. destruct a as [x|]; [|discriminate]. intros H. exists x. split; [reflexivity|exact H]. Qed.
Lemma shift_some {A} (v : A) m l : M_QN.shiftSetFirst v m = Some l -> (0 < length m)%nat /\ l = v :: removelast m.
Proof. destruct m as [|a m]; [discriminate|]. intros H. split; [cbn; lia|]. injection H as <-. reflexivity. Qed.
Lemma removeColumn_some {A} i (m : list A) l : M_QN.removeColumnFromMatrix i m = Some l -> (i < length m)%nat /\ l = delete_at i m.
Proof. unfold M_QN.removeColumnFromMatrix. destruct (Nat.ltb_spec i (length m)) as [L|]; [|discriminate]. intros H. split; [exact L|]. exact (eq_sym (f_equal (fun o => match o with Some x => x | None => l end) H)). Qed.

Section P.
Variable F : field.
Add Field KI : (K_theory F).
Local Infix "+" := (@add F). Local Infix "*" := (@mul F). Local Infix "-" := (@sub F). Local Notation "0" := (@zero F). Local Notation "1" := (@one F).
Local Infix "/" := (@div F).
Notation vec := (nat -> F).
Variable hyp : F -> F -> F.
Variable norm : nat -> vec -> F.
Variable tiny : F -> bool.
Variable again : F -> F -> vec -> bool.
Variable singular : (nat -> nat -> F) -> nat -> nat -> bool.
Variable drop weak : F -> F -> bool.
Variable small : F -> bool.
Variable moved : vec -> vec -> bool.
Variable c : config F.
Notation n := (rowsOf c).
Notation qnc := (c_qn c).

(** * Weights *)
Definition weights_ok (p : precond F) : Prop := forall e, (e < n)%nat -> p_w p e * p_inv p e = 1.
Lemma weights_nonzero p e : weights_ok p -> (e < n)%nat -> p_w p e <> 0.
Proof.
  intros H He Z. specialize (H e He). rewrite Z in H. apply (F_1_neq_0 (K_theory F)). transitivity (0 * p_inv p e); [symmetry; exact H|ring].
Qed.
Lemma setWeights_ok x p : small_ok small -> weights_ok p -> weights_ok (setWeights small c x p).
Proof.
  intros HS H e He. unfold setWeights. cbn [p_w p_inv]. rewrite (proj2 (Nat.ltb_lt e n) He). cbn [andb].
  destruct (small (x (partOf (c_parts c) e))) eqn:E; cbn [negb]; [exact (H e He)|]. field. exact (HS _ E).
Qed.
Lemma updatePrecond_ok b v r p : small_ok small -> weights_ok p -> weights_ok (updatePrecond norm small moved c b v r p).
Proof.
  intros HS H. unfold updatePrecond. destruct (p_frozen p); [exact H|].
  set (p0 := Precond (p_w p) (p_inv p) (p_newQR p) _ _ _ _ _). assert (H0 : weights_ok p0) by exact H. clearbody p0. clear H p.
  unfold updateWeights. destruct (c_precond c) as [f| | |th].
  - exact H0.
  - destruct (negb b && negb (p_first p0)); [exact H0|]. exact (setWeights_ok _ _ HS H0).
  - destruct b; [exact H0|]. exact (setWeights_ok _ _ HS H0).
  - unfold updateSum. destruct b; [exact H0|]. destruct (_ || _); [|exact H0]. apply (setWeights_ok _ _ HS). exact H0.
Qed.
(** the weights change only together with a request for a new factorization *)
Lemma updatePrecond_newQR b v r p : let p' := updatePrecond norm small moved c b v r p in
  p_newQR p' = true \/ (p_newQR p' = p_newQR p /\ p_w p' = p_w p).
Proof.
  cbv zeta. unfold updatePrecond. destruct (p_frozen p); [right; split; reflexivity|].
  unfold updateWeights. destruct (c_precond c) as [f| | |th].
  - right; split; reflexivity.
  - destruct (negb b && negb _); [right; split; reflexivity|left; reflexivity].
  - destruct b; [right; split; reflexivity|left; reflexivity].
  - unfold updateSum. destruct b; [right; split; reflexivity|]. destruct (_ || _); [left; reflexivity|right; split; reflexivity].
Qed.
Lemma initializePrecond_ok p : factors_ok c -> weights_ok p -> weights_ok (initializePrecond c p).
Proof.
  intros HF H. unfold initializePrecond, factors_ok in *. destruct (c_precond c) as [f| | |th]; try exact H.
  intros e He. cbn [p_w p_inv]. field. apply HF.
Qed.
Lemma start_weights : weights_ok (a_p (start c)).
Proof. intros e He. cbn. ring. Qed.

(** * The factorization *)
Hypothesis HR : roots_ok hyp norm.
Hypothesis HT : tiny_ok tiny.

Definition stale (s : iqn F) : Prop :=
  p_newQR (a_p s) = true \/ M_QN.c_filter qnc = M_QN.QR2 \/ (M_QN.c_filter qnc = M_QN.QR3 /\ a_fallback s = true).
Definition matches (U : list vec) (s : iqn F) : Prop := (length U <= length (a_V s))%nat /\ (length U = length (a_V s) -> U = scaledV s).
Definition synced (s : iqn F) : Prop := exists U, factorizes n U (a_qr s) /\ (a_several s = true \/ stale s \/ matches U s).

Lemma popBack_ok U (q q' : qr F) : factorizes n U q -> popBack hyp q = Some q' -> factorizes n (removelast U) q' /\ U <> [].
Proof.
  intros Fs E. assert (Hc : cols q = length U) by apply Fs. destruct U as [|u U].
  - unfold popBack, deleteColumn in E. rewrite Hc in E. discriminate.
  - split; [|discriminate]. destruct (delete_ok F hyp norm HR n (u :: U) q (cols q - 1) Fs) as [q1 [E1 F1]]; [rewrite Hc; cbn [length]; lia|].
    unfold popBack in E. rewrite E in E1. injection E1 as <-. rewrite Hc, removelast_delete in F1. exact F1.
Qed.

Lemma updateDifference_synced x xt s s' : synced s -> updateDifferenceMatrices hyp norm tiny again c x xt s = Some s' ->
  synced s' /\ a_several s' = a_several s /\ a_p s' = a_p s.
Proof.
  intros [U [Fs H]] E. unfold updateDifferenceMatrices in E. destruct (a_first s && (a_firstWindow s || M_QN.c_force qnc)).
  { injection E as <-. split; [|split; reflexivity]. exists U. split; [exact Fs|exact H]. }
  destruct (a_first s). { injection E as <-. split; [|split; reflexivity]. exists U. split; [exact Fs|exact H]. }
  apply bind_some in E. destruct E as [m [Em E]]. destruct (negb (length (a_V s) =? length (a_W s)) || negb (m <=? M_QN.c_max qnc)); [discriminate|].
  set (dr := fun e => residual c x xt e - a_oldR s e) in *. set (dx := fun e => xt e - a_oldXt s e) in *.
  apply bind_some in E. destruct E as [[b q] [Eq E]]. apply bind_some in E. destruct E as [cols' [Ec E]].
  assert (Q : exists U', factorizes n U' q /\ ((b = true /\ U' = scale (p_w (a_p s)) dr :: U) \/ (b = false /\ U' = U))).
  { unfold pushFront in Eq. destruct (insert_ok F hyp norm tiny again HR HT n U (a_qr s) 0 (scale (p_w (a_p s)) dr) never Fs ltac:(lia)) as [b0 [q0 [E0 [F0 _]]]].
    rewrite E0 in Eq. injection Eq as <- <-. destruct b0; [exists (scale (p_w (a_p s)) dr :: U)|exists U]; (split; [exact F0|]); [left|right]; split; reflexivity. }
  destruct Q as [U' [FU' HU']].
  assert (G : forall V W q2 cols2 U2, factorizes n U2 q2 ->
     ((b = true /\ matches U s -> length U2 <= length V /\ (length U2 = length V -> U2 = map (scale (p_w (a_p s))) V)) /\ (b = false -> length U <= length (a_V s) -> length U2 < length V))%nat ->
     synced (setMatrices (setOld (setFallback s (a_fallback s || negb b)) (residual c x xt) xt) cols2 V W q2)).
  { intros V W q2 cols2 U2 FU2 [G1 G2]. exists U2. split; [exact FU2|]. cbn. destruct H as [H|[H|H]]; [left; exact H| |].
    - right; left. unfold stale in *. cbn. destruct H as [H|[H|[H1 H2]]]; [left; exact H|right; left; exact H|right; right]. split; [exact H1|]. rewrite H2. reflexivity.
    - destruct b.
      + right; right. exact (G1 (conj eq_refl H)).
      + specialize (G2 eq_refl (proj1 H)). right; right. split; cbn; [lia|intros HH; lia]. }
  destruct (negb (m =? M_QN.c_max qnc) && (m <=? n)).
  - injection E as <-. split; [|split; reflexivity]. apply (G _ _ _ _ U'); [exact FU'|]. split.
    + intros [-> M]. destruct HU' as [[_ ->]|[HU' _]]; [|discriminate]. destruct M as [M1 M2]. cbn [length map]. split; [lia|]. intros L. rewrite M2 by lia. reflexivity.
    + intros -> L. destruct HU' as [[HU' _]|[_ ->]]; [discriminate|]. cbn [length]. lia.
  - apply bind_some in E. destruct E as [V [EV E]]. apply bind_some in E. destruct E as [W [EW E]]. apply bind_some in E. destruct E as [q2 [Eq2 E]]. apply bind_some in E. destruct E as [cols2 [Ec2 E]].
    injection E as <-. split; [|split; reflexivity]. destruct (popBack_ok U' q q2 FU' Eq2) as [FU2 NU]. apply (G _ _ _ _ _ FU2).
    apply shift_some in EV. destruct EV as [LV ->]. split.
    + intros [-> M]. destruct HU' as [[_ ->]|[HU' _]]; [|discriminate]. destruct M as [M1 M2].
      rewrite ?removelast_length. cbn [length map]. rewrite ?removelast_length. split; [lia|]. intros L.
      assert (L' : length U = length (a_V s)) by lia. specialize (M2 L'). unfold scaledV in M2. rewrite M2. destruct (map (scale (p_w (a_p s))) (a_V s)) as [|m0 M0] eqn:EM; [apply map_eq_nil in EM; rewrite EM in LV; cbn in LV; lia|].
      rewrite <- removelast_map, EM. reflexivity.
    + intros -> L. destruct HU' as [[HU' _]|[_ ->]]; [discriminate|]. cbn [length]. rewrite ?removelast_length. destruct U; [contradiction|]. cbn [length] in *. lia.
Qed.

Lemma removeMatrixColumns_ok is : forall s s' : iqn F, removeMatrixColumns is s = Some s' ->
  s' = setMatrices s (a_cols s') (rm is (a_V s)) (rm is (a_W s)) (a_qr s) /\ (length (rm is (a_V s)) + length is = length (a_V s))%nat.
Proof.
  induction is as [|i is IH]; intros s s' E.
  - injection E as <-. split; [destruct s; reflexivity|cbn; lia].
  - cbn [removeMatrixColumns] in E. apply bind_some in E. destruct E as [s1 [E1 E2]]. unfold removeMatrixColumn in E1. destruct (length (a_V s) <=? 1); [discriminate|].
    apply bind_some in E1. destruct E1 as [V [EV E1]]. apply bind_some in E1. destruct E1 as [W [EW E1]]. injection E1 as <-.
    apply removeColumn_some in EV. destruct EV as [Li ->]. apply removeColumn_some in EW. destruct EW as [_ ->]. apply IH in E2. destruct E2 as [E2 L2]. cbn [setMatrices a_V a_W a_cols a_qr] in E2, L2. split.
    + rewrite E2 at 1. reflexivity.
    + rewrite (length_delete i (a_V s) Li) in L2. change (rm (i :: is) (a_V s)) with (rm is (delete_at i (a_V s))). cbn [length]. lia.
Qed.
Lemma check_ok (s s' : iqn F) : checkColumns s = Some s' -> s' = s /\ length (a_V s) = cols (a_qr s).
Proof. unfold checkColumns. destruct (Nat.eqb_spec (length (a_V s)) (cols (a_qr s))); [|discriminate]. intros [= <-]. split; [reflexivity|assumption]. Qed.

(** the factorization of all columns is set up anew *)
Definition frame (s s' : iqn F) : Prop :=
  a_p s' = a_p s /\ a_fallback s' = a_fallback s /\ a_colsBackup s' = a_colsBackup s /\ a_VBackup s' = a_VBackup s /\ a_WBackup s' = a_WBackup s /\
  a_first s' = a_first s /\ a_firstWindow s' = a_firstWindow s /\ a_oldR s' = a_oldR s /\ a_oldXt s' = a_oldXt s.
Lemma reset_ok drop' V q del : reset hyp norm tiny again n drop' V = Some (q, del) -> factorizes n (without del V) q /\ StronglySorted lt del.
Proof.
  intros E. unfold reset in E. destruct (insertAll_ok F hyp norm tiny again HR HT n drop' V 0 [] (empty n) (empty_ok F n)) as [q1 [d1 [E1 [F1 _]]]].
  rewrite E1 in E. injection E as <- <-. split; [exact F1|]. exact (proj1 (insertAll_sorted F hyp norm tiny again drop' V 0 _ _ _ E1)).
Qed.
Lemma resetQR_ok s s' : resetQR hyp norm tiny again c s = Some s' ->
  frame s s' /\ (a_several s' = false -> a_several s = false /\ factorizes n (scaledV s') (a_qr s')) /\ (exists U, factorizes n U (a_qr s')) /\
  (forall R, Forall2 R (a_V s) (a_W s) -> Forall2 R (a_V s') (a_W s')).
Proof.
  intros E. unfold resetQR in E. apply bind_some in E. destruct E as [[q failed] [E1 E]]. apply bind_some in E. destruct E as [s1 [E2 E3]].
  apply check_ok in E3. destruct E3 as [-> L]. apply removeMatrixColumns_ok in E2. destruct E2 as [E2 L2]. cbn in E2, L2. destruct (reset_ok _ _ _ _ E1) as [FQ SS].
  rewrite E2. cbn. split; [repeat split|]. split.
  - intros H. apply orb_false_elim in H. destruct H as [H1 H2]. split; [exact H1|].
    assert (RF : rev failed = failed) by (destruct failed as [|a [|b f]]; [reflexivity|reflexivity|discriminate H2]).
    assert (X : map (scale (p_w (a_p s))) (rm failed (a_V s)) = without failed (map (scale (p_w (a_p s))) (a_V s))) by (rewrite <- rm_map, <- (rm_sorted _ failed SS), RF; reflexivity).
    unfold scaledV. cbn. rewrite X. exact FQ.
  - split; [eexists; exact FQ|]. intros R HH. cbn. apply Forall2_rm, HH.
Qed.

(** before the least-squares problem is solved *)
Definition ready (s : iqn F) : Prop := exists U, factorizes n U (a_qr s) /\ (a_several s = true \/ matches U s).
Lemma factorized_matches s : factorizes n (scaledV s) (a_qr s) -> exists U, factorizes n U (a_qr s) /\ matches U s.
Proof. intros H. exists (scaledV s). split; [exact H|]. unfold matches, scaledV. rewrite map_length. split; [lia|reflexivity]. Qed.

Lemma restoreBackup_ok s s' : synced s -> restoreBackup hyp norm tiny again c s = Some s' ->
  synced s' /\ frame s s' /\ (a_several s' = false -> a_several s = false) /\
  (forall R, Forall2 R (a_V s) (a_W s) -> Forall2 R (a_VBackup s) (a_WBackup s) -> Forall2 R (a_V s') (a_W s')).
Proof.
  intros S E. unfold restoreBackup in E.
  assert (Same : s' = s -> synced s' /\ frame s s' /\ (a_several s' = false -> a_several s = false) /\ (forall R, Forall2 R (a_V s) (a_W s) -> Forall2 R (a_VBackup s) (a_WBackup s) -> Forall2 R (a_V s') (a_W s'))).
  { intros ->. split; [exact S|]. split; [repeat split|]. split; [exact (fun H => H)|intros R H _; exact H]. }
  destruct (a_firstWindow s); [injection E as <-; apply Same; reflexivity|]. apply bind_some in E. destruct E as [m [_ E]].
  destruct ((m <? 1) && _ && _); [|injection E as <-; apply Same; reflexivity].
  apply resetQR_ok in E. destruct E as [Fr [E1 [E2 E3]]]. split; [|split; [|split]].
  - destruct (a_several s') eqn:A.
    + destruct E2 as [U HU]. exists U. split; [exact HU|left; exact A].
    + destruct (factorized_matches s' (proj2 (E1 eq_refl))) as [U [HU MU]]. exists U. split; [exact HU|right; right; exact MU].
  - exact Fr.
  - intros A. exact (proj1 (E1 A)).
  - intros R _ HB. apply E3. exact HB.
Qed.
Lemma newQR_ok s s' : synced s -> newQR hyp norm tiny again c s = Some s' ->
  synced s' /\ p_newQR (a_p s') = false /\ p_w (a_p s') = p_w (a_p s) /\ p_inv (a_p s') = p_inv (a_p s) /\ (a_several s' = false -> a_several s = false) /\
  a_first s' = a_first s /\ a_firstWindow s' = a_firstWindow s /\ a_oldR s' = a_oldR s /\ a_oldXt s' = a_oldXt s /\ a_VBackup s' = a_VBackup s /\ a_WBackup s' = a_WBackup s /\
  (forall R, Forall2 R (a_V s) (a_W s) -> Forall2 R (a_V s') (a_W s')).
Proof.
  intros S E. unfold newQR in E. destruct (p_newQR (a_p s)) eqn:N.
  - apply bind_some in E. destruct E as [s1 [E1 E2]]. injection E2 as <-. cbn.
    destruct (M_QN.isQR23 (M_QN.c_filter qnc)) eqn:Q23.
    + injection E1 as <-. split; [|repeat split; auto]. destruct S as [U [FU HU]]. exists U. split; [exact FU|]. right; left. unfold stale. cbn.
      destruct (M_QN.c_filter qnc); try discriminate; [right; left; reflexivity|right; right]. split; [reflexivity|apply orb_true_r].
    + apply resetQR_ok in E1. destruct E1 as [[Fp [Ff [_ [FV [FW [Fi [Fw [Fo Fx]]]]]]]] [E1 [E2 E3]]]. split; [|rewrite Fp, Fi, Fw, Fo, Fx, FV, FW; repeat split; auto; intros A; exact (proj1 (E1 A))].
      destruct (a_several s1) eqn:A.
      * destruct E2 as [U HU]. exists U. split; [exact HU|left; exact A].
      * destruct (factorized_matches s1 (proj2 (E1 eq_refl))) as [U [HU MU]]. exists U. split; [exact HU|right; right; exact MU].
  - injection E as <-. repeat split; auto.
Qed.
Lemma filter_del (s : iqn F) q del s1 : factorizes n (without del (scaledV s)) q -> StronglySorted lt del ->
  removeMatrixColumns (rev del) (setMatrices s (a_cols s) (a_V s) (a_W s) q) = Some s1 ->
  factorizes n (scaledV s1) (a_qr s1) /\ frame s s1 /\ a_several s1 = a_several s /\ (forall R, Forall2 R (a_V s) (a_W s) -> Forall2 R (a_V s1) (a_W s1)).
Proof.
  intros FQ SS E. apply removeMatrixColumns_ok in E. destruct E as [-> L]. cbn in *. split; [|split; [repeat split|split; [reflexivity|intros R H; apply Forall2_rm, H]]].
  unfold scaledV in *. cbn. rewrite <- rm_map, rm_sorted by exact SS. exact FQ.
Qed.
Lemma applyFilter_ok s s' : synced s -> p_newQR (a_p s) = false -> applyFilter hyp norm tiny again singular drop weak c s = Some s' ->
  ready s' /\ p_newQR (a_p s') = false /\ a_p s' = a_p s /\ a_several s' = a_several s /\ synced s' /\
  a_first s' = a_first s /\ a_firstWindow s' = a_firstWindow s /\ a_oldR s' = a_oldR s /\ a_oldXt s' = a_oldXt s /\ a_VBackup s' = a_VBackup s /\ a_WBackup s' = a_WBackup s /\
  (forall R, Forall2 R (a_V s) (a_W s) -> Forall2 R (a_V s') (a_W s')).
Proof.
  intros S N E.
  assert (RS : forall s1 : iqn F, ready s1 -> synced s1) by (intros s1 [U [HU [A|A]]]; exists U; (split; [exact HU|]); [left|right; right]; exact A).
  assert (Done : forall s1 s2 b, factorizes n (scaledV s1) (a_qr s1) -> frame s s1 -> a_several s1 = a_several s -> (forall R, Forall2 R (a_V s) (a_W s) -> Forall2 R (a_V s1) (a_W s1)) -> s2 = setFallback s1 b ->
    ready s2 /\ p_newQR (a_p s2) = false /\ a_p s2 = a_p s /\ a_several s2 = a_several s /\ synced s2 /\
    a_first s2 = a_first s /\ a_firstWindow s2 = a_firstWindow s /\ a_oldR s2 = a_oldR s /\ a_oldXt s2 = a_oldXt s /\ a_VBackup s2 = a_VBackup s /\ a_WBackup s2 = a_WBackup s /\
    (forall R, Forall2 R (a_V s) (a_W s) -> Forall2 R (a_V s2) (a_W s2))).
  { intros s1 s2 b FQ [Fp [Ff [_ [FV [FW [Fi [Fw [Fo Fx]]]]]]]] Sv HR2 ->. cbn. destruct (factorized_matches s1 FQ) as [U [HU MU]].
    assert (Rd : ready (setFallback s1 b)) by (exists U; split; [exact HU|right; exact MU]). rewrite Fp, Fi, Fw, Fo, Fx, FV, FW, Sv. repeat split; auto. }
  unfold applyFilter, qrFilter in E. destruct S as [U [FU HU]].
  destruct (M_QN.c_filter qnc) eqn:Fi.
  - injection E as <-. assert (Rd : ready s).
    { exists U. split; [exact FU|]. destruct HU as [A|[A|A]]; [left; exact A| |right; exact A]. exfalso. unfold stale in A. rewrite Fi, N in A. destruct A as [A|[A|[A _]]]; discriminate. }
    repeat split; auto.
  - apply bind_some in E. destruct E as [[q del'] [E1 E]]. apply bind_some in E1. destruct E1 as [[q1 del] [E1 E1']]. injection E1' as <- <-.
    apply bind_some in E. destruct E as [s1 [E2 E3]]. apply check_ok in E3. destruct E3 as [-> L]. cbn [M_QN.isQR3] in *. cbn in L.
    pose proof (qr1_count F hyp norm singular HR n U _ _ _ FU E1) as CU. destruct (qr1_ok F hyp norm singular HR n U _ FU) as [q2 [d2 [E1' [FQ _]]]]. rewrite E1 in E1'. injection E1' as <- <-.
    assert (ND := no_duplicates _ _ CU). assert (SS := sortIndices_sorted _ ND).
    destruct HU as [A|[A|A]].
    + apply removeMatrixColumns_ok in E2. destruct E2 as [-> L2]. cbn in *. assert (Rd : forall b, ready (setFallback (setMatrices s (a_cols s1) (rm (rev (sortIndices del)) (a_V s)) (rm (rev (sortIndices del)) (a_W s)) q1) b)) by (intros b; exists (without del U); split; [exact FQ|left; exact A]).
      repeat split; auto. intros R HH. apply Forall2_rm, HH.
    + exfalso. unfold stale in A. rewrite Fi, N in A. destruct A as [A|[A|[A _]]]; discriminate.
    + assert (LU : length U = length (a_V s)).
      { pose proof (removeMatrixColumns_ok _ _ _ E2) as [E2' L2]. cbn in L2. rewrite E2' in L. cbn in L. assert (Hq : cols q1 = length (without del U)) by apply FQ. rewrite rev_length in L2.
        pose proof (sortIndices_length del) as LD.
        unfold rm in *. cbn in *. lia. }
      destruct A as [_ A]. specialize (A LU). rewrite A in FQ. rewrite (without_ext del (sortIndices del)) in FQ by (intros x; symmetry; apply in_sortIndices).
      destruct (filter_del s q1 _ s1 FQ SS E2) as [F1 [Fr [Sv H2]]]. exact (Done s1 _ _ F1 Fr Sv H2 eq_refl).
  - apply bind_some in E. destruct E as [[q del] [E1 E]]. apply bind_some in E. destruct E as [s1 [E2 E3]]. apply check_ok in E3. destruct E3 as [-> L]. cbn [M_QN.isQR3] in *.
    destruct (reset_ok _ _ _ _ E1) as [FQ SS]. destruct (filter_del s q _ s1 FQ SS E2) as [F1 [Fr [Sv H2]]]. exact (Done s1 _ _ F1 Fr Sv H2 eq_refl).
  - apply bind_some in E. destruct E as [[q del] [E1 E]]. apply bind_some in E. destruct E as [s1 [E2 E3]]. apply check_ok in E3. destruct E3 as [-> L]. cbn [M_QN.isQR3] in *.
    destruct ((cols (a_qr s) =? 0) || _); [discriminate|].
    destruct (a_fallback s || _) eqn:Fb in E1.
    + destruct (reset_ok _ _ _ _ E1) as [FQ SS]. destruct (filter_del s q _ s1 FQ SS E2) as [F1 [Fr [Sv H2]]]. exact (Done s1 _ _ F1 Fr Sv H2 eq_refl).
    + injection E1 as <- <-. cbn [rev removeMatrixColumns] in E2. injection E2 as <-. apply orb_false_elim in Fb. destruct Fb as [Fb _]. cbn in L.
      assert (Rd : ready (setFallback (setMatrices s (a_cols s) (a_V s) (a_W s) (a_qr s)) false)).
      { exists U. split; [exact FU|]. destruct HU as [A|[A|A]]; [left; exact A| |right; exact A]. exfalso. unfold stale in A. rewrite Fi, N, Fb in A. destruct A as [A|[A|[_ A]]]; discriminate. }
      cbn. repeat split; auto.
Qed.
End P.
