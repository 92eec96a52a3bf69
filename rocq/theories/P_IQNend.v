(** IQN-ILS: the number of iterations on a linear problem. *)
From Coq Require Import Field Field_theory List Arith Lia Bool Sorted.
From Verif Require Import S_Field M_QR S_QR M_IQN S_IQN P_Field P_Dim P_QR P_QRsolve P_QRfilter P_IQNlist P_IQN P_IQNrun P_IQNlin.
From Verif Require M_QN.
Import ListNotations.

Section P.
Variable F : field.
Add Field KN : (K_theory F).
Local Infix "+" := (@add F). Local Infix "*" := (@mul F). Local Infix "-" := (@sub F). Local Notation "0" := (@zero F). Local Notation "1" := (@one F).
Local Infix "/" := (@div F).
Notation vec := (nat -> F).

(** a factorization has at most as many columns as rows *)
Lemma few_columns n U (q : qr F) : factorizes n U q -> (length U <= n)%nat.
Proof.
  intros FU. destruct (le_lt_dec (length U) n) as [L|L]; [exact L|exfalso].
  destruct (dependent F n (fun j e => nth j U (fun _ => 0) e)) as [a [[j [Hj Nj]] Ha]].
  apply Nj. set (x := fun j => if (j <=? n)%nat then a j else 0). assert (Z : x j = 0).
  { apply (independent F n U q x FU); [|lia]. intros e He. transitivity (fsum (S n) (fun j => nth j U (fun _ => 0) e * a j)); [|refine (eq_trans _ (Ha e He)); apply fsum_ext; intros k _; ring].
    unfold combination. replace (length U) with (S n + (length U - S n))%nat by lia. generalize (length U - S n)%nat. intros m. induction m as [|m IH].
    - rewrite Nat.add_0_r. apply fsum_ext. intros k Hk. unfold x. rewrite (proj2 (Nat.leb_le k n)) by lia. reflexivity.
    - rewrite Nat.add_succ_r. change (fsum (S n + m) (fun j => nth j U (fun _ => 0) e * x j) + nth (S n + m) U (fun _ => 0) e * x (S n + m)%nat = fsum (S n) (fun j => nth j U (fun _ => 0) e * a j)).
      rewrite IH. unfold x at 1. rewrite (proj2 (Nat.leb_gt (S n + m) n)) by lia. ring. }
  unfold x in Z. rewrite (proj2 (Nat.leb_le j n)) in Z by lia. exact Z.
Qed.

Variable hyp : F -> F -> F.
Variable norm : nat -> vec -> F.
Variable tiny : F -> bool.
Variable again : F -> F -> vec -> bool.
Variable singular : (nat -> nat -> F) -> nat -> nat -> bool.
Variable drop weak : F -> F -> bool.
Variable small : F -> bool.
Variable moved : vec -> vec -> bool.
Variable c : config F.
Notation n := (rowsOf c).
Notation qnc := (c_qn c).
Hypothesis HR : roots_ok hyp norm.
Hypothesis HE : exact norm tiny again.
Variable A : nat -> nat -> F.
Variable b : vec.
Variable f : vec.
Hypothesis HP : c_precond c = Constant f.
Hypothesis Hf : forall k, f k <> 0.
Hypothesis HN : M_QN.c_filter qnc = M_QN.NoFilter.
Hypothesis HM : (n <= M_QN.c_max qnc)%nat.
Hypothesis Hrel : c_relaxation c <> 0.
Let w : vec := fun e => 1 / f (partOf (c_parts c) e).
Let H := affine c A b.
(** the part of A that acts on the primary data *)
Let B (u : vec) : vec := primary c (apply F c A u).
Hypothesis definite : forall u, fdot n (fun e => w e * u e) (fun e => w e * (B u e - u e)) = 0 -> forall e, (e < n)%nat -> u e = 0.
Notation perform := (performAcceleration hyp norm tiny again singular drop weak small moved c).
Notation iterate := (iterate hyp norm tiny again singular drop weak small moved c H).

Lemma w_nonzero e : w e <> 0.
Proof. unfold w. apply div_nonzero; [apply (F_1_neq_0 (K_theory F))|apply Hf]. Qed.
Definition solved (x : vec) : Prop := forall e, (e < n)%nat -> residual c x (H x) e = 0.

(** the state with [m] columns before the next iteration, which starts with [x] *)
Record state (m : nat) (x : vec) (s : iqn F) : Prop := {
  s_cols : a_cols s = [m]; s_V : length (a_V s) = m; s_W : length (a_W s) = m;
  s_qr : factorizes n (scaledV s) (a_qr s);
  s_first : a_first s = false; s_window : a_firstWindow s = true;
  s_w : p_w (a_p s) = w; s_new : p_newQR (a_p s) = false; s_frozen : p_frozen (a_p s) = true;
  s_several : a_several s = false;
  s_secant : Forall2 (secant F c A) (a_V s) (a_W s);
  s_old : exists x0, a_oldR s = residual c x0 (H x0) /\ a_oldXt s = H x0;
  s_fresh : solved x \/ ~ in_span n (scaledV s) (scale w (fun e => residual c x (H x) e - a_oldR s e)) }.

Lemma residual_B b' x xt e : (forall e, xt e = affine c A b' x e) -> forall x' u, (forall e, affine c A b' x' e = x' e + apply F c A u e) -> residual c x' (affine c A b' x') e = B u e.
Proof. intros _ x' u Hu. unfold residual, B, primary. rewrite Hu. ring. Qed.
Lemma fdot_plus_r (p q r : vec) : fdot n p (fun e => q e + r e) = fdot n p q + fdot n p r.
Proof. apply fdot_plus. Qed.

Lemma first_step x0 : exists x s, perform x0 (H x0) (start c) = Some (x, s) /\ state 0 x s.
Proof.
  unfold performAcceleration, start, initialize, initializeMatrices, updateDifferenceMatrices. cbn. eexists. eexists. split; [reflexivity|].
  unfold initializePrecond. rewrite HP. constructor; cbn; try reflexivity.
  - apply empty_ok.
  - constructor.
  - exists x0. split; reflexivity.
  - set (x := fun e => c_relaxation c * H x0 e + (1 - c_relaxation c) * x0 e). set (r := residual c x0 (H x0)).
    assert (D : forall e, residual c x (H x) e = r e + c_relaxation c * (B r e - r e)).
    { intros e. unfold residual at 1. change (primary c (H x) e) with (affine c A b x (nth e (c_ids c) O)). unfold affine.
      change (fsum n (fun k => A (nth e (c_ids c) O) k * primary c x k)) with (apply F c A (primary c x) (nth e (c_ids c) O)).
      rewrite (apply_ext F c A (primary c x) (fun k => primary c x0 k + r k * c_relaxation c)) by (intros k _; unfold x, r, residual, primary; ring).
      rewrite apply_plus, apply_scale. set (i := nth e (c_ids c) O).
      change (apply F c A (primary c x0) i + apply F c A r i * c_relaxation c + b i - (c_relaxation c * H x0 i + (1 - c_relaxation c) * x0 i) =
        (H x0 i - x0 i) + c_relaxation c * (apply F c A r i - (H x0 i - x0 i))).
      change (H x0 i) with (apply F c A (primary c x0) i + b i). ring. }
    destruct (existsb (fun e => negb (is_zero (B r e - r e))) (seq 0 n)) eqn:Ex.
    + right. apply existsb_exists in Ex. destruct Ex as [e [He Ne]]. apply in_seq in He. intros [y Hy]. specialize (Hy e ltac:(lia)). unfold combination in Hy. cbn [scaledV map length fsum a_V setPrecond setOld setMatrices] in Hy. unfold scale in Hy. rewrite D in Hy.
      apply negb_true_iff in Ne. assert (Z : B r e - r e = 0); [|rewrite (proj2 (is_zero_ok F _) Z) in Ne; discriminate].
      apply (mul_zero_r F (c_relaxation c * w e)); [|apply mul_nonzero; [exact Hrel|apply w_nonzero]]. refine (eq_trans _ Hy). ring.
    + left. assert (Z : forall e, (e < n)%nat -> B r e - r e = 0).
      { intros e He. apply (is_zero_ok F). destruct (is_zero (B r e - r e)) eqn:E; [reflexivity|]. exfalso.
        assert (X : existsb (fun e => negb (is_zero (B r e - r e))) (seq 0 n) = true); [|rewrite X in Ex; discriminate]. apply existsb_exists. exists e. split; [apply in_seq; lia|rewrite E; reflexivity]. }
      assert (R0 : forall e, (e < n)%nat -> r e = 0). { apply definite. apply fsum_zero. intros e He. rewrite Z by exact He. ring. }
      intros e He. fold x. rewrite D, Z, R0 by exact He. ring.
Qed.

Lemma solved_dec x : solved x \/ ~ solved x.
Proof.
  destruct (forallb (fun e => is_zero (residual c x (H x) e)) (seq 0 n)) eqn:E.
  - left. intros e He. rewrite forallb_forall in E. apply (is_zero_ok F). apply E, in_seq. lia.
  - right. intros Z. assert (X : forallb (fun e => is_zero (residual c x (H x) e)) (seq 0 n) = true); [|rewrite X in E; discriminate].
    apply forallb_forall. intros e He. apply in_seq in He. apply (is_zero_ok F), Z. lia.
Qed.
Lemma span_difference (V : list vec) (u v : vec) : in_span n V u -> in_span n V v -> in_span n V (fun e => u e - v e).
Proof.
  intros [y Hy] [z Hz]. exists (fun j => y j - z j). intros e He. rewrite Hy, Hz by exact He. unfold combination. rewrite <- fsum_minus. apply fsum_ext. intros j _. ring.
Qed.
Lemma next_step m x s : state m x s -> ~ in_span n (scaledV s) (scale w (fun e => residual c x (H x) e - a_oldR s e)) ->
  exists x' s', perform x (H x) s = Some (x', s') /\ state (S m) x' s'.
Proof.
  intros T N. set (r := residual c x (H x)) in *. set (dr := fun e => r e - a_oldR s e) in *. set (dx := fun e => H x e - a_oldXt s e).
  destruct (insert_ok F hyp norm tiny again HR (exact_tiny F norm tiny again HE) n (scaledV s) (a_qr s) 0 (scale w dr) never (s_qr _ _ _ T) ltac:(lia)) as [bb [q [Eq [Fq _]]]].
  destruct bb; [|exfalso; apply N; exact (rejected_span F hyp norm tiny again HR HE n (scaledV s) (a_qr s) 0 (scale w dr) q (s_qr _ _ _ T) ltac:(lia) Eq)].
  change (insert_at 0 (scale w dr) (scaledV s)) with (scale w dr :: scaledV s) in Fq.
  assert (Lm : (S m <= n)%nat). { apply few_columns in Fq. cbn [length] in Fq. unfold scaledV in Fq. rewrite map_length, (s_V _ _ _ T) in Fq. exact Fq. }
  set (s1 := setMatrices (setOld (setFallback s (a_fallback s || negb true)) r (H x)) [S m] (dr :: a_V s) (dx :: a_W s) q).
  assert (E1 : updateDifferenceMatrices hyp norm tiny again c x (H x) (initializeMatrices c s) = Some s1).
  { unfold initializeMatrices. rewrite (s_first _ _ _ T), andb_false_r. unfold updateDifferenceMatrices. rewrite (s_first _ _ _ T). cbn [andb].
    unfold getLSSystemCols. rewrite (s_cols _ _ _ T), (s_V _ _ _ T), (s_W _ _ _ T). replace (M_QN.sum [m]) with m by (cbn; lia). rewrite !Nat.eqb_refl. cbn [andb bind negb orb].
    rewrite (proj2 (Nat.leb_le m (M_QN.c_max qnc)) ltac:(lia)). cbn [negb]. fold r. fold dr. fold dx. unfold pushFront. rewrite (s_w _ _ _ T), Eq. cbn [bind M_QN.frontIncrement].
    rewrite (proj2 (Nat.eqb_neq m (M_QN.c_max qnc)) ltac:(lia)), (proj2 (Nat.leb_le m n) ltac:(lia)). reflexivity. }
  assert (Sc : scaledV s1 = scale w dr :: scaledV s) by (unfold scaledV, s1; cbn; rewrite (s_w _ _ _ T); reflexivity).
  assert (E2 : prepareUpdate hyp norm tiny again singular drop weak small moved c x (H x) s1 = Some s1).
  { unfold prepareUpdate, restoreBackup. replace (a_firstWindow s1) with true by (cbn; symmetry; apply T). cbn [bind]. unfold updatePrecond. replace (p_frozen (a_p s1)) with true by (cbn; symmetry; apply T).
    unfold newQR. cbn [a_p setPrecond]. replace (p_newQR (a_p s1)) with false by (cbn; symmetry; apply T). cbn [bind]. unfold applyFilter. rewrite HN. reflexivity. }
  assert (E3 : exists u, computeQNUpdate c r s1 = Some u).
  { unfold computeQNUpdate, getLSSystemCols. cbn [s1 setMatrices setOld setFallback a_cols a_V a_W a_qr length]. rewrite (s_V _ _ _ T), (s_W _ _ _ T). replace (M_QN.sum [S m]) with (S m) by (cbn; lia).
    rewrite Nat.eqb_refl. cbn [andb bind]. assert (Hc : cols q = length (scale w dr :: scaledV s)) by apply Fq. rewrite Hc. cbn [length]. unfold scaledV at 1. rewrite map_length, (s_V _ _ _ T), Nat.eqb_refl. eexists. reflexivity. }
  destruct E3 as [u E3].
  assert (L : least_squares_step c w (a_V s1) (a_W s1) r (H x) (fun e => H x e + u e)).
  { replace w with (p_w (a_p s1)) by (cbn; apply T). apply computeQNUpdate_ok.
    - exists (scaledV s1). rewrite Sc. split; [exact Fq|right]. split; cbn; [unfold scaledV; rewrite map_length; lia|intros _; unfold scaledV; cbn; rewrite (s_w _ _ _ T); reflexivity].
    - cbn. apply T.
    - cbn. rewrite (s_V _ _ _ T), (s_W _ _ _ T). reflexivity.
    - exact E3. }
  set (x' := fun e => H x e + u e) in *. exists x', (nextIteration s1). split.
  { unfold performAcceleration. rewrite E1. cbn [bind]. fold r. replace (a_first s1) with false by (cbn; symmetry; apply T). cbn [andb]. rewrite E2. cbn [bind]. rewrite E3. cbn [bind].
    unfold pendingDeletion. replace (a_first s1) with false by (cbn; symmetry; apply T). reflexivity. }
  assert (Sec : Forall2 (secant F c A) (dr :: a_V s) (dx :: a_W s)).
  { constructor; [|apply T]. destruct (s_old _ _ _ T) as [x0 [O1 O2]]. unfold dr, dx, r. rewrite O1, O2. exact (new_secant F c A b x (H x) x0 (H x0) (fun e => eq_refl) (fun e => eq_refl)). }
  assert (SV : scaledV (nextIteration s1) = map (scale w) (a_V s1)) by (unfold scaledV; cbn; rewrite (s_w _ _ _ T); reflexivity).
  assert (Fr : solved x' \/ ~ in_span n (map (scale w) (a_V s1)) (scale w (fun e => residual c x' (H x') e - r e))).
  { destruct L as [y [Ly [Ln _]]]. set (rest := fun e => r e + combination (a_V s1) y e) in *.
    assert (Rx : forall e, residual c x' (H x') e = B rest e).
    { intros e. apply (residual_B b x (H x) e (fun e => eq_refl)). intros e'. apply (step_residual F c A b (a_V s1) (a_W s1) x (H x) x' y Sec (fun e => eq_refl) Ly). }
    destruct (solved_dec x') as [Z|Z]; [left; exact Z|right]. intros [z Hz]. apply Z. intros e He. rewrite Rx.
    assert (R0 : forall e, (e < n)%nat -> rest e = 0).
    { apply definite. rewrite fdot_sym.
      rewrite <- (perp_combination F c w (a_V s1) rest (fun j => z j - y j) Ln). apply fdot_ext; intros k Hk; [|reflexivity]. specialize (Hz k Hk).
      rewrite combination_scaled in Hz. unfold scale in Hz. rewrite Rx in Hz.
      assert (CM : combination (a_V s1) (fun j => z j - y j) k = combination (a_V s1) z k - combination (a_V s1) y k) by (unfold combination; rewrite <- fsum_minus; apply fsum_ext; intros j _; ring).
      rewrite CM. transitivity ((B rest k - r k) * w k - w k * combination (a_V s1) y k); [unfold rest at 2; ring|]. rewrite Hz. ring. }
    unfold B, primary. rewrite (apply_ext F c A rest (fun _ => 0) _ R0). unfold apply. apply fsum_zero. intros k _. ring. }
  constructor; cbn; try apply T; try reflexivity.
  - rewrite (s_V _ _ _ T). reflexivity.
  - rewrite (s_W _ _ _ T). reflexivity.
  - change (factorizes n (scaledV s1) q). rewrite Sc. exact Fq.
  - exact Sec.
  - exists x. split; reflexivity.
  - destruct Fr as [Z|Z]; [left; exact Z|right]. intros Sp. apply Z. rewrite <- SV. exact Sp.
Qed.

Lemma reach x0 : forall k m x s, (n - m <= k)%nat -> iterate (S m) x0 = Some (x, s) -> state m x s -> exists j y t, (j <= S n)%nat /\ iterate j x0 = Some (y, t) /\ solved y.
Proof.
  induction k as [|k IH]; intros m x s Hk E T.
  - pose proof (few_columns n _ _ (s_qr _ _ _ T)) as Lm. unfold scaledV in Lm. rewrite map_length, (s_V _ _ _ T) in Lm.
    destruct (s_fresh _ _ _ T) as [Z|N]; [exists (S m), x, s; split; [lia|split; [exact E|exact Z]]|].
    destruct (next_step m x s T N) as [x' [s' [E' T']]]. pose proof (few_columns n _ _ (s_qr _ _ _ T')) as L'. unfold scaledV in L'. rewrite map_length, (s_V _ _ _ T') in L'. lia.
  - pose proof (few_columns n _ _ (s_qr _ _ _ T)) as Lm. unfold scaledV in Lm. rewrite map_length, (s_V _ _ _ T) in Lm.
    destruct (s_fresh _ _ _ T) as [Z|N]; [exists (S m), x, s; split; [lia|split; [exact E|exact Z]]|].
    destruct (next_step m x s T N) as [x' [s' [E' T']]]. apply (IH (S m) x' s'); [lia| |exact T']. change (bind (iterate (S m) x0) (fun '(x, s) => perform x (H x) s) = Some (x', s')). rewrite E. exact E'.
Qed.
Lemma ends x0 : exists j y t, (j <= S n)%nat /\ iterate j x0 = Some (y, t) /\ solved y.
Proof. destruct (first_step x0) as [x [s [E T]]]. apply (reach x0 n 0 x s); [lia|exact E|exact T]. Qed.
End P.
