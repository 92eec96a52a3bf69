(** Constant relaxation (C45) and Aitken acceleration (C46). *)
From Coq Require Import ZArith QArith Qabs Bool List Lia Lqa Sorted Arith.
From Verif Require Import M_Time M_Wave M_WaveCache M_Accel S_Wave S_Accel P_Wave P_Accel P_Aitken.
Import ListNotations.
Open Scope nat_scope.

Section Accel.
Variable eps : Z.
Hypothesis E0 : (0 <= eps)%Z.
Variable qr : list row -> list Q -> list Q.
Variable tol : Q.
Hypothesis T0 : (0 <= tol)%Q.

Lemma F2_impl {A B} (P P' : A -> B -> Prop) : (forall a b, P a b -> P' a b) -> forall l l', Forall2 P l l' -> Forall2 P' l l'.
Proof. intros I l l' F. induction F; constructor; auto. Qed.

(** * C45 *)
Lemma relaxation_spec omega ws : forall m m', (forall id d, In (id, d) m -> current qr (cd_prev d)) ->
  applyRelaxation eps qr omega m ws = Some m' ->
  Forall2 (fun p p' => fst p' = fst p /\ relaxed eps qr (combination omega) ws (snd p) (snd p')) m m'.
Proof.
  induction m as [|(id, d) r IH]; intros m' C H; cbn in H; [injection H as <-; constructor|].
  destruct (relaxData eps qr omega ws d) as [d'|] eqn:R; [|discriminate].
  destruct (applyRelaxation eps qr omega r ws) as [r'|] eqn:S; [|discriminate]. injection H as <-. constructor.
  - split; [reflexivity|]. apply (relaxData_spec eps qr omega ws d d' (C id d (or_introl eq_refl)) R).
  - apply IH; auto. intros i e I. apply (C i e). right. exact I.
Qed.

(** every sample after the window start is replaced by the combination of the new
    and the previous values, the others stay *)
Theorem C45_samples_are_combinations : forall omega m m' ws,
  (forall id d, In (id, d) m -> current qr (cd_prev d)) ->
  constantRelaxation eps qr omega m ws = Some m' ->
  Forall2 (fun p p' => fst p' = fst p /\ relaxed eps qr (combination omega) ws (snd p) (snd p')) m m'.
Proof. intros omega m m' ws C H. apply relaxation_spec; auto. Qed.

Lemma relaxed_weaken (R R' : Q -> Q -> Q -> Prop) ws d d' : (forall n o r, R n o r -> R' n o r) -> relaxed eps qr R ws d d' -> relaxed eps qr R' ws d d'.
Proof.
  intros I (A & B & F). split; auto. split; auto. induction F as [|q q' l l' (T & K & L) F IH]; constructor; auto.
  assert (P : forall a b c, pointwise R a b c -> pointwise R' a b c).
  { intros a b c (X & Y & Z). split; auto. }
  split; auto. split; auto. intro G. destruct (L G) as ((old & PV & PW) & NG & YG). split; [exists old; auto|]. split; auto.
  intro Y. destruct (YG Y) as (og & PG & PH). exists og; auto.
Qed.
(** the new values lie between the previous and the unrelaxed values *)
Theorem C45_values_stay_between : forall omega m m' ws,
  constantOk omega = true ->
  (forall id d, In (id, d) m -> current qr (cd_prev d)) ->
  constantRelaxation eps qr omega m ws = Some m' ->
  Forall2 (fun p p' => fst p' = fst p /\ relaxed eps qr between ws (snd p) (snd p')) m m'.
Proof.
  intros omega m m' ws K C H. unfold constantOk, Qltb in K. apply andb_true_iff in K. destruct K as (K1 & K2).
  apply Qle_bool_iff in K2. apply negb_true_iff in K1. assert (0 < omega)%Q by (apply Qnot_le_lt; intro Q; apply Qle_bool_iff in Q; congruence).
  eapply F2_impl; [|exact (relaxation_spec omega ws m m' C H)]. intros p p' (A & R). split; auto.
  eapply relaxed_weaken; [|exact R]. intros n o r Q. unfold combination in Q. unfold between. destruct (Qlt_le_dec n o); [left|right]; nra.
Qed.

(** relaxation succeeds if the previous iteration has samples at the same times *)
Theorem C45_same_grid_succeeds : forall omega m ws,
  (forall id d, In (id, d) m -> same_grid eps d) -> exists m', constantRelaxation eps qr omega m ws = Some m'.
Proof. intros omega m ws G. apply (applyRelaxation_grid eps E0 qr omega ws m G). Qed.

Lemma comb_same omega : forall a c, pointwise (combination omega) a a c -> veq c a.
Proof.
  induction a as [|x a IH]; intros [|y c] (L & L2 & P); cbn in *; try discriminate; [constructor|]. constructor.
  - assert (A := P 0 (Nat.lt_0_succ _)). unfold combination in A. cbn in A. rewrite A. ring.
  - apply IH. split; auto. split; [lia|]. intros i I. apply (P (S i)). lia.
Qed.
Lemma veq_refl : forall a, veq a a.
Proof. induction a; constructor; auto. reflexivity. Qed.
(** data that did not change in the last iteration is not changed by relaxation *)
Theorem C45_converged_data_is_unchanged : forall omega m ws,
  (forall id d, In (id, d) m -> current qr (cd_prev d) /\ ordered eps (wf_st (cd_wave d)) /\ wf_st (cd_prev d) = wf_st (cd_wave d)) ->
  exists m', constantRelaxation eps qr omega m ws = Some m' /\
  Forall2 (fun p p' => fst p' = fst p /\ Forall2 same_sample (wf_st (cd_wave (snd p))) (wf_st (cd_wave (snd p')))) m m'.
Proof.
  intros omega m ws H. destruct (C45_same_grid_succeeds omega m ws) as (m' & E).
  { intros id d I. destruct (H id d I) as (_ & O & S). split; auto. rewrite S. clear. induction (wf_st (cd_wave d)); constructor; auto. }
  exists m'. split; auto. assert (F := relaxation_spec omega ws m m' (fun id d I => proj1 (H id d I)) E).
  clear E. induction F as [|(id, d) (id', d') l l' (A & (_ & _ & R)) F IH]; constructor.
  - split; auto. cbn [snd] in *. destruct (H id d (or_introl eq_refl)) as (_ & O & S). apply ordered_ord in O.
    assert (IN : forall q, In q (wf_st (cd_wave d)) -> In q (wf_st (cd_prev d))) by (intro q; rewrite S; auto).
    assert (OP : Ord eps (wf_st (cd_prev d))) by (rewrite S; exact O).
    clear O S. revert IN R. generalize (wf_st (cd_wave d)) as w. generalize (wf_st (cd_wave d')) as w'. intros w' w IN R.
    induction R as [|q q' w w' (T & K & L) R IHR]; constructor; [|apply IHR; intros x X1; apply IN; right; exact X1].
    destruct (Z_lt_le_dec (ws + eps) (fst q)) as [G|G]; [|rewrite (K G); split; [reflexivity|split; apply veq_refl]].
    destruct (L G) as ((old & (f' & PV) & PW) & NG & YG). destruct q as (t, (v, g)), q' as (t', (v', g')). cbn [fst snd] in *.
    assert (IQ := IN _ (or_introl eq_refl)). rewrite (sample_exact eps E0 qr _ t _ OP IQ) in PV. injection PV as <- <-. cbn [fst] in PW.
    split; [exact T|]. split; [apply (comb_same omega); exact PW|]. destruct (cd_gradient d).
    + destruct (YG eq_refl) as (og & PG & PH). unfold previous_gradients in PG. rewrite (gradients_exact eps E0 _ t _ OP IQ) in PG. injection PG as <-.
      apply (comb_same omega). exact PH.
    + cbn [fst snd]. rewrite (NG eq_refl). apply veq_refl.
  - apply IH. intros i e I. apply (H i e). right. exact I.
Qed.

(** * C46 *)
(** in the first iteration of a window the factor is at most the configured one *)
Theorem C46_first_factor_is_bounded : forall a a' w m m' ws we,
  aitkenPerform eps qr tol a w m ws we = Some (a', m') -> a_counter a = 0 -> (0 < a_initial a)%Q ->
  (Qabs (a_factor a') <= a_initial a)%Q.
Proof.
  intros a a' w m m' ws we H C P. unfold aitkenPerform in H.
  destruct (concatenate eps qr m (a_ids a) we) as [(v, o)|]; [|discriminate]. destruct (zip Qminus v o) as [r|]; [|discriminate].
  unfold nextFactor in H. rewrite C in H. destruct (zip Qminus r (a_old a)); [|discriminate]. cbn [Nat.eqb] in H.
  destruct (applyRelaxation eps qr _ m ws); [|discriminate]. injection H as <- <-. cbn [a_factor].
  rewrite Qabs_Qmult. assert (B : (Qabs (qmin (a_initial a) (qabs (a_factor a))) <= a_initial a)%Q).
  { unfold qmin, qabs, Qltb. destruct (Qle_bool 0 (a_factor a)) eqn:L0; cbn [negb];
      match goal with |- context [Qle_bool ?x ?y] => destruct (Qle_bool x y) eqn:L1 end; cbn [negb]; rewrite ?Qle_bool_iff in *;
      try (rewrite Qabs_pos; lra).
    - assert (~ a_initial a <= a_factor a)%Q by (rewrite <- Qle_bool_iff; congruence). rewrite Qabs_pos; lra.
    - assert (~ a_initial a <= - a_factor a)%Q by (rewrite <- Qle_bool_iff; congruence). assert (~ 0 <= a_factor a)%Q by (rewrite <- Qle_bool_iff; congruence).
      rewrite Qabs_pos; lra. }
  assert (S : (Qabs (sign tol (a_factor a)) <= 1)%Q).
  { unfold sign. destruct (Qltb tol (a_factor a)); [cbn; lra|]. destruct (Qltb tol (- a_factor a)); cbn; lra. }
  assert (X1 := Qabs_nonneg (sign tol (a_factor a))). assert (X2 := Qabs_nonneg (qmin (a_initial a) (qabs (a_factor a)))). nra.
Qed.
(** a new window starts with a bounded factor again *)
Theorem C46_first_factor_after_a_window : forall a a' huge w m m' ws we, (0 < a_initial a)%Q ->
  aitkenPerform eps qr tol (aitkenConverged huge a) w m ws we = Some (a', m') -> (Qabs (a_factor a') <= a_initial a)%Q.
Proof. intros a a' huge w m m' ws we P H. apply (C46_first_factor_is_bounded _ a' w m m' ws we H); auto. Qed.

(** relaxation of the next iteration uses the samples that were stored *)
Theorem C45_stored_iteration_is_used : forall d d', storeIteration d = Some d' ->
  wf_st (cd_prev d') = wf_st (cd_wave d) /\ wf_deg (cd_prev d') = wf_deg (cd_wave d) /\ current qr (cd_prev d') /\
  cd_wave d' = cd_wave d /\ cd_gradient d' = cd_gradient d.
Proof.
  intros d d' H. unfold storeIteration in H. destruct (wf_st (cd_wave d)) as [|x w]; [discriminate|]. injection H as <-.
  cbn. repeat split; auto. intros sp E. discriminate.
Qed.

(** in the first window it is the configured one *)
Theorem C46_initial_factor : forall a a' initial ids n w m m' ws we,
  aitkenNew initial ids n = Some a -> (tol < initial)%Q ->
  aitkenPerform eps qr tol a w m ws we = Some (a', m') -> (a_factor a' == initial)%Q.
Proof.
  intros a a' initial ids n w m m' ws we HA L H. unfold aitkenNew in HA. destruct (_ && _) eqn:K; [|discriminate]. injection HA as <-.
  unfold aitkenPerform in H. destruct (concatenate eps qr m _ we) as [(v, o)|]; [|discriminate]. destruct (zip Qminus v o) as [r|]; [|discriminate].
  unfold nextFactor in H. cbn [a_counter a_old a_factor a_initial] in H. destruct (zip Qminus r _); [|discriminate]. cbn [Nat.eqb] in H.
  destruct (applyRelaxation eps qr _ m ws); [|discriminate]. injection H as <- <-. cbn [a_factor].
  unfold sign. assert (Qltb tol initial = true) as ->.
  { unfold Qltb. apply negb_true_iff. apply not_true_is_false. rewrite Qle_bool_iff. lra. }
  assert (qabs initial = initial) as ->.
  { unfold qabs. assert (Qltb initial 0 = false) as ->; [|reflexivity]. unfold Qltb. apply negb_false_iff. rewrite Qle_bool_iff. lra. }
  unfold qmin. destruct (Qltb initial initial); ring.
Qed.

Lemma factor_nonzero f initial : (tol < Qabs f)%Q -> (0 < initial)%Q -> ~ (sign tol f * qmin initial (qabs f) == 0)%Q.
Proof.
  intros L I H. apply Qmult_integral in H. destruct H as [H|H].
  - unfold sign in H. destruct (Qltb tol f) eqn:A; [discriminate|]. destruct (Qltb tol (- f)) eqn:B; [discriminate|].
    unfold Qltb in A, B. apply negb_false_iff in A. apply negb_false_iff in B. rewrite Qle_bool_iff in A, B.
    assert (Qabs f <= tol)%Q by (apply Qabs_Qle_condition; lra). lra.
  - assert (P : (0 < qabs f)%Q).
    { unfold qabs, Qltb. destruct (Qle_bool 0 f) eqn:A; cbn [negb].
      - rewrite Qle_bool_iff in A. rewrite Qabs_pos in L by exact A. lra.
      - assert (~ 0 <= f)%Q by (rewrite <- Qle_bool_iff; congruence). lra. }
    unfold qmin in H. destruct (Qltb (qabs f) initial); lra.
Qed.

(** The coupled problem is [x = a x + b] in every coefficient of the primary data.
    One relaxation and one Aitken step give the solution, whatever the previous
    windows did, as long as the factor did not become zero. *)
Theorem C46_affine_problems_are_solved_in_two_iterations : forall A w0 w1 m0 ws we a b x0,
  let ids := a_ids A in
  a_counter A = 0 -> (0 < a_initial A)%Q -> (tol < Qabs (a_factor A))%Q -> length (a_old A) = length (flat_map x0 ids) ->
  (ws + eps < we)%Z ->
  (forall id d, In (id, d) m0 -> same_grid eps d /\ current qr (cd_prev d)) ->
  (forall id, In id ids -> length (b id) = length (x0 id)) ->
  iterates eps m0 ids we x0 (fun id => affine a b id (x0 id)) ->
  exists A1 m0', aitkenPerform eps qr tol A w0 m0 ws we = Some (A1, m0') /\
  forall m1 x1,
    values_are m0' ids we x1 ->
    (forall id d, In (id, d) m1 -> same_grid eps d /\ current qr (cd_prev d)) ->
    iterates eps m1 ids we x1 (fun id => affine a b id (x1 id)) ->
    ~ (a == 1)%Q ->
    (exists id, In id ids /\ ~ veq (affine a b id (x0 id)) (x0 id)) ->
    (length w1 = length (flat_map x0 ids) /\ Forall (fun w => ~ w == 0)%Q w1) ->
    exists A2 m1', aitkenPerform eps qr tol A1 w1 m1 ws we = Some (A2, m1') /\
    exists x2, values_are m1' ids we x2 /\ forall id, In id ids -> veq (affine a b id (x2 id)) (x2 id).
Proof.
  intros A w0 w1 m0 ws we a b x0 ids C0 PI PF LO TW G0 LB I0.
  assert (LN : forall x id, length (b id) = length (x id) -> length (affine a b id (x id)) = length (x id)).
  { intros x id L. apply affine_length. exact L. }
  destruct (residuals_ok (fun id => affine a b id (x0 id)) x0 ids) as (r0 & R0 & Z0).
  { intros id I. apply LN. apply LB. exact I. }
  assert (LR0 : length r0 = length (flat_map x0 ids)).
  { destruct (zip_spec _ _ _ _ Z0) as (L1 & L2 & _). lia. }
  set (f0 := (sign tol (a_factor A) * qmin (a_initial A) (qabs (a_factor A)))%Q).
  assert (NF0 : nextFactor tol A w0 r0 = Some f0).
  { unfold nextFactor. destruct (zip_some Qminus r0 (a_old A)) as (c & ->); [lia|]. rewrite C0. reflexivity. }
  assert (F0 : ~ (f0 == 0)%Q) by (apply factor_nonzero; auto).
  destruct (perform_ok eps E0 qr tol A w0 m0 ws we x0 (fun id => affine a b id (x0 id)) I0 (fun id d I => proj1 (G0 id d I)) (fun id d I => proj2 (G0 id d I)) TW r0 f0 R0 NF0)
    as (m0' & P0 & V0).
  eexists _, m0'. split; [exact P0|]. intros m1 x1 VA G1 I1 NA (idn & IDN & NV) (LW & NW).
  set (A1 := Aitken (a_initial A) (a_ids A) f0 r0 (S (a_counter A))).
  (* x1 is the relaxed value *)
  assert (X1 : forall id, In id ids -> pointwise (combination f0) (affine a b id (x0 id)) (x0 id) (x1 id)).
  { intros id I. destruct (VA id I) as (d & v & g & AT & IV & EV). destruct (V0 id I) as (d' & v' & g' & AT' & IV' & P).
    rewrite AT in AT'. injection AT' as <-.
    assert (OW : Ord eps (wf_st (cd_wave d))).
    { destruct (I0 id I) as (e & h & h' & ATE & OE & _).
      unfold aitkenPerform in P0. change (a_ids A) with ids in P0. rewrite (concatenate_ok eps E0 qr m0 we x0 _ ids I0), Z0, NF0 in P0.
      destruct (applyRelaxation eps qr f0 m0 ws) as [mm|] eqn:AR; [|discriminate]. injection P0 as ->.
      destruct (applyRelaxation_at eps qr f0 ws m0 m0' id e AR ATE) as (e' & AE & RD). rewrite AT in AE. injection AE as <-.
      assert (CE : current qr (cd_prev e)).
      { apply (G0 id e). clear -ATE. induction m0 as [|(i, q) l IH]; cbn in ATE; [discriminate|]. destruct (Nat.eqb_spec i id) as [->|N]; [injection ATE as ->; left; reflexivity|right; auto]. }
      destruct (relaxData_spec eps qr f0 ws e d CE RD) as ((_ & _ & F) & _). apply ordered_ord in OE.
      apply (ord_times eps (wf_st (cd_wave e))); [|exact OE]. clear -F. induction F as [|q q' l l' (T & _) F IH]; cbn; [reflexivity|]. exact (f_equal2 cons (eq_sym T) IH). }
    assert (EQ : (v, g) = (v', g')).
    { assert (S1 := scan_exact eps E0 _ we _ OW IV). assert (S2 := scan_exact eps E0 _ we _ OW IV'). rewrite S1 in S2. injection S2 as -> ->. reflexivity. }
    injection EQ as <- <-. destruct P as (L1 & L2 & P). split; auto. 
    assert (LV : length v = length (x1 id)) by (clear -EV; induction EV; cbn; auto).
    split; [congruence|]. intros i Hi. assert (PI1 := P i Hi). unfold combination in *. rewrite <- PI1.
    clear -EV. revert i. induction EV as [|p q l l' PQ EV IH]; intros [|i]; cbn; try reflexivity; [symmetry; exact PQ|apply IH]. }
  assert (LX1 : forall id, In id ids -> length (x1 id) = length (x0 id)).
  { intros id I. destruct (X1 id I) as (L1 & L2 & _). rewrite L2. apply LN. apply LB. exact I. }
  assert (LB1 : forall id, In id ids -> length (b id) = length (x1 id)) by (intros id I; rewrite (LX1 id I); apply LB; exact I).
  destruct (residuals_ok (fun id => affine a b id (x1 id)) x1 ids) as (r1 & R1 & Z1).
  { intros id I. apply LN. apply LB1. exact I. }
  assert (SC : scaled (1 + (a - 1) * f0) r1 r0).
  { apply (residuals_scaled a b f0 x0 x1 ids r0 r1); auto. }
  assert (NZ : ~ Forall (fun x => x == 0)%Q r0).
  { intro F. apply NV. apply (residuals_zero (fun id => affine a b id (x0 id)) x0 ids r0 R0 F idn IDN). }
  assert (LR1 : length r1 = length r0) by (clear -SC; induction SC; cbn; auto).
  (* the deltas *)
  destruct (zip_some Qminus r1 r0 LR1) as (dl & ED).
  assert (SD : scaled ((a - 1) * f0) dl r0).
  { clear -SC ED. revert dl ED. induction SC as [|x y l l' XY SC IH]; intros dl ED; cbn in ED; [injection ED as <-; constructor|].
    destruct (zip Qminus l l') as [c|] eqn:E; [|discriminate]. injection ED as <-. constructor; [rewrite XY; ring|]. apply IH. reflexivity. }
  assert (LD : length dl = length r0) by (clear -SD; induction SD; cbn; auto).
  assert (WG : exists d o, weigh A1 w1 dl = Some d /\ weigh A1 w1 r0 = Some o /\ scaled ((a - 1) * f0) d o /\ ~ (dotv o o == 0)%Q).
  { unfold weigh. cbn [a_ids A1]. destruct (1 <? length (a_ids A)).
    - destruct (zip_some Qmult dl w1) as (d & D); [lia|]. destruct (zip_some Qmult r0 w1) as (o & O); [lia|]. exists d, o.
      split; auto. split; auto. split; [eapply scaled_zip; eauto|]. intro Z. apply NZ. eapply zip_weights_zero; eauto. apply dot_pos. exact Z.
    - exists dl, r0. split; auto. split; auto. split; auto. intro Z. apply NZ. apply dot_pos. exact Z. }
  destruct WG as (d & o & WD & WO & SS & DZ). destruct (dot_scaled _ _ _ SS) as (DD & OD).
  set (k := ((a - 1) * f0)%Q) in *.
  assert (KZ : ~ (k == 0)%Q).
  { unfold k. intro Z. apply Qmult_integral in Z. destruct Z as [Z|Z]; [apply NA; lra|exact (F0 Z)]. }
  assert (DN : ~ (dotv d d == 0)%Q).
  { rewrite DD. intro Z. apply Qmult_integral in Z. destruct Z as [Z|Z]; [|exact (DZ Z)]. apply Qmult_integral in Z. tauto. }
  set (f1 := (- f0 * (dotv o d / dotv d d))%Q).
  assert (NF1 : nextFactor tol A1 w1 r1 = Some f1).
  { unfold nextFactor. cbn [A1 a_old]. rewrite ED. change (a_counter A1 =? 0) with false. cbv beta iota. rewrite WD, WO.
    destruct (Qeq_bool (dotv d d) 0) eqn:QE; [apply Qeq_bool_iff in QE; contradiction|]. reflexivity. }
  assert (FIX : (1 + (a - 1) * f1 == 0)%Q).
  { unfold f1. rewrite DD, OD. unfold k. field. repeat split; auto. intro Z. apply NA. lra. }
  destruct (perform_ok eps E0 qr tol A1 w1 m1 ws we x1 (fun id => affine a b id (x1 id)) I1 (fun id e I => proj1 (G1 id e I)) (fun id e I => proj2 (G1 id e I)) TW r1 f1 R1 NF1)
    as (m1' & P1 & V1).
  eexists _, m1'. split; [exact P1|].
  exists (fun id => match at_ m1' id with Some e => match scan eps (wf_st (cd_wave e)) we with Some y => fst y | None => [] end | None => [] end).
  assert (SAME : forall id, In id ids -> exists e v g, at_ m1' id = Some e /\ In (we, (v, g)) (wf_st (cd_wave e)) /\ scan eps (wf_st (cd_wave e)) we = Some (v, g) /\
     pointwise (combination f1) (affine a b id (x1 id)) (x1 id) v).
  { intros id I. destruct (V1 id I) as (e & v & g & AT & IV & P). exists e, v, g. split; auto. split; auto. split; auto.
    destruct (I1 id I) as (e0 & h & h' & ATE & OE & _).
    unfold aitkenPerform in P1. cbn [A1 a_ids] in P1. fold ids in P1. fold A1 in P1.
    rewrite (concatenate_ok eps E0 qr m1 we x1 _ ids I1), Z1, NF1 in P1.
    destruct (applyRelaxation eps qr f1 m1 ws) as [mm|] eqn:AR; [|discriminate]. injection P1 as ->.
    destruct (applyRelaxation_at eps qr f1 ws m1 m1' id e0 AR ATE) as (e' & AE & RD). rewrite AT in AE. injection AE as <-.
    assert (CE : current qr (cd_prev e0)).
    { apply (G1 id e0). clear -ATE. induction m1 as [|(i, q) l IH]; cbn in ATE; [discriminate|]. destruct (Nat.eqb_spec i id) as [->|N]; [injection ATE as ->; left; reflexivity|right; auto]. }
    destruct (relaxData_spec eps qr f1 ws e0 e CE RD) as ((_ & _ & F) & _). apply ordered_ord in OE.
    apply (scan_exact eps E0 _ we _); [|exact IV]. apply (ord_times eps (wf_st (cd_wave e0))); [|exact OE].
    clear -F. induction F as [|q q' l l' (T & _) F IH]; cbn; [reflexivity|]. exact (f_equal2 cons (eq_sym T) IH). }
  split.
  - intros id I. destruct (SAME id I) as (e & v & g & AT & IV & SCN & P). exists e, v, g. split; auto. split; auto. rewrite AT, SCN. apply veq_refl.
  - intros id I. destruct (SAME id I) as (e & v & g & AT & IV & SCN & P). rewrite AT, SCN. cbn [fst]. unfold affine in *.
    apply (final_step a f1 FIX (x1 id) (b id) v); auto.
Qed.

(** Later factors minimize the residual that is predicted by the last two ones.
    [predicted o r c] is the residual expected for [c] times the last step. *)
Definition predicted (o r : vec) (c : Q) : vec := map (fun p => fst p + c * (snd p - fst p))%Q (combine o r).
Definition norm2 (v : vec) : Q := dotv v v.
Lemma predicted_norm : forall r o d, zip Qminus r o = Some d ->
  forall c, (norm2 (predicted o r c) == norm2 o + (2 * c * dotv o d + c * c * dotv d d))%Q.
Proof.
  induction r as [|x r IH]; intros [|y o] d H c; cbn in H; try discriminate.
  - injection H as <-. unfold norm2, predicted, dotv. cbn. ring.
  - destruct (zip Qminus r o) as [l|] eqn:E; [|discriminate]. injection H as <-. unfold norm2, predicted in *. cbn [combine map fst snd].
    rewrite !dot_cons. rewrite (IH o l E c). ring.
Qed.
Lemma sq_nonneg (x : Q) : (0 <= x * x)%Q.
Proof. nra. Qed.
Theorem C46_factor_minimizes_predicted_residual : forall a w r f,
  a_counter a <> 0 -> length (a_ids a) = 1 -> ~ (a_factor a == 0)%Q -> nextFactor tol a w r = Some f ->
  forall s, (norm2 (predicted (a_old a) r (f / a_factor a)) <= norm2 (predicted (a_old a) r (s / a_factor a)))%Q.
Proof.
  intros a w r f C L NZ H s. unfold nextFactor in H. destruct (zip Qminus r (a_old a)) as [d|] eqn:E; [|discriminate].
  apply Nat.eqb_neq in C. rewrite C in H. unfold weigh in H. rewrite L in H. cbn [Nat.ltb Nat.leb] in H.
  destruct (Qeq_bool (dotv d d) 0) eqn:Q; [discriminate|]. injection H as <-.
  assert (DN : ~ (dotv d d == 0)%Q) by (intro Z; apply Qeq_bool_iff in Z; congruence).
  assert (DP : (0 < dotv d d)%Q) by (destruct (dot_pos d) as (P & _); destruct (Qlt_le_dec 0 (dotv d d)); [assumption|]; exfalso; apply DN; lra).
  rewrite !(predicted_norm r (a_old a) d E). set (u := (s / a_factor a)%Q). set (od := dotv (a_old a) d). set (dd := dotv d d) in *.
  assert (EF : (- a_factor a * (od / dd) / a_factor a == - (od / dd))%Q) by (field; auto). rewrite EF.
  assert (K : (od == od / dd * dd)%Q) by (field; auto). set (v := (od / dd)%Q) in *.
  assert (SQ : (0 <= (u + v) * (u + v) * dd)%Q) by (apply Qmult_le_0_compat; [apply sq_nonneg|lra]).
  set (n := norm2 (a_old a)).
  assert (D : (n + (2 * u * od + u * u * dd) == n + (2 * - v * od + - v * - v * dd) + (u + v) * (u + v) * dd)%Q) by (rewrite K; ring).
  lra.
Qed.

(** a factor that became zero stays zero, in this and in all later windows *)
Theorem C46_zero_factor_is_kept : forall a a' w m m' ws we,
  (a_factor a == 0)%Q -> aitkenPerform eps qr tol a w m ws we = Some (a', m') ->
  (a_factor a' == 0)%Q /\ forall huge, (a_factor (aitkenConverged huge a') == 0)%Q.
Proof.
  intros a a' w m m' ws we Z H. assert (K : (a_factor a' == 0)%Q); [|split; auto]. unfold aitkenPerform in H.
  destruct (concatenate eps qr m (a_ids a) we) as [(v, o)|]; [|discriminate]. destruct (zip Qminus v o) as [r|]; [|discriminate].
  destruct (nextFactor tol a w r) as [f|] eqn:F; [|discriminate]. destruct (applyRelaxation eps qr f m ws) as [mm|]; [|discriminate]. injection H as <- <-. cbn [a_factor].
  unfold nextFactor in F. destruct (zip Qminus r (a_old a)) as [dl|]; [|discriminate]. destruct (a_counter a =? 0).
  - injection F as <-. unfold sign. assert (S : forall x, (x == 0)%Q -> Qltb tol x = false).
    { intros x X0. unfold Qltb. apply negb_false_iff. rewrite Qle_bool_iff. lra. }
    rewrite (S _ Z), (S (- a_factor a)%Q) by (rewrite Z; reflexivity). ring.
  - destruct (weigh a w dl), (weigh a w (a_old a)); try discriminate. destruct (Qeq_bool _ 0); [discriminate|]. injection F as <-. rewrite Z. ring.
Qed.
End Accel.

Print Assumptions C45_samples_are_combinations.
Print Assumptions C45_values_stay_between.
Print Assumptions C45_same_grid_succeeds.
Print Assumptions C45_converged_data_is_unchanged.
Print Assumptions C46_first_factor_is_bounded.
Print Assumptions C46_initial_factor.
Print Assumptions C46_first_factor_after_a_window.
Print Assumptions C45_stored_iteration_is_used.
Print Assumptions C46_affine_problems_are_solved_in_two_iterations.
Print Assumptions C46_factor_minimizes_predicted_residual.
Print Assumptions C46_zero_factor_is_kept.

(** * Examples *)
(** two data, with a sample at the window start 0, one at 5 and one at the end 10 *)
Definition noqr (A : list row) (b : list Q) : list Q := b.
Definition wfOf (w : wave smp) : wform := Wf w 1 None.
Definition heat : couplingData := CD (wfOf [(0%Z, ([1; 1], [])); (5%Z, ([4; 2], [])); (10%Z, ([6; 2], []))]%Q) (wfOf [(0%Z, ([1; 1], [])); (5%Z, ([2; 2], [])); (10%Z, ([2; 4], []))]%Q) false None.
Definition force : couplingData := CD (wfOf [(0%Z, ([5], [1])); (10%Z, ([9], [3]))]%Q) (wfOf [(0%Z, ([5], [1])); (10%Z, ([7], [1]))]%Q) true None.
Definition both : dataMap := [(3, heat); (4, force)].
Definition shown (o : option dataMap) : option (list (nat * wave smp)) :=
  match o with None => None | Some m => Some (map (fun p => (fst p, map (fun q => (fst q, (map Qred (fst (snd q)), map Qred (snd (snd q))))) (wf_st (cd_wave (snd p))))) m) end.
Example half : shown (constantRelaxation 0 noqr (1 # 2) both 0) =
  Some [(3%nat, [(0%Z, ([1; 1], [])); (5%Z, ([3; 2], [])); (10%Z, ([4; 3], []))]); (4%nat, [(0%Z, ([5], [1])); (10%Z, ([8], [2]))])]%Q.
Proof. vm_compute. reflexivity. Qed.
Example both_meets : constantOk (1 # 2) = true /\ (forall id d, In (id, d) both -> same_grid 0 d /\ current noqr (cd_prev d)).
Proof.
  split; [reflexivity|]. intros id d [H|[H|[]]]; injection H as <- <-; (split; [split|intros sp S; discriminate]).
  - apply (ord_ordered 0). repeat constructor; cbn; lia.
  - repeat constructor.
  - apply (ord_ordered 0). repeat constructor; cbn; lia.
  - repeat constructor.
Qed.
(** Aitken for the problem x = -2 x + 9 (solution 3), start value 1 *)
Definition single (prev now : Q) : dataMap := [(0, CD (wfOf [(0%Z, ([1], [])); (10%Z, ([now], []))]%Q) (wfOf [(0%Z, ([1], [])); (10%Z, ([prev], []))]%Q) false None)].
Definition endValue (o : option (aitken * dataMap)) : option (Q * Q) :=
  match o with Some (a, [(_, d)]) => match w_last (wf_st (cd_wave d)) with Some (_, ([v], _)) => Some (Qred (a_factor a), Qred v) | _ => None end | _ => None end.
Definition start : aitken := Aitken (1 # 2) [0] (1 # 2) [0%Q] 0.
Definition second : aitken := Aitken (1 # 2) [0] (1 # 2) [6%Q] 1.
Example aitken_runs : aitkenNew (1 # 2) [0] 1 = Some start /\
  endValue (aitkenPerform 0 noqr 0 start [] (single 1 7) 0 10) = Some (1 # 2, 4)%Q /\
  endValue (aitkenPerform 0 noqr 0 second [] (single 4 1) 0 10) = Some (1 # 3, 3)%Q.
Proof. vm_compute. repeat split. Qed.
Example aitken_meets : (forall id d, In (id, d) (single 1 7) -> same_grid 0 d /\ current noqr (cd_prev d)) /\
  iterates 0 (single 1 7) [0] 10 (fun _ => [1%Q]) (fun id => affine (- (2)) (fun _ => [9%Q]) id [1%Q]) /\
  ~ veq (affine (- (2)) (fun _ => [9%Q]) 0 [1%Q]) [1%Q].
Proof.
  split; [|split].
  - intros id d [H|[]]; injection H as <- <-. split; [split|intros sp S; discriminate].
    + apply (ord_ordered 0). repeat constructor; cbn; lia.
    + repeat constructor.
  - intros id [<-|[]]. eexists _, [], []. split; [reflexivity|]. split; [|split; [|split; [|split]]].
    + apply (ord_ordered 0). repeat constructor; cbn; lia.
    + apply (ord_ordered 0). repeat constructor; cbn; lia.
    + right. left. reflexivity.
    + right. left. reflexivity.
    + reflexivity.
  - intro H. inversion H as [|x y l l' E F]; subst. vm_compute in E. discriminate.
Qed.
(** The factor can become zero, and then Aitken acceleration stalls: here the second
    residual (1, 1) differs from the first one (1, 0) by an orthogonal vector. *)
Theorem C46_nonzero_factor_refuted : exists a r f,
  a_counter a = 1 /\ (a_factor a == 1 # 2)%Q /\ ~ Forall (fun x => x == 0)%Q r /\ nextFactor 0 a [] r = Some f /\ (f == 0)%Q.
Proof.
  exists (Aitken (1 # 2) [0] (1 # 2) [1; 0]%Q 1), [1; 1]%Q. eexists. split; [reflexivity|]. split; [reflexivity|].
  split; [|split; [reflexivity|reflexivity]]. intro H. inversion H as [|x l E F]; subst. discriminate.
Qed.
Print Assumptions C46_nonzero_factor_refuted.
