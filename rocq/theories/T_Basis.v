(** C87: radial basis functions have the support radius of the configuration. *)
From Coq Require Import Reals Lra Lia Arith.
From Verif Require Import M_Basis S_Basis P_Basis.
Open Scope R_scope.

(** Every function that gets a support radius has exactly that radius: it is positive up to it, zero from there on, and nearer
    vertices count more.  Other radii are refused. *)
Theorem C87_compact : forall k c s, has_radius k ->
  (/ 10 ^ 14 < c -> exists f, configured k (Some c) s = Created f /\ getSupportRadius f = Some c /\ bump (evaluate f) c) /\
  (c <= / 10 ^ 14 -> configured k (Some c) s = Refused).
Proof.
  intros k c s Hk. rewrite (configured_compact k c s Hk). fold tolerance. pose proof tolerance_pos as Ht. split; intros H.
  - apply positive_spec in H as Hp. rewrite Hp. eexists. split; [reflexivity|]. split; [|apply compact_bump; [exact Hk|lra]].
    destruct k; try contradiction; cbn [getSupportRadius kind parameter1]; f_equal; field; lra.
  - apply positive_false in H. rewrite H. reflexivity.
Qed.

(** The polynomials are Wendland's functions for three dimensions: C2n is (1-p)^(n+2), integrated n times. *)
Theorem C87_wendland : forall k n c s, integrations k = Some n -> / 10 ^ 14 < c ->
  exists f w, configured k (Some c) s = Created f /\ wendland n (n + 2) w /\ forall r, r < c -> evaluate f r = w (r / c).
Proof.
  intros k n c s Hn H. assert (Hk : has_radius k) by (destruct k; try discriminate Hn; exact I).
  rewrite (configured_compact k c s Hk). fold tolerance in H. pose proof tolerance_pos as Ht. apply positive_spec in H as Hp. rewrite Hp.
  eexists. exists (compactShape k). split; [reflexivity|]. split; [apply shape_wendland; exact Hn|].
  intros r Hr. rewrite evaluate_compact by exact Hk. replace (r * (1 / c)) with (r / c) by (field; lra).
  destruct (Rle_dec 1 (r / c)) as [H1|H1]; [|reflexivity]. exfalso.
  assert (r / c < 1); [|lra]. apply Rmult_lt_reg_r with c; [lra|]. replace (r / c * c) with r by (field; lra). lra.
Qed.

Lemma width_1 : 1 <= width.
Proof.
  pose proof width_pos as Hp. destruct (Rle_dec 1 width) as [|H]; [assumption|exfalso].
  assert (Hs : width * width < 1) by (apply Rlt_le_trans with (1 * 1); [apply Rmult_gt_0_lt_compat; lra|lra]).
  rewrite width_sq, ln_Rinv in Hs by (apply pow_lt; lra). rewrite Ropp_involutive, ln_pow_nat in Hs by lra.
  assert (H1 : 1 < ln 10).
  { rewrite <- (ln_exp 1). apply ln_increasing; [apply exp_pos|]. pose proof exp_le_3. lra. }
  replace (INR 9) with 9 in Hs by (cbn [INR]; ring). lra.
Qed.

(** A Gaussian with a support radius: inside the value is (10^-9)^((r/c)^2), outside it is zero. *)
Theorem C87_gaussian_radius : forall c,
  (0 < c -> c < 10 ^ 14 -> exists f, configured Gaussian (Some c) None = Created f /\ getSupportRadius f = Some c /\
    (forall r, 0 <= r <= c -> evaluate f r = Rpower (/ 10 ^ 9) ((r / c) ^ 2)) /\ (forall r, c < r -> evaluate f r = 0) /\
    (forall r r', 0 <= r -> r < r' -> r <= c -> evaluate f r' < evaluate f r)) /\
  (c < 0 -> configured Gaussian (Some c) None = Refused).
Proof.
  intros c. pose proof width_pos as Hw. pose proof width_1 as Hw1. pose proof tolerance_pos as Ht. split.
  - intros H0 Hc. rewrite configured_radius by lra.
    assert (Hp : positive (width / c) = true).
    { apply positive_spec. apply Rmult_lt_reg_r with c; [exact H0|]. replace (width / c * c) with width by (field; lra).
      apply Rlt_le_trans with (tolerance * 10 ^ 14); [apply Rmult_lt_compat_l; [exact Ht|exact Hc]|].
      unfold tolerance. rewrite Rinv_l; [exact Hw1|apply pow_nonzero; lra]. }
    rewrite Hp. assert (Hs : 0 < width / c) by (apply Rdiv_lt_0_compat; lra).
    assert (E : width / (width / c) = c) by (field; lra).
    destruct (gauss_spec (width / c) Hs) as (Hf & _ & Hout & _ & Hd). rewrite E in *.
    eexists. split; [reflexivity|]. split; [reflexivity|]. split; [|split; [exact Hout|exact Hd]].
    intros r [Hr0 Hr]. rewrite Hf by exact Hr. unfold Rpower. f_equal.
    replace (ln (/ 10 ^ 9)) with (- (width * width)) by (rewrite width_sq; ring). field. lra.
  - intros H0. rewrite configured_radius by lra.
    assert (Hp : positive (width / c) = false).
    { apply positive_false. apply Rle_trans with 0; [|lra]. unfold Rdiv. rewrite <- (Rmult_0_r width). apply Rmult_le_compat_l; [lra|].
      apply Rlt_le, Rinv_lt_0_compat. exact H0. }
    rewrite Hp. reflexivity.
Qed.

(** A Gaussian with a shape parameter: its support radius is where the function falls to 10^-9. *)
Theorem C87_gaussian_shape : forall s,
  (/ 10 ^ 14 < s -> exists f c, configured Gaussian None (Some s) = Created f /\ getSupportRadius f = Some c /\ 0 < c /\ exp (- (s * c) ^ 2) = / 10 ^ 9 /\
    (forall r, r <= c -> evaluate f r = exp (- (s * r) ^ 2)) /\ (forall r, c < r -> evaluate f r = 0) /\
    (forall r r', 0 <= r -> r < r' -> r <= c -> evaluate f r' < evaluate f r)) /\
  (s <= / 10 ^ 14 -> configured Gaussian None (Some s) = Refused) /\
  (forall c, configured Gaussian (Some c) (Some s) = Refused) /\ configured Gaussian None None = Refused.
Proof.
  intros s. fold tolerance. pose proof width_pos as Hw. pose proof tolerance_pos as Ht. rewrite configured_shape. split; [|split; [|split; reflexivity]].
  - intros H. apply positive_spec in H as Hp. rewrite Hp. assert (Hs : 0 < s) by lra.
    destruct (gauss_spec s Hs) as (Hf & _ & Hout & He & Hd).
    exists (Rbf Gaussian s (width / s) 0), (width / s). split; [reflexivity|]. split; [reflexivity|]. split; [apply Rdiv_lt_0_compat; lra|].
    split; [rewrite <- Hf by lra; exact He|]. split; [exact Hf|split; [exact Hout|exact Hd]].
  - intros H. apply positive_false in H. rewrite H. reflexivity.
Qed.

(** The class Gaussian with a shape parameter and a support radius below the one of the shape parameter: the function is shifted
    such that it is zero at the radius. *)
Theorem C87_gaussian_explicit : forall s c, / 10 ^ 14 < s -> / 10 ^ 14 < c -> / 10 ^ 9 <= exp (- (s * c) ^ 2) ->
  exists f, newGaussian s (Some c) = Some f /\ getSupportRadius f = Some c /\ bump (evaluate f) c /\
    forall r r', 0 <= r <= c -> 0 <= r' <= c -> evaluate f r - evaluate f r' = exp (- (s * r) ^ 2) - exp (- (s * r') ^ 2).
Proof.
  intros s c Hs Hc He. fold tolerance in Hs, Hc. pose proof tolerance_pos as Ht. unfold newGaussian.
  rewrite (proj2 (positive_spec s) Hs), (proj2 (positive_spec c) Hc). cbn [negb]. fold width. pose proof width_pos as Hw.
  assert (Hle : c <= width / s).
  { destruct (Rle_dec c (width / s)) as [|H]; [assumption|exfalso]. apply Rnot_le_lt in H.
    assert (H0 : 0 <= width / s) by (apply Rlt_le, Rdiv_lt_0_compat; lra). assert (Hs0 : 0 < s) by lra.
    pose proof (gauss_decreasing s (width / s) c Hs0 H0 H) as Hd.
    replace (s * (width / s)) with width in Hd by (field; lra). rewrite at_width in Hd. lra. }
  rewrite Rmin_left by exact Hle.
  assert (E : evaluate (Rbf Gaussian s c 0) c = exp (- (s * c) ^ 2)) by (rewrite evaluate_gaussian; destruct (Rlt_dec c c); [lra|ring]).
  rewrite E. eexists. split; [reflexivity|]. split; [reflexivity|]. split; [apply gauss_explicit; lra|].
  intros r r' Hr Hr'. rewrite !evaluate_gaussian. destruct (Rlt_dec c r); [lra|]. destruct (Rlt_dec c r'); [lra|]. ring.
Qed.

(** The other functions: r^2 ln r, r, and the multiquadrics, whose value times itself is c^2 + r^2 or its reciprocal. *)
Theorem C87_global : forall a s,
  (exists f, configured ThinPlateSplines a s = Created f /\ getSupportRadius f = None /\ evaluate f 0 = 0 /\ forall r, / 10 ^ 14 <= r -> evaluate f r = r * r * ln r) /\
  (exists f, configured VolumeSplines a s = Created f /\ getSupportRadius f = None /\ forall r, 0 <= r -> evaluate f r = r) /\
  (forall c, exists f, configured Multiquadrics a (Some c) = Created f /\ getSupportRadius f = None /\
     forall r, 0 <= evaluate f r /\ evaluate f r * evaluate f r = c * c + r * r) /\
  (forall c, / 10 ^ 14 < c -> exists f, configured InverseMultiquadrics a (Some c) = Created f /\ getSupportRadius f = None /\
     forall r, 0 < evaluate f r /\ evaluate f r * evaluate f r * (c * c + r * r) = 1) /\
  (forall c, c <= / 10 ^ 14 -> configured InverseMultiquadrics a (Some c) = Refused).
Proof.
  intros a s. fold tolerance. pose proof tolerance_pos as Ht. split; [|split; [|split; [|split]]].
  - eexists. split; [reflexivity|]. split; [reflexivity|]. split; [|intros r Hr]; unfold evaluate; cbn [kind]; rewrite pow_int_pow; [ring|].
    rewrite Rmax_left by exact Hr. ring.
  - eexists. split; [reflexivity|]. split; [reflexivity|]. intros r Hr. unfold evaluate. cbn [kind]. apply Rabs_pos_eq. exact Hr.
  - intros c. eexists. split; [reflexivity|]. split; [reflexivity|]. intros r. unfold evaluate. cbn [kind parameter1]. rewrite !pow_int_pow.
    split; [apply sqrt_pos|]. rewrite sqrt_sqrt; [ring|]. pose proof (pow2_ge_0 c). pose proof (pow2_ge_0 r). lra.
  - intros c Hc. cbn [configured constructRBF]. rewrite (proj2 (positive_spec c) Hc). eexists. split; [reflexivity|]. split; [reflexivity|].
    intros r. unfold evaluate. cbn [kind parameter1]. rewrite !pow_int_pow.
    assert (Hp : 0 < c ^ 2 + r ^ 2) by (assert (0 < c ^ 2) by (apply pow_lt; lra); pose proof (pow2_ge_0 r); lra).
    pose proof (sqrt_lt_R0 _ Hp) as Hq. split; [apply Rdiv_lt_0_compat; lra|].
    replace (c * c + r * r) with (sqrt (c ^ 2 + r ^ 2) * sqrt (c ^ 2 + r ^ 2)) by (rewrite sqrt_sqrt by lra; ring). field. lra.
  - intros c Hc. apply positive_false in Hc. cbn [configured constructRBF]. rewrite Hc. reflexivity.
Qed.

(** The unit of length does not matter: with the support radius in the other unit the values are the same. *)
Theorem C87_units : forall k c u f g, has_radius k \/ k = Gaussian -> 0 < u -> configured k (Some c) None = Created f -> configured k (Some (u * c)) None = Created g ->
  forall r, evaluate g (u * r) = evaluate f r.
Proof.
  intros k c u f g Hk Hu Hf Hg r. destruct Hk as [Hk|Hk].
  - rewrite configured_compact in Hf, Hg by exact Hk. destruct (positive c) eqn:E; [|discriminate Hf]. apply positive_spec in E.
    destruct (positive (u * c)); [|discriminate Hg]. injection Hf as <-. injection Hg as <-. pose proof tolerance_pos.
    rewrite !evaluate_compact by exact Hk. replace (u * r * (1 / (u * c))) with (r * (1 / c)) by (field; lra). reflexivity.
  - subst k. assert (Hc : c <> 0).
    { intros ->. cbn [configured] in Hf. destruct (Req_EM_T 0 0) as [_|H]; [discriminate Hf|apply H; reflexivity]. }
    pose proof width_pos as Hw.
    assert (Huc : u * c <> 0) by (apply Rmult_integral_contrapositive_currified; lra).
    rewrite configured_radius in Hf by exact Hc. rewrite configured_radius in Hg by exact Huc.
    destruct (positive (width / c)); [|discriminate Hf]. destruct (positive (width / (u * c))); [|discriminate Hg].
    injection Hf as <-. injection Hg as <-. rewrite !evaluate_gaussian.
    replace (width / (width / (u * c))) with (u * c) by (field; lra). replace (width / (width / c)) with c by (field; lra).
    replace (width / (u * c) * (u * r)) with (width / c * r) by (field; lra).
    destruct (Rlt_dec (u * c) (u * r)) as [H|H]; destruct (Rlt_dec c r) as [H'|H']; try reflexivity.
    + exfalso. apply Rmult_lt_reg_l in H; [lra|exact Hu].
    + exfalso. apply H. apply Rmult_lt_compat_l; assumption.
Qed.

Lemma configured_kind : forall k a s f, configured k a s = Created f -> kind f = k.
Proof.
  intros k a s f H. destruct k; cbn [configured constructRBF] in H; unfold newCompact, newGaussian in H;
    try (injection H as <-; reflexivity).
  1-6: destruct (positive _); [injection H as <-; reflexivity|discriminate H].
  - destruct (positive _); [injection H as <-; reflexivity|discriminate H].
  - destruct a as [c|], s as [s|]; try discriminate H.
    + destruct (Req_EM_T c 0); [discriminate H|]. destruct (positive _); [injection H as <-; reflexivity|discriminate H].
    + destruct (positive _); [injection H as <-; reflexivity|discriminate H].
Qed.

(** The functions that are said to be strictly positive definite are the ones whose matrix of any two different vertices is. *)
Theorem C87_two_vertices : forall k a s f d, configured k a s = Created f -> 0 < d -> (isStrictlyPositiveDefinite k = true <-> definite (evaluate f) d).
Proof.
  intros k a s f d H Hd. pose proof tolerance_pos as Ht.
  assert (Hbump : has_radius k -> definite (evaluate f) d).
  { intros Hk. destruct a as [c|].
    - rewrite configured_compact in H by exact Hk. destruct (positive c) eqn:E; [|discriminate H]. apply positive_spec in E. injection H as <-.
      destruct (compact_bump k c Hk) as (Hp & Hz & Hdec); [lra|]. apply definite_two; [|apply Hdec; lra].
      destruct (Rle_dec c d) as [Hc|Hc]; [rewrite Hz by exact Hc; lra|]. apply Rlt_le, Hp; lra.
    - exfalso. assert (E : positive 0 = false) by (apply positive_false; lra).
      destruct k; try contradiction; cbn [configured constructRBF] in H; unfold newCompact in H; rewrite E in H; discriminate H. }
  assert (Hgauss : forall x, 0 < x -> definite (evaluate (Rbf Gaussian x (width / x) 0)) d).
  { intros x Hx. pose proof width_pos as Hw. assert (Hwx : 0 < width / x) by (apply Rdiv_lt_0_compat; lra).
    destruct (gauss_spec x Hx) as (_ & Hin & Hout & _ & Hdec). apply definite_two; [|apply Hdec; lra].
    destruct (Rle_dec d (width / x)) as [Hc|Hc]; [|rewrite Hout by lra; lra].
    apply Rle_trans with (/ 10 ^ 9); [apply Rlt_le, Rinv_0_lt_compat, pow_lt; lra|apply Hin; lra]. }
  destruct k; try (split; [intros _; apply Hbump; exact I|reflexivity]).
  - split; [discriminate|]. intros Hdef. exfalso. specialize (Hdef 1 0). unfold form in Hdef.
    injection H as <-. unfold evaluate in Hdef. cbn [kind] in Hdef. rewrite !pow_int_pow in Hdef.
    assert (Hx : 1 <> 0 \/ 0 <> 0) by (left; lra). specialize (Hdef Hx). ring_simplify in Hdef. lra.
  - split; [discriminate|]. intros Hdef. exfalso. specialize (Hdef 1 0). unfold form in Hdef.
    injection H as <-. unfold evaluate in Hdef. cbn [kind] in Hdef. rewrite Rabs_R0 in Hdef.
    assert (Hx : 1 <> 0 \/ 0 <> 0) by (left; lra). specialize (Hdef Hx). lra.
  - split; [discriminate|]. intros Hdef. exfalso. specialize (Hdef 1 (-1)). unfold form in Hdef.
    injection H as <-. unfold evaluate in Hdef. cbn [kind parameter1] in Hdef. rewrite !pow_int_pow in Hdef.
    assert (Hx : 1 <> 0 \/ -1 <> 0) by (left; lra). specialize (Hdef Hx).
    set (c := match s with Some s => s | None => 0 end) in *.
    assert (Hl : sqrt (c ^ 2 + 0 ^ 2) < sqrt (c ^ 2 + d ^ 2)).
    { pose proof (pow2_ge_0 c). assert (0 < d ^ 2) by (apply pow_lt; lra). apply sqrt_lt_1; lra. }
    lra.
  - split; [|reflexivity]. intros _. cbn [configured constructRBF] in H. set (c := match s with Some s => s | None => 0 end) in *.
    destruct (positive c) eqn:E; [|discriminate H]. apply positive_spec in E. injection H as <-.
    assert (H0 : 0 < c ^ 2) by (apply pow_lt; lra). assert (H2 : 0 < d ^ 2) by (apply pow_lt; lra).
    assert (Hl : sqrt (c ^ 2 + 0 ^ 2) < sqrt (c ^ 2 + d ^ 2)) by (apply sqrt_lt_1; lra).
    assert (Hs0 : 0 < sqrt (c ^ 2 + 0 ^ 2)) by (apply sqrt_lt_R0; lra).
    apply definite_two; unfold evaluate; cbn [kind parameter1]; rewrite !pow_int_pow; unfold Rdiv; rewrite !Rmult_1_l.
    + apply Rlt_le, Rinv_0_lt_compat. lra.
    + apply Rinv_lt_contravar; [apply Rmult_lt_0_compat; lra|exact Hl].
  - split; [|reflexivity]. intros _. destruct a as [c|], s as [s|]; try discriminate H.
    + assert (Hc : c <> 0). { intros ->. cbn [configured] in H. destruct (Req_EM_T 0 0) as [_|H']; [discriminate H|apply H'; reflexivity]. }
      rewrite configured_radius in H by exact Hc. destruct (positive (width / c)) eqn:E; [|discriminate H]. apply positive_spec in E.
      injection H as <-. apply Hgauss. lra.
    + rewrite configured_shape in H. destruct (positive s) eqn:E; [|discriminate H]. apply positive_spec in E. injection H as <-. apply Hgauss. lra.
Qed.

(** "The support radius is where the function becomes zero": not for a configured Gaussian, which jumps there from 10^-9 to zero. *)
Theorem C87_cutoff_refuted : forall c, 0 < c -> c < 10 ^ 14 ->
  exists f, configured Gaussian (Some c) None = Created f /\ getSupportRadius f = Some c /\ evaluate f c = / 10 ^ 9 /\ ~ bump (evaluate f) c /\
    ~ continuity_pt (evaluate f) c.
Proof.
  intros c H0 Hc. destruct (proj1 (C87_gaussian_radius c) H0 Hc) as (f & Hf & Hr & Hin & Hout & Hdec). exists f.
  assert (He : evaluate f c = / 10 ^ 9).
  { rewrite Hin by lra. replace ((c / c) ^ 2) with 1 by (field; lra). rewrite Rpower_1; [reflexivity|]. apply Rinv_0_lt_compat, pow_lt. lra. }
  assert (Hp : 0 < / 10 ^ 9) by (apply Rinv_0_lt_compat, pow_lt; lra).
  split; [exact Hf|]. split; [exact Hr|]. split; [exact He|]. split.
  - intros (_ & Hz & _). rewrite Hz in He by lra. lra.
  - intros Hcont. destruct (Hcont (/ 10 ^ 9) Hp) as (d & Hd & Hlim).
    specialize (Hlim (c + d / 2)). cbn [dist R_met Base] in Hlim. unfold R_dist in Hlim.
    assert (Hl : Rabs (evaluate f (c + d / 2) - evaluate f c) < / 10 ^ 9).
    { apply Hlim. split; [split; [exact I|lra]|]. replace (c + d / 2 - c) with (d / 2) by ring. rewrite Rabs_pos_eq; lra. }
    rewrite Hout, He in Hl by lra. replace (0 - / 10 ^ 9) with (- / 10 ^ 9) in Hl by ring. rewrite Rabs_Ropp, Rabs_pos_eq in Hl; lra.
Qed.

(** "A support radius that is not positive is refused": the Gaussian accepts 0, and has no value on the diagonal of the matrix. *)
Theorem C87_zero_radius_refuted :
  (forall k, has_radius k -> configured k (Some 0) None = Refused) /\
  configured Gaussian (Some 0) None <> Refused /\ value (configured Gaussian (Some 0) None) 0 = None /\
  forall r, 0 < r -> value (configured Gaussian (Some 0) None) r = Some 0.
Proof.
  assert (E : configured Gaussian (Some 0) None = InfiniteShape).
  { cbn [configured]. destruct (Req_EM_T 0 0) as [_|H]; [reflexivity|exfalso; apply H; reflexivity]. }
  pose proof tolerance_pos as Ht. rewrite E. split; [|split; [discriminate|split]].
  - intros k Hk. apply C87_compact; [exact Hk|]. fold tolerance. lra.
  - cbn [value]. destruct (Rlt_dec 0 0); [lra|reflexivity].
  - intros r Hr. cbn [value]. destruct (Rlt_dec 0 r); [reflexivity|lra].
Qed.

(** *** Examples *)
Example half_radius : exists f, configured CompactPolynomialC2 (Some 2) None = Created f /\ getSupportRadius f = Some 2 /\ evaluate f 1 = 3 / 16 /\ evaluate f 0 = 1 /\ evaluate f 2 = 0.
Proof.
  destruct (C87_compact CompactPolynomialC2 2 None I) as [H _]. destruct H as (f & Hf & Hr & _ & Hz & _).
  { apply Rlt_trans with (/ 1000000); [exact tolerance_small|lra]. }
  exists f. split; [exact Hf|]. split; [exact Hr|].
  rewrite configured_compact in Hf by exact I. destruct (positive 2); [|discriminate Hf]. injection Hf as <-.
  split; [|split; [|apply Hz; lra]].
  - rewrite evaluate_compact by exact I. destruct (Rle_dec 1 (1 * (1 / 2))); [lra|]. cbn [compactShape]. rewrite pow_int_pow. field.
  - rewrite evaluate_compact by exact I. destruct (Rle_dec 1 (0 * (1 / 2))); [lra|]. cbn [compactShape]. rewrite pow_int_pow. field.
Qed.

Example gaussian_centre : exists f, configured Gaussian (Some 3) None = Created f /\ evaluate f 0 = 1 /\ evaluate f 3 = / 10 ^ 9 /\ evaluate f 4 = 0 /\ definite (evaluate f) 1.
Proof.
  destruct (C87_gaussian_radius 3) as [H _]. destruct H as (f & Hf & _ & Hin & Hout & _); [lra|lra|].
  assert (Hp : 0 < / 10 ^ 9) by (apply Rinv_0_lt_compat, pow_lt; lra).
  exists f. split; [exact Hf|]. split; [|split; [|split]].
  - rewrite Hin by lra. replace ((0 / 3) ^ 2) with 0 by field. apply Rpower_O. exact Hp.
  - rewrite Hin by lra. replace ((3 / 3) ^ 2) with 1 by field. apply Rpower_1. exact Hp.
  - apply Hout. lra.
  - apply (C87_two_vertices Gaussian (Some 3) None f 1 Hf); [lra|reflexivity].
Qed.

(** the hypotheses of the class with both parameters *)
Example explicit_radius : exists f, newGaussian 1 (Some 1) = Some f /\ evaluate f 0 = 1 - / exp 1 /\ evaluate f 1 = 0.
Proof.
  pose proof tolerance_small as Ht. unfold tolerance in Ht.
  destruct (C87_gaussian_explicit 1 1) as (f & Hf & _ & (_ & Hz & _) & Hd); [lra|lra| |].
  - replace ((1 * 1) ^ 2) with 1 by ring. rewrite exp_Ropp. apply Rinv_le_contravar; [apply exp_pos|]. pose proof exp_le_3. lra.
  - exists f. split; [exact Hf|]. pose proof (Hz 1 (Rle_refl 1)) as E. split; [|exact E].
    specialize (Hd 0 1 (conj (Rle_refl 0) Rle_0_1) (conj Rle_0_1 (Rle_refl 1))). rewrite E in Hd. replace ((1 * 0) ^ 2) with 0 in Hd by ring. replace ((1 * 1) ^ 2) with 1 in Hd by ring.
    rewrite Ropp_0, exp_0, exp_Ropp in Hd. lra.
Qed.

Print Assumptions C87_compact.
Print Assumptions C87_wendland.
Print Assumptions C87_gaussian_radius.
Print Assumptions C87_gaussian_shape.
Print Assumptions C87_gaussian_explicit.
Print Assumptions C87_global.
Print Assumptions C87_units.
Print Assumptions C87_two_vertices.
Print Assumptions C87_cutoff_refuted.
Print Assumptions C87_zero_radius_refuted.
