From Coq Require Import Reals Lra Lia Arith Psatz.
From Verif Require Import M_Basis S_Basis.
Open Scope R_scope.

Lemma powLoop_pow : forall fuel e x y, (1 <= e)%nat -> (e <= fuel)%nat -> powLoop fuel e x y = x ^ e * y.
Proof.
  induction fuel as [|fuel IH]; intros e x y H1 H2; [lia|].
  cbn [powLoop]. destruct (Nat.ltb_spec 1 e) as [He|He].
  - assert (Hd : (1 <= Nat.div e 2)%nat) by (apply Nat.div_le_lower_bound; lia).
    assert (Hf : (Nat.div e 2 <= fuel)%nat) by (assert (Nat.div e 2 < e)%nat by (apply Nat.div_lt; lia); lia).
    pose proof (Nat.div2_odd e) as Ho. rewrite Nat.div2_div in Ho.
    destruct (Nat.odd e) eqn:Eo; rewrite IH by assumption.
    + cbn [Nat.b2n] in Ho. rewrite Ho at 2. rewrite pow_add, pow_mult. replace (x ^ 2) with (x * x) by ring. ring.
    + cbn [Nat.b2n] in Ho. rewrite Ho at 2. rewrite pow_add, pow_mult. replace (x ^ 2) with (x * x) by ring. ring.
  - assert (e = 1)%nat by lia. subst e. ring.
Qed.

Lemma pow_int_pow : forall e x, pow_int e x = x ^ e.
Proof.
  intros e x. unfold pow_int. destruct (Nat.eqb_spec e 0) as [->|He]; [reflexivity|].
  rewrite powLoop_pow by lia. ring.
Qed.

Lemma tolerance_pos : 0 < tolerance.
Proof. unfold tolerance. apply Rinv_0_lt_compat, pow_lt. lra. Qed.

Lemma tolerance_small : tolerance < / 1000000.
Proof. unfold tolerance. apply Rinv_lt_contravar; [|lra]. apply Rmult_lt_0_compat; lra. Qed.

Lemma positive_spec : forall x, positive x = true <-> tolerance < x.
Proof. intros x. unfold positive. rewrite Rminus_0_r. destruct (Rlt_dec tolerance x); split; intros; try assumption; try reflexivity; try discriminate; lra. Qed.

Lemma positive_false : forall x, positive x = false <-> x <= tolerance.
Proof. intros x. unfold positive. rewrite Rminus_0_r. destruct (Rlt_dec tolerance x); split; intros; try reflexivity; try discriminate; lra. Qed.

(** *** decreasing functions *)
Lemma decreasing_on : forall f f' a b,
  a < b -> (forall c, a <= c <= b -> derivable_pt_lim f c (f' c)) -> (forall c, a < c < b -> f' c < 0) -> f b < f a.
Proof.
  intros f f' a b Hab Hd Hn. destruct (MVT_cor2 f f' a b Hab Hd) as (c & Hc & Hi).
  specialize (Hn c Hi). assert (f' c * (b - a) < 0); [|lra].
  apply Ropp_lt_cancel. rewrite Ropp_0, Ropp_mult_distr_l. apply Rmult_lt_0_compat; lra.
Qed.

Lemma wendland_positive : forall n l f, (0 < l)%nat -> wendland n l f -> f 1 = 0 /\ (forall p, 0 <= p -> p < 1 -> 0 < f p).
Proof.
  induction n as [|n IH]; intros l f Hl H.
  - destruct H as (c & Hc & Hf). split.
    + rewrite Hf. replace (1 - 1) with 0 by ring. rewrite pow_i by exact Hl. ring.
    + intros p H0 H1. rewrite Hf. apply Rmult_lt_0_compat; [exact Hc|]. apply pow_lt. lra.
  - destruct H as (H1 & g & Hd & Hg). destruct (IH l g Hl Hg) as (_ & Hp). split; [exact H1|].
    intros p H0 Hp1. rewrite <- H1. apply (decreasing_on f (fun c => - (c * g c))); [exact Hp1|intros; apply Hd|].
    intros c Hc. cbv beta. assert (0 < c * g c); [|lra]. apply Rmult_lt_0_compat; [lra|]. apply Hp; lra.
Qed.

Lemma wendland_decreasing : forall n l f, (0 < l)%nat -> wendland n l f -> forall p q, 0 <= p -> p < q -> q <= 1 -> f q < f p.
Proof.
  intros [|n] l f Hl H p q H0 Hpq Hq.
  - destruct H as (c & Hc & Hf). rewrite !Hf. apply Rmult_lt_compat_l; [exact Hc|].
    clear - Hl Hpq Hq. induction l as [|l IH]; [lia|]. destruct l as [|l]; [cbn [pow]; lra|].
    assert (Hi : (1 - q) ^ S l < (1 - p) ^ S l) by (apply IH; lia).
    change ((1 - q) * (1 - q) ^ S l < (1 - p) * (1 - p) ^ S l).
    assert (0 <= (1 - q) ^ S l) by (apply pow_le; lra).
    apply Rle_lt_trans with ((1 - p) * (1 - q) ^ S l); [apply Rmult_le_compat_r; lra|apply Rmult_lt_compat_l; lra].
  - destruct H as (H1 & g & Hd & Hg). destruct (wendland_positive n l g Hl Hg) as (_ & Hp).
    apply (decreasing_on f (fun c => - (c * g c))); [exact Hpq|intros; apply Hd|].
    intros c Hc. cbv beta. assert (0 < c * g c); [|lra]. apply Rmult_lt_0_compat; [lra|]. apply Hp; lra.
Qed.

(** *** derivatives *)
Lemma d_ext : forall f g x l l', (forall y, f y = g y) -> derivable_pt_lim f x l -> l = l' -> derivable_pt_lim g x l'.
Proof.
  intros f g x l l' H Hd <- eps He. destruct (Hd eps He) as (d & Hd'). exists d. intros h Hh0 Hh. rewrite <- !H. apply Hd'; assumption.
Qed.
Lemma d_const : forall c x, derivable_pt_lim (fun _ => c) x 0.
Proof. intros. apply (derivable_pt_lim_const c x). Qed.
Lemma d_id : forall x, derivable_pt_lim (fun y => y) x 1.
Proof. intros. apply derivable_pt_lim_id. Qed.
Lemma d_plus : forall f g x l m, derivable_pt_lim f x l -> derivable_pt_lim g x m -> derivable_pt_lim (fun y => f y + g y) x (l + m).
Proof. intros. apply (derivable_pt_lim_plus f g); assumption. Qed.
Lemma d_minus : forall f g x l m, derivable_pt_lim f x l -> derivable_pt_lim g x m -> derivable_pt_lim (fun y => f y - g y) x (l - m).
Proof. intros. apply (derivable_pt_lim_minus f g); assumption. Qed.
Lemma d_mult : forall f g x l m, derivable_pt_lim f x l -> derivable_pt_lim g x m -> derivable_pt_lim (fun y => f y * g y) x (l * g x + f x * m).
Proof. intros. apply (derivable_pt_lim_mult f g); assumption. Qed.
Lemma d_pow : forall f n x l, derivable_pt_lim f x l -> derivable_pt_lim (fun y => f y ^ n) x (INR n * f x ^ pred n * l).
Proof.
  intros f n x l H. apply (derivable_pt_lim_comp f (fun y => y ^ n)); [exact H|]. apply derivable_pt_lim_pow.
Qed.
Ltac deriv := repeat first [apply d_const | apply d_id | apply d_pow | apply d_minus | apply d_plus | apply d_mult].
Ltac derive := eapply d_ext; [intros; reflexivity | deriv | cbv beta; cbn [INR Nat.pred]; ring].

Lemma w_c0 : wendland 0 2 (compactShape CompactPolynomialC0).
Proof. exists 1. split; [lra|]. intros p. cbn [compactShape]. rewrite pow_int_pow. ring. Qed.

Lemma w_c2 : wendland 1 3 (compactShape CompactPolynomialC2).
Proof.
  split; [cbn [compactShape]; rewrite pow_int_pow; ring|].
  exists (fun p => 20 * (1 - p) ^ 3). split; [|exists 20; split; [lra|reflexivity]].
  intros p. apply (d_ext (fun y => (1 - y) ^ 4 * (4 * y + 1)) _ p (- (p * (20 * (1 - p) ^ 3)))); [intros y; cbn [compactShape]; rewrite pow_int_pow; reflexivity| |reflexivity].
  derive.
Qed.

Lemma w_c4 : wendland 2 4 (compactShape CompactPolynomialC4).
Proof.
  split; [cbn [compactShape]; rewrite !pow_int_pow; ring|].
  exists (fun p => 56 * (1 - p) ^ 5 * (5 * p + 1)). split.
  - intros p. apply (d_ext (fun y => (1 - y) ^ 6 * (35 * y ^ 2 + (18 * y + 3))) _ p (- (p * (56 * (1 - p) ^ 5 * (5 * p + 1))))); [intros y; cbn [compactShape]; rewrite !pow_int_pow; reflexivity| |reflexivity].
    derive.
  - split; [ring|]. exists (fun p => 1680 * (1 - p) ^ 4). split; [|exists 1680; split; [lra|reflexivity]].
    intros p. derive.
Qed.

Lemma w_c6 : wendland 3 5 (compactShape CompactPolynomialC6).
Proof.
  split; [cbn [compactShape]; rewrite !pow_int_pow; ring|].
  exists (fun p => 22 * (1 - p) ^ 7 * (16 * p ^ 2 + 7 * p + 1)). split.
  - intros p. apply (d_ext (fun y => (1 - y) ^ 8 * (32 * y ^ 3 + 25 * y ^ 2 + (8 * y + 1))) _ p (- (p * (22 * (1 - p) ^ 7 * (16 * p ^ 2 + 7 * p + 1))))); [intros y; cbn [compactShape]; rewrite !pow_int_pow; reflexivity| |reflexivity].
    derive.
  - split; [ring|]. exists (fun p => 528 * (1 - p) ^ 6 * (6 * p + 1)). split.
    + intros p. derive.
    + split; [ring|]. exists (fun p => 528 * 42 * (1 - p) ^ 5). split; [|exists (528 * 42); split; [lra|reflexivity]].
      intros p. derive.
Qed.

Lemma w_c8 : wendland 4 6 (compactShape CompactPolynomialC8).
Proof.
  split; [cbn [compactShape]; rewrite !pow_int_pow; ring|].
  exists (fun p => 78 * (1 - p) ^ 9 * (231 * p ^ 3 + 159 * p ^ 2 + 45 * p + 5)). split.
  - intros p. apply (d_ext (fun y => (1 - y) ^ 10 * (1287 * y ^ 4 + 1350 * y ^ 3 + 630 * y ^ 2 + 150 * y + 15)) _ p (- (p * (78 * (1 - p) ^ 9 * (231 * p ^ 3 + 159 * p ^ 2 + 45 * p + 5))))); [intros y; cbn [compactShape]; rewrite !pow_int_pow; reflexivity| |reflexivity].
    derive.
  - split; [ring|]. exists (fun p => 78 * 132 * (1 - p) ^ 8 * (21 * p ^ 2 + 8 * p + 1)). split.
    + intros p. derive.
    + split; [ring|]. exists (fun p => 78 * 132 * 30 * (1 - p) ^ 7 * (7 * p + 1)). split.
      * intros p. derive.
      * split; [ring|]. exists (fun p => 78 * 132 * 30 * 56 * (1 - p) ^ 6). split; [|exists (78 * 132 * 30 * 56); split; [lra|reflexivity]].
        intros p. derive.
Qed.

(** *** the compact thin plate splines *)
Lemma d_ln : forall x, 0 < x -> derivable_pt_lim ln x (/ x).
Proof. intros. apply derivable_pt_lim_ln. assumption. Qed.

Definition tps_g (p : R) : R := 2 + 3 * p - 6 * p ^ 2 + p ^ 3 + 6 * p * ln p.
Definition tps_g' (p : R) : R := 9 - 12 * p + 3 * p ^ 2 + 6 * ln p.

Lemma tps_g'_deriv : forall p, 0 < p -> derivable_pt_lim tps_g' p (6 * ((1 - p) ^ 2 / p)).
Proof.
  intros p Hp. unfold tps_g'. eapply d_ext; [intros; reflexivity| |].
  - apply d_plus; [deriv|]. apply d_mult; [apply d_const|apply d_ln; exact Hp].
  - cbn [INR Nat.pred]. field. lra.
Qed.

Lemma tps_g_deriv : forall p, 0 < p -> derivable_pt_lim tps_g p (tps_g' p).
Proof.
  intros p Hp. unfold tps_g, tps_g'. eapply d_ext; [intros; reflexivity| |].
  - apply d_plus; [deriv|]. apply d_mult; [deriv|apply d_ln; exact Hp].
  - cbn [INR Nat.pred]. field. lra.
Qed.

Lemma tps_g'_neg : forall p, 0 < p -> p < 1 -> tps_g' p < 0.
Proof.
  intros p Hp H1. assert (E : tps_g' 1 = 0) by (unfold tps_g'; rewrite ln_1; ring).
  destruct (MVT_cor2 tps_g' (fun c => 6 * ((1 - c) ^ 2 / c)) p 1 H1) as (c & Hc & Hi).
  - intros c Hc. apply tps_g'_deriv. lra.
  - assert (0 < 6 * ((1 - c) ^ 2 / c) * (1 - p)); [|lra].
    apply Rmult_lt_0_compat; [|lra]. apply Rmult_lt_0_compat; [lra|].
    apply Rmult_lt_0_compat; [apply pow_lt; lra|apply Rinv_0_lt_compat; lra].
Qed.

Lemma tps_g_pos : forall p, 0 < p -> p < 1 -> 0 < tps_g p.
Proof.
  intros p Hp H1. assert (E : tps_g 1 = 0) by (unfold tps_g; rewrite ln_1; ring).
  rewrite <- E. apply (decreasing_on tps_g tps_g'); [exact H1| |].
  - intros c Hc. apply tps_g_deriv. lra.
  - intros c Hc. apply tps_g'_neg; lra.
Qed.

Lemma ln_pow_nat : forall n x, 0 < x -> ln (x ^ n) = INR n * ln x.
Proof.
  induction n as [|n IH]; intros x Hx; [cbn [pow INR]; rewrite ln_1; ring|].
  change (x ^ S n) with (x * x ^ n). rewrite ln_mult; [|exact Hx|apply pow_lt; exact Hx]. rewrite IH by exact Hx. rewrite S_INR. ring.
Qed.

Lemma ln_10 : 0 < ln 10 < 9.
Proof.
  split; [rewrite <- ln_1; apply ln_increasing; lra|].
  rewrite <- (ln_exp 9). apply ln_increasing; [lra|]. pose proof (exp_ineq1 9). lra.
Qed.

Lemma ln_tolerance : -126 < ln tolerance < 0.
Proof.
  unfold tolerance. rewrite ln_Rinv by (apply pow_lt; lra). rewrite ln_pow_nat by lra.
  pose proof ln_10. replace (INR 14) with 14 by (cbn [INR]; ring). lra.
Qed.

Definition tps (p l : R) : R := 1 - 30 * p ^ 2 - 10 * p ^ 3 + 45 * p ^ 4 - 6 * p ^ 5 - p ^ 3 * 60 * l.

Lemma tps_shape : forall p, compactShape CompactThinPlateSplinesC2 p = tps p (ln (Rmax p tolerance)).
Proof. intros p. cbn [compactShape]. rewrite !pow_int_pow. reflexivity. Qed.

Lemma tps_outer : forall p q, tolerance <= p -> p < q -> q <= 1 -> tps q (ln q) < tps p (ln p).
Proof.
  intros p q Hp Hpq Hq. pose proof tolerance_pos as Ht.
  apply (decreasing_on (fun x => tps x (ln x)) (fun c => - (30 * (c * tps_g c)))); [exact Hpq| |].
  - intros c Hc. unfold tps, tps_g. eapply d_ext; [intros; reflexivity| |].
    + apply d_minus; [deriv|]. apply d_mult; [deriv|apply d_ln; lra].
    + cbn [INR Nat.pred]. field. lra.
  - intros c Hc. assert (0 < c * tps_g c); [|lra]. apply Rmult_lt_0_compat; [lra|apply tps_g_pos; lra].
Qed.

Lemma tps_inner : forall p q, 0 <= p -> p < q -> q <= tolerance -> tps q (ln tolerance) < tps p (ln tolerance).
Proof.
  intros p q Hp Hpq Hq. pose proof tolerance_small as Hs. pose proof ln_tolerance as Hl. generalize dependent (ln tolerance). intros l Hl.
  apply (decreasing_on (fun x => tps x l) (fun c => - (c * (60 + 30 * c - 180 * c ^ 2 + 30 * c ^ 3 + 180 * c * l)))); [exact Hpq| |].
  - intros c Hc. unfold tps. derive.
  - intros c Hc. assert (H0 : 0 < c < / 1000000) by lra. clear - H0 Hl.
    assert (0 < c * (60 + 30 * c - 180 * c ^ 2 + 30 * c ^ 3 + 180 * c * l)); [|lra].
    apply Rmult_lt_0_compat; [lra|].
    assert (Hcl : -1 < c * l).
    { apply Rlt_le_trans with (/ 1000000 * -126); [lra|]. apply Rle_trans with (c * -126); [lra|]. apply Rmult_le_compat_l; lra. }
    assert (H2 : c ^ 2 < 1 / 1000000) by (replace (c ^ 2) with (c * c) by ring; apply Rlt_le_trans with (/1000000 * 1); [apply Rmult_gt_0_lt_compat; lra|lra]).
    assert (H3 : 0 < c ^ 3) by (apply pow_lt; lra).
    assert (Hcl2 : - (126 / 1000000) <= c * l).
    { apply Rle_trans with (/ 1000000 * -126); [lra|]. apply Rle_trans with (c * -126); [lra|]. apply Rmult_le_compat_l; lra. }
    lra.
Qed.

Lemma tps_decreasing : forall p q, 0 <= p -> p < q -> q <= 1 -> compactShape CompactThinPlateSplinesC2 q < compactShape CompactThinPlateSplinesC2 p.
Proof.
  intros p q Hp Hpq Hq. rewrite !tps_shape. pose proof tolerance_pos as Ht. pose proof tolerance_small as Hs.
  destruct (Rle_dec q tolerance) as [H|H]; [|destruct (Rle_dec tolerance p) as [H'|H']].
  - rewrite !Rmax_right by lra. apply tps_inner; lra.
  - rewrite !Rmax_left by lra. apply tps_outer; lra.
  - rewrite (Rmax_left q) by lra. rewrite (Rmax_right p) by lra.
    apply Rlt_trans with (tps tolerance (ln tolerance)); [apply tps_outer; lra|apply tps_inner; lra].
Qed.

Lemma tps_end : compactShape CompactThinPlateSplinesC2 1 = 0.
Proof. rewrite tps_shape. pose proof tolerance_small. rewrite Rmax_left by lra. rewrite ln_1. unfold tps. ring. Qed.

(** *** all functions with a support radius *)
Lemma shape_wendland : forall k n, integrations k = Some n -> wendland n (n + 2) (compactShape k).
Proof.
  intros k n H. destruct k; try discriminate H; injection H as <-; [exact w_c0|exact w_c2|exact w_c4|exact w_c6|exact w_c8].
Qed.

Lemma shape_spec : forall k, has_radius k -> compactShape k 1 = 0 /\ (forall p q, 0 <= p -> p < q -> q <= 1 -> compactShape k q < compactShape k p).
Proof.
  intros k Hk. destruct (integrations k) as [n|] eqn:E.
  - pose proof (shape_wendland k n E) as Hw. split.
    + apply (wendland_positive n (n + 2)); [lia|exact Hw].
    + apply (wendland_decreasing n (n + 2)); [lia|exact Hw].
  - destruct k; try discriminate E; try contradiction. split; [exact tps_end|exact tps_decreasing].
Qed.

Lemma evaluate_compact : forall k a b c r, has_radius k -> evaluate (Rbf k a b c) r = if Rle_dec 1 (r * a) then 0 else compactShape k (r * a).
Proof. intros k a b c r Hk. destruct k; try contradiction; reflexivity. Qed.

Lemma compact_bump : forall k c, has_radius k -> 0 < c -> bump (evaluate (Rbf k (1 / c) 0 0)) c.
Proof.
  intros k c Hk Hc. destruct (shape_spec k Hk) as [H1 Hd].
  assert (Hi : forall r, r < c <-> r * (1 / c) < 1).
  { intros r. split; intros H.
    - apply Rmult_lt_reg_r with c; [exact Hc|]. replace (r * (1 / c) * c) with r by (field; lra). lra.
    - replace r with (r * (1 / c) * c) by (field; lra). replace c with (1 * c) at 3 by ring. apply Rmult_lt_compat_r; lra. }
  assert (Hn : forall r, 0 <= r -> 0 <= r * (1 / c)).
  { intros r H. apply Rmult_le_pos; [exact H|]. apply Rlt_le, Rdiv_lt_0_compat; lra. }
  assert (Hm : forall r r', r < r' -> r * (1 / c) < r' * (1 / c)).
  { intros r r' H. apply Rmult_lt_compat_r; [apply Rdiv_lt_0_compat; lra|exact H]. }
  split; [|split].
  - intros r H0 Hr. rewrite evaluate_compact by exact Hk. pose proof (proj1 (Hi r) Hr). pose proof (Hn r H0).
    destruct (Rle_dec 1 (r * (1 / c))); [lra|]. rewrite <- H1. apply Hd; lra.
  - intros r Hr. rewrite evaluate_compact by exact Hk. destruct (Rle_dec 1 (r * (1 / c))) as [|H]; [reflexivity|].
    apply Rnot_le_lt in H. apply Hi in H. lra.
  - intros r r' H0 Hrr Hr. rewrite !evaluate_compact by exact Hk. pose proof (proj1 (Hi r) Hr). pose proof (Hn r H0). pose proof (Hm r r' Hrr).
    destruct (Rle_dec 1 (r * (1 / c))); [lra|]. destruct (Rle_dec 1 (r' * (1 / c))).
    + rewrite <- H1. apply Hd; lra.
    + apply Hd; lra.
Qed.

Lemma configured_compact : forall k c s, has_radius k ->
  configured k (Some c) s = if positive c then Created (Rbf k (1 / c) 0 0) else Refused.
Proof. intros k c s Hk. destruct k; try contradiction; cbn [configured constructRBF]; unfold newCompact; destruct (positive c); reflexivity. Qed.

(** *** the Gaussian *)
Definition width : R := sqrt (- ln cutoffThreshold).
Lemma width_sq : width * width = - ln (/ 10 ^ 9).
Proof.
  unfold width, cutoffThreshold. apply sqrt_sqrt. rewrite ln_Rinv by (apply pow_lt; lra). rewrite Ropp_involutive, ln_pow_nat by lra.
  pose proof ln_10. apply Rmult_le_pos; [apply pos_INR|lra].
Qed.
Lemma width_pos : 0 < width.
Proof.
  unfold width, cutoffThreshold. apply sqrt_lt_R0. rewrite ln_Rinv by (apply pow_lt; lra). rewrite Ropp_involutive, ln_pow_nat by lra.
  pose proof ln_10. apply Rmult_lt_0_compat; [apply lt_0_INR; lia|lra].
Qed.
Lemma at_width : exp (- (width ^ 2)) = / 10 ^ 9.
Proof. replace (width ^ 2) with (width * width) by ring. rewrite width_sq, Ropp_involutive. apply exp_ln. apply Rinv_0_lt_compat, pow_lt. lra. Qed.

Lemma gauss_decreasing : forall s p q, 0 < s -> 0 <= p -> p < q -> exp (- (s * q) ^ 2) < exp (- (s * p) ^ 2).
Proof.
  intros s p q Hs Hp Hpq. apply exp_increasing. apply Ropp_lt_contravar.
  assert (0 <= s * p) by (apply Rmult_le_pos; lra). assert (s * p < s * q) by (apply Rmult_lt_compat_l; lra).
  replace ((s * p) ^ 2) with ((s * p) * (s * p)) by ring. replace ((s * q) ^ 2) with ((s * q) * (s * q)) by ring.
  apply Rmult_le_0_lt_compat; assumption.
Qed.

Lemma evaluate_gaussian : forall s c d r, evaluate (Rbf Gaussian s c d) r = if Rlt_dec c r then 0 else exp (- (s * r) ^ 2) - d.
Proof. intros. unfold evaluate. cbn [kind parameter1 parameter2 parameter3]. rewrite pow_int_pow. reflexivity. Qed.

Lemma gauss_spec : forall s, 0 < s -> let f := evaluate (Rbf Gaussian s (width / s) 0) in
  (forall r, r <= width / s -> f r = exp (- (s * r) ^ 2)) /\
  (forall r, 0 <= r -> r <= width / s -> / 10 ^ 9 <= f r) /\ (forall r, width / s < r -> f r = 0) /\ f (width / s) = / 10 ^ 9 /\
  (forall r r', 0 <= r -> r < r' -> r <= width / s -> f r' < f r).
Proof.
  intros s Hs f.
  assert (Hf : forall r, r <= width / s -> f r = exp (- (s * r) ^ 2)).
  { intros r Hr. unfold f. rewrite evaluate_gaussian. destruct (Rlt_dec (width / s) r); [lra|ring]. }
  assert (He : f (width / s) = / 10 ^ 9).
  { rewrite Hf by lra. replace (s * (width / s)) with width by (field; lra). exact at_width. }
  assert (Hin : forall r, 0 <= r -> r <= width / s -> / 10 ^ 9 <= f r).
  { intros r H0 Hr. destruct Hr as [Hr|Hr]; [|rewrite Hr, He; lra]. rewrite <- He, !Hf by lra. apply Rlt_le, gauss_decreasing; lra. }
  assert (Hout : forall r, width / s < r -> f r = 0).
  { intros r Hr. unfold f. rewrite evaluate_gaussian. destruct (Rlt_dec (width / s) r); [reflexivity|lra]. }
  split; [exact Hf|split; [exact Hin|split; [exact Hout|split; [exact He|]]]].
  intros r r' H0 Hrr Hr. destruct (Rle_dec r' (width / s)) as [H|H].
  - rewrite !Hf by lra. apply gauss_decreasing; lra.
  - rewrite (Hout r') by lra. apply Rlt_le_trans with (/ 10 ^ 9); [apply Rinv_0_lt_compat, pow_lt; lra|apply Hin; lra].
Qed.

Lemma configured_shape : forall s, configured Gaussian None (Some s) = if positive s then Created (Rbf Gaussian s (width / s) 0) else Refused.
Proof. intros s. cbn [configured constructRBF]. unfold newGaussian. destruct (positive s); reflexivity. Qed.

Lemma configured_radius : forall c, c <> 0 ->
  configured Gaussian (Some c) None = if positive (width / c) then Created (Rbf Gaussian (width / c) (width / (width / c)) 0) else Refused.
Proof.
  intros c Hc. cbn [configured constructRBF]. destruct (Req_EM_T c 0) as [H|_]; [contradiction|].
  unfold newGaussian, width. destruct (positive (sqrt (- ln cutoffThreshold) / c)); reflexivity.
Qed.

(** with an explicit support radius *)
Lemma gauss_explicit : forall s c, 0 < s -> 0 < c -> c <= width / s -> bump (evaluate (Rbf Gaussian s c (exp (- (s * c) ^ 2)))) c.
Proof.
  intros s c Hs Hc _.
  assert (Hz : forall r, c <= r -> evaluate (Rbf Gaussian s c (exp (- (s * c) ^ 2))) r = 0).
  { intros r Hr. rewrite evaluate_gaussian. destruct (Rlt_dec c r); [reflexivity|]. replace r with c by lra. ring. }
  split; [|split].
  - intros r H0 Hr. rewrite evaluate_gaussian. destruct (Rlt_dec c r); [lra|]. pose proof (gauss_decreasing s r c Hs H0 Hr). lra.
  - exact Hz.
  - intros r r' H0 Hrr Hr. destruct (Rle_dec c r') as [H|H].
    + rewrite (Hz r' H), evaluate_gaussian. destruct (Rlt_dec c r); [lra|]. pose proof (gauss_decreasing s r c Hs H0 Hr). lra.
    + rewrite !evaluate_gaussian. destruct (Rlt_dec c r); [lra|]. destruct (Rlt_dec c r'); [lra|]. pose proof (gauss_decreasing s r r' Hs H0 Hrr). lra.
Qed.

(** *** two vertices *)
Lemma definite_two : forall f d, 0 <= f d -> f d < f 0 -> definite f d.
Proof.
  intros f d H0 H x y Hxy. unfold form.
  replace (x * x * f 0 + 2 * x * y * f d + y * y * f 0) with (f d * ((x + y) * (x + y)) + (f 0 - f d) * (x * x + y * y)) by ring.
  assert (0 <= f d * ((x + y) * (x + y))) by (apply Rmult_le_pos; [exact H0|apply Rle_0_sqr]).
  assert (0 < (f 0 - f d) * (x * x + y * y)); [|lra].
  apply Rmult_lt_0_compat; [lra|]. pose proof (Rle_0_sqr x) as Hx. pose proof (Rle_0_sqr y) as Hy. unfold Rsqr in Hx, Hy.
  destruct Hxy as [H'|H']; apply Rsqr_pos_lt in H'; unfold Rsqr in H'; lra.
Qed.
