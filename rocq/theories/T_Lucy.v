(** C79: the function by which coarse graining spreads values. *)
From Coq Require Import Reals Lra Lia.
From Verif Require Import M_Lucy.
Open Scope R_scope.

(** the length, area and volume element at distance r from the origin in 1, 2 and 3 dimensions *)
Definition shell (n : nat) (r : R) : R :=
  match n with 1%nat => 2 | 2%nat => 2 * PI * r | _ => 4 * PI * r ^ 2 end.

Lemma factor_pos n c : 0 < c -> 0 < lucyFactor n c.
Proof.
  intros C. assert (P := PI_RGT_0). unfold lucyFactor. assert (0 < c ^ 2) by (apply pow_lt; lra). assert (0 < c ^ 3) by (apply pow_lt; lra).
  assert (0 < PI * c ^ 2) by (apply Rmult_lt_0_compat; lra). assert (0 < 16 * PI * c ^ 3) by (apply Rmult_lt_0_compat; lra).
  destruct n as [|[|[|n]]]; (apply Rmult_lt_0_compat; [lra|]; unfold Rdiv; rewrite Rmult_1_l; apply Rinv_0_lt_compat; lra).
Qed.
Lemma shape_nonneg n q : 0 <= q <= 1 -> 0 <= lucyShape n q.
Proof.
  intros (A & B). assert (0 <= (1 - q) ^ 3) by (apply pow_le; lra). unfold lucyShape. destruct n as [|[|n]]; apply Rmult_le_pos; lra.
Qed.
Lemma ratio_unit c r : 0 < c -> 0 <= r <= c -> 0 <= r / c <= 1.
Proof.
  intros C (A & B). split; [apply Rmult_le_pos; [lra|apply Rlt_le, Rinv_0_lt_compat; lra]|]. apply (Rmult_le_reg_r c); [lra|]. unfold Rdiv. rewrite Rmult_assoc, Rinv_l by lra. lra.
Qed.

(** it is never negative, and zero from the radius on *)
Theorem C79_kernel_nonneg : forall n c r, 0 < c -> 0 <= r -> 0 <= evaluate n c r.
Proof.
  intros n c r C R. unfold evaluate. destruct (Rlt_dec c r) as [H|H]; [lra|]. apply Rmult_le_pos; [apply Rlt_le, factor_pos, C|]. apply shape_nonneg, ratio_unit; lra.
Qed.
Theorem C79_kernel_outside : forall n c r, 0 < c -> c <= r -> evaluate n c r = 0.
Proof.
  intros n c r C R. unfold evaluate. destruct (Rlt_dec c r) as [H|H]; [reflexivity|]. assert (r = c) as -> by lra.
  assert (E : c / c = 1) by (field; lra). rewrite E. unfold lucyShape. destruct n as [|[|n]]; ring.
Qed.
(** nearer vertices get more *)
Theorem C79_kernel_decreasing : forall n c r r', 0 < c -> 0 <= r -> r < r' -> r < c -> evaluate n c r' < evaluate n c r.
Proof.
  intros n c r r' C A B D. assert (F := factor_pos n c C). assert (P : forall q q', 0 <= q -> q < q' -> q' <= 1 -> lucyShape n q' < lucyShape n q).
  { intros q q' Q0 Q1 Q2. set (u := 1 - q'). set (v := 1 - q). assert (0 <= u) by (unfold u; lra). assert (u < v) by (unfold u, v; lra). assert (v <= 1) by (unfold v; lra).
    unfold lucyShape. destruct n as [|[|n]].
    - replace q with (1 - v) by (unfold v; ring). replace q' with (1 - u) by (unfold u; ring). replace (1 - (1 - u)) with u by ring. replace (1 - (1 - v)) with v by ring.
      assert (G : (1 + 3 * (1 - v)) * v ^ 3 - (1 + 3 * (1 - u)) * u ^ 3 = (v - u) * (4 * (1 - v) * (v^2 + u * v + u^2) + (v-u)* (v^2 + 2 * u * v + 3 * u ^ 2))) by ring.
      assert (0 < (v - u) * (4 * (1 - v) * (v^2 + u * v + u^2) + (v-u)* (v^2 + 2 * u * v + 3 * u ^ 2))); [|lra]. apply Rmult_lt_0_compat; [lra|].
      apply Rplus_le_lt_0_compat; [apply Rmult_le_pos; nra|apply Rmult_lt_0_compat; nra].
    - replace q with (1 - v) by (unfold v; ring). replace q' with (1 - u) by (unfold u; ring). replace (1 - (1 - u)) with u by ring. replace (1 - (1 - v)) with v by ring.
      assert (G : (1 + (1 - v)) * v ^ 3 - (1 + (1 - u)) * u ^ 3 = (v - u) * (2 * (v^2 + u * v + u^2) - (v + u) * (v ^ 2 + u ^ 2))) by ring.
      assert (0 < (v - u) * (2 * (v^2 + u * v + u^2) - (v + u) * (v ^ 2 + u ^ 2))); [|lra]. apply Rmult_lt_0_compat; [lra|].
      assert (v * v * (1 - v) >= 0) by (apply Rle_ge, Rmult_le_pos; nra). assert (u * v * (1 - u) >= 0) by (apply Rle_ge, Rmult_le_pos; nra).
      assert (u * v * (1 - v) >= 0) by (apply Rle_ge, Rmult_le_pos; nra). assert (u * u * (1 - u) >= 0) by (apply Rle_ge, Rmult_le_pos; nra).
      assert (0 < v * v) by nra. assert (0 <= u * u) by nra. lra.
    - replace q with (1 - v) by (unfold v; ring). replace q' with (1 - u) by (unfold u; ring). replace (1 - (1 - u)) with u by ring. replace (1 - (1 - v)) with v by ring.
      assert (G : (1 + 3 * (1 - v)) * v ^ 3 - (1 + 3 * (1 - u)) * u ^ 3 = (v - u) * (4 * (1 - v) * (v^2 + u * v + u^2) + (v-u)* (v^2 + 2 * u * v + 3 * u ^ 2))) by ring.
      assert (0 < (v - u) * (4 * (1 - v) * (v^2 + u * v + u^2) + (v-u)* (v^2 + 2 * u * v + 3 * u ^ 2))); [|lra]. apply Rmult_lt_0_compat; [lra|].
      apply Rplus_le_lt_0_compat; [apply Rmult_le_pos; nra|apply Rmult_lt_0_compat; nra]. }
  assert (Z : 0 < evaluate n c r).
  { unfold evaluate. destruct (Rlt_dec c r); [lra|]. apply Rmult_lt_0_compat; [exact F|]. assert (U := ratio_unit c r C (conj A (Rlt_le _ _ D))).
    assert (r / c < 1). { apply (Rmult_lt_reg_r c); [lra|]. unfold Rdiv. rewrite Rmult_assoc, Rinv_l by lra. lra. }
    apply Rle_lt_trans with (lucyShape n 1); [apply shape_nonneg; lra|apply P; lra]. }
  destruct (Rle_lt_dec c r') as [H|H]; [rewrite (C79_kernel_outside n c r' C H); exact Z|].
  unfold evaluate. destruct (Rlt_dec c r); [lra|]. destruct (Rlt_dec c r'); [lra|]. apply Rmult_lt_compat_l; [exact F|]. apply P; [apply ratio_unit; lra| |apply ratio_unit; lra].
  unfold Rdiv. apply Rmult_lt_compat_r; [apply Rinv_0_lt_compat; lra|lra].
Qed.

Lemma mono a k c x : derivable_pt_lim (fun r => a * (r / c) ^ k) x (a * (INR k * (x / c) ^ pred k * (1 / c))).
Proof.
  apply (derivable_pt_lim_scal (fun r => (r / c) ^ k)). apply (derivable_pt_lim_comp (fun r => r / c) (fun y => y ^ k)); [|apply derivable_pt_lim_pow].
  assert (D := derivable_pt_lim_scal id (1 / c) x 1 (derivable_pt_lim_id x)). intros e E. destruct (D e E) as (d & H). exists d. intros h H0 H1. specialize (H h H0 H1).
  unfold mult_real_fct, id in H. replace ((x + h) / c) with (1 / c * (x + h)) by (unfold Rdiv; ring). replace (x / c) with (1 / c * x) by (unfold Rdiv; ring).
  replace (1 / c * 1) with (1 / c) in H by ring. exact H.
Qed.
Lemma four a1 k1 a2 k2 a3 k3 a4 k4 c x :
  derivable_pt_lim (fun r => a1 * (r / c) ^ k1 + a2 * (r / c) ^ k2 + a3 * (r / c) ^ k3 + a4 * (r / c) ^ k4) x
    (a1 * (INR k1 * (x / c) ^ pred k1 * (1 / c)) + a2 * (INR k2 * (x / c) ^ pred k2 * (1 / c)) + a3 * (INR k3 * (x / c) ^ pred k3 * (1 / c)) + a4 * (INR k4 * (x / c) ^ pred k4 * (1 / c))).
Proof.
  apply (derivable_pt_lim_plus (fun r => a1 * (r / c) ^ k1 + a2 * (r / c) ^ k2 + a3 * (r / c) ^ k3) (fun r => a4 * (r / c) ^ k4)); [|apply mono].
  apply (derivable_pt_lim_plus (fun r => a1 * (r / c) ^ k1 + a2 * (r / c) ^ k2) (fun r => a3 * (r / c) ^ k3)); [|apply mono].
  apply (derivable_pt_lim_plus (fun r => a1 * (r / c) ^ k1) (fun r => a2 * (r / c) ^ k2)); apply mono.
Qed.
Lemma derivable_pt_lim_value f x l l' : derivable_pt_lim f x l -> l = l' -> derivable_pt_lim f x l'.
Proof. intros H <-. exact H. Qed.

(** In one, two and three dimensions its integral over the ball is 1: with the volume
    element the only difference of values at the radius and at 0 of a primitive is 1. *)
Theorem C79_kernel_normalised : forall n c, (1 <= n <= 3)%nat -> 0 < c ->
  (exists g, antiderivative (fun r => shell n r * evaluate n c r) g 0 c) /\
  forall g, antiderivative (fun r => shell n r * evaluate n c r) g 0 c -> g c - g 0 = 1.
Proof.
  intros n c N C. assert (P := PI_RGT_0).
  set (F := fun r : R => match n with
    | 1%nat => 10 / 3 * (r / c) ^ 1 + - (10 / 3) * (r / c) ^ 2 + 5 / 3 * (r / c) ^ 4 + - (2 / 3) * (r / c) ^ 5
    | 2%nat => 5 * (r / c) ^ 2 + - 15 * (r / c) ^ 4 + 16 * (r / c) ^ 5 + - 5 * (r / c) ^ 6
    | _ => 35 / 4 * (r / c) ^ 3 + - (63 / 2) * (r / c) ^ 5 + 35 * (r / c) ^ 6 + - (45 / 4) * (r / c) ^ 7
    end).
  assert (A : antiderivative (fun r => shell n r * evaluate n c r) F 0 c).
  { split; [|lra]. intros x (X0 & X1).
    assert (D : derivable_pt_lim F x (shell n x * evaluate n c x)).
    { unfold evaluate. destruct (Rlt_dec c x); [lra|]. unfold F, shell, lucyFactor, lucyShape. destruct n as [|[|[|[|n]]]]; try lia.
      all: eapply derivable_pt_lim_value; [apply four|cbn [INR pred]; field; repeat split; lra]. }
    exists (exist _ (shell n x * evaluate n c x) D). reflexivity. }
  split; [exists F; exact A|]. intros g G. destruct (antiderivative_Ucte _ F g 0 c A G) as (k & K). assert (K0 := K 0 ltac:(lra)). assert (K1 := K c ltac:(lra)).
  assert (F0 : F 0 = 0). { unfold F. destruct n as [|[|[|[|n]]]]; try lia; field; lra. }
  assert (F1 : F c = 1). { unfold F. destruct n as [|[|[|[|n]]]]; try lia; field; lra. }
  lra.
Qed.
Print Assumptions C79_kernel_nonneg.
Print Assumptions C79_kernel_outside.
Print Assumptions C79_kernel_decreasing.
Print Assumptions C79_kernel_normalised.

(** the function that is used, and a value of it *)
Example kernel_used : (1 <= grainDim <= 3)%nat /\ evaluate grainDim 2 1 * PI = 525 / 2048.
Proof.
  split; [unfold grainDim; lia|]. assert (P := PI_RGT_0). unfold evaluate, grainDim. destruct (Rlt_dec 2 1); [lra|]. unfold lucyFactor, lucyShape. field. lra.
Qed.
