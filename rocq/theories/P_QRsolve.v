(** Solving with a QR factorization. *)
From Coq Require Import Field Field_theory List Arith Lia Bool.
From Verif Require Import S_Field M_QR S_QR P_Field P_Dim P_QR.
Import ListNotations.

Section P.
Variable F : field.
Add Field KS : (K_theory F).
Local Infix "+" := (@add F). Local Infix "*" := (@mul F). Local Infix "-" := (@sub F). Local Notation "0" := (@zero F). Local Notation "1" := (@one F).
Local Infix "/" := (@div F).

(** * Backward substitution *)
Lemma back_ok c R b : triangular c R -> forall m, m <= c -> forall i, c - m <= i -> i < c -> fsum c (fun j => R i j * backSubstitution c m R b j) = b i.
Proof.
  intros [T1 T2] m. induction m as [|m IH]; intros Hm i Hi Hic; [lia|]. cbn [backSubstitution]. cbv zeta.
  set (x := backSubstitution c m R b) in *. set (i0 := (c - 1 - m)%nat).
  destruct (Nat.eq_dec i i0) as [->|N].
  - transitivity (fsum c (fun j => (if i0 <? j then R i0 j * x j else 0) + (if j =? i0 then b i0 - fsum c (fun j => if i0 <? j then R i0 j * x j else 0) else 0))).
    + apply fsum_ext. intros j Hj. unfold setv. destruct (Nat.eqb_spec j i0) as [->|Nj].
      * rewrite Nat.ltb_irrefl. field. apply T2. lia.
      * destruct (Nat.ltb_spec i0 j) as [L|L]; [ring|]. rewrite T1 by lia. ring.
    + rewrite fsum_plus, (fsum_pick F c i0 (fun j => if j =? i0 then _ else 0)); [rewrite Nat.eqb_refl; ring|lia|].
      intros j _ Nj. rewrite (proj2 (Nat.eqb_neq _ _) Nj). reflexivity.
  - rewrite <- (IH ltac:(lia) i ltac:(lia) Hic). apply fsum_ext. intros j Hj. unfold setv. destruct (Nat.eqb_spec j i0) as [->|Nj]; [|reflexivity].
    rewrite T1 by lia. ring.
Qed.
Lemma solve_ok c R b : triangular c R -> forall i, i < c -> fsum c (fun j => R i j * solveUpper c R b j) = b i.
Proof. intros T i Hi. apply back_ok; [exact T|lia|lia|exact Hi]. Qed.
Lemma triangular_injective c R x : triangular c R -> (forall i, i < c -> fsum c (fun j => R i j * x j) = 0) -> forall i, i < c -> x i = 0.
Proof.
  intros [T1 T2] H. assert (G : forall m i, c - m <= i -> i < c -> x i = 0).
  { induction m as [|m IH]; intros i Hi Hic; [lia|]. destruct (le_dec (c - m) i) as [L|L]; [apply IH; assumption|].
    apply (mul_zero_r F (R i i)); [|apply T2; exact Hic]. rewrite <- (H i Hic). symmetry. apply (fsum_pick F c i (fun j => R i j * x j) Hic).
    intros j Hj N. destruct (lt_dec j i) as [Lj|Lj]; [rewrite T1 by lia; ring|]. rewrite (IH j) by lia. ring. }
  intros i Hi. apply (G c); lia.
Qed.

(** * The span of the columns *)
Lemma combination_QR n V s x e : factorizes n V s -> e < n ->
  combination V x e = fsum (cols s) (fun i => Qm s e i * fsum (cols s) (fun j => Rm s i j * x j)).
Proof.
  intros [Hr [Hc [O [T P]]]] He. unfold combination. rewrite <- Hc.
  transitivity (fsum (cols s) (fun j => fsum (cols s) (fun i => Qm s e i * Rm s i j * x j))).
  - apply fsum_ext. intros j Hj. rewrite <- (P e j He Hj), <- fsum_scale_r. reflexivity.
  - rewrite fsum_swap. apply fsum_ext. intros i _. rewrite <- fsum_scale. apply fsum_ext. intros. ring.
Qed.
Lemma dot_Q n c Q y i : orthonormal n c Q -> i < c -> fdot n (fun e => Q e i) (fun e => fsum c (fun j => Q e j * y j)) = y i.
Proof.
  intros O Hi. rewrite fdot_comb, (fsum_pick F c i); [|exact Hi|].
  - rewrite O by assumption. rewrite Nat.eqb_refl. ring.
  - intros j Hj N. rewrite O by assumption. rewrite (proj2 (Nat.eqb_neq i j) ltac:(lia)). ring.
Qed.
Lemma independent n V s x : factorizes n V s -> (forall e, e < n -> combination V x e = 0) -> forall j, j < length V -> x j = 0.
Proof.
  intros Fs H j Hj. pose proof Fs as [Hr [Hc [O [T P]]]]. apply (triangular_injective (cols s) (Rm s)); [exact T| |lia].
  intros i Hi. rewrite <- (dot_Q n (cols s) (Qm s) (fun i => fsum (cols s) (fun j => Rm s i j * x j)) i O Hi).
  apply fsum_zero. intros e He. rewrite <- (combination_QR n V s x e Fs He), H by exact He. ring.
Qed.
Lemma span_Q n V s y : factorizes n V s -> in_span n V (fun e => fsum (cols s) (fun j => Qm s e j * y j)).
Proof.
  intros Fs. pose proof Fs as [Hr [Hc [O [T P]]]]. exists (solveUpper (cols s) (Rm s) y). intros e He.
  rewrite (combination_QR n V s _ e Fs He). apply fsum_ext. intros i Hi. rewrite solve_ok by assumption. reflexivity.
Qed.
Lemma span_ext n V (v w : nat -> F) : (forall e, e < n -> v e = w e) -> in_span n V w -> in_span n V v.
Proof. intros E [c H]. exists c. intros e He. rewrite E by exact He. apply H, He. Qed.

(** the columns of a square orthonormal matrix span everything *)
Lemma square_complete n Q v : orthonormal n n Q -> forall e, e < n -> withoutProjections n n Q v e = 0.
Proof.
  intros O. set (w := withoutProjections n n Q v).
  destruct (dependent F n (fun j e => if j =? n then w e else Q e j)) as [a [[j [Hj Nj]] Ha]].
  assert (Ha' : forall e, e < n -> fsum n (fun j => Q e j * a j) + w e * a n = 0).
  { intros e He. rewrite <- (Ha e He). cbn [fsum]. rewrite Nat.eqb_refl. rewrite (fsum_ext F n (fun j => Q e j * a j) (fun j => a j * (if j =? n then w e else Q e j))); [ring|].
    intros k Hk. rewrite (proj2 (Nat.eqb_neq k n) ltac:(lia)). ring. }
  assert (Ai : forall i, i < n -> a i = 0).
  { intros i Hi. rewrite <- (dot_Q n n Q a i O Hi). transitivity (fdot n (fun e => Q e i) (fun e => fsum n (fun j => Q e j * a j)) + fdot n (fun e => Q e i) w * a n).
    - unfold w at 1. rewrite fdot_proj by assumption. ring.
    - unfold fdot. rewrite <- fsum_scale_r, <- fsum_plus. apply fsum_zero. intros e He.
      transitivity (Q e i * (fsum n (fun j => Q e j * a j) + w e * a n)); [ring|]. rewrite Ha' by exact He. ring. }
  assert (An : a n <> 0). { destruct (Nat.eq_dec j n) as [->|N]; [exact Nj|]. exfalso. apply Nj, Ai. lia. }
  intros e He. specialize (Ha' e He). rewrite fsum_zero in Ha' by (intros k Hk; rewrite Ai by exact Hk; ring).
  apply (mul_zero_r F (a n)); [|exact An]. rewrite <- Ha'. ring.
Qed.

(** * Rejected columns *)
Section Reject.
Variable hyp : F -> F -> F.
Variable norm : nat -> (nat -> F) -> F.
Variable tiny : F -> bool.
Variable again : F -> F -> (nat -> F) -> bool.
Hypothesis HR : roots_ok hyp norm.
Hypothesis HE : exact norm tiny again.

Lemma exact_tiny : tiny_ok tiny.
Proof. apply (proj1 HE). reflexivity. Qed.
Lemma proj_span n V s v : factorizes n V s -> (forall e, e < n -> withoutProjections n (cols s) (Qm s) v e = 0) -> in_span n V v.
Proof.
  intros Fs H. apply (span_ext n V v (fun e => fsum (cols s) (fun j => Qm s e j * coefficients n (cols s) (Qm s) v j))); [|apply span_Q, Fs].
  intros e He. specialize (H e He). unfold withoutProjections in H. set (S := fsum _ _) in *. transitivity (v e - S + S); [ring|]. rewrite H. ring.
Qed.
Lemma tiny_norm n w : tiny (norm n w) = true -> forall e, e < n -> w e = 0.
Proof. intros H. apply (proj1 HE) in H. apply (proj2 (proj2 (proj2 HR) n w)), H. Qed.
Lemma rejected_span n V s k v s' : factorizes n V s -> k <= length V -> insertColumn hyp norm tiny again k v never s = Some (false, s') -> in_span n V v.
Proof.
  intros Fs Hk. pose proof Fs as [Hr [Hc [O [T P]]]]. unfold insertColumn. rewrite (proj2 (Nat.leb_le k (cols s)) ltac:(lia)), Hr.
  set (c := cols s) in *.
  assert (Z : (n = c \/ tiny (norm n (withoutProjections n c (Qm s) v)) = true) -> in_span n V v).
  { intros [E|Ht]; apply (proj_span n V s v Fs); [|apply tiny_norm; exact Ht]. fold c. rewrite <- E. apply square_complete. rewrite E at 2. exact O. }
  destruct (Nat.eq_dec n c) as [En|Nn]; [intros _; apply Z; left; exact En|].
  destruct (tiny (norm n (withoutProjections n c (Qm s) v))) eqn:Tw; [intros _; apply Z; right; reflexivity|]. intros H. exfalso.
  set (w := withoutProjections n c (Qm s) v) in *.
  assert (Nw : norm n w <> 0) by (intros C; apply (proj1 HE) in C; congruence).
  assert (S0 : forall j, coefficients n c (Qm s) w j = 0).
  { intros j. unfold coefficients. destruct (Nat.ltb_spec j c); [apply fdot_proj; assumption|reflexivity]. }
  assert (Nww : norm n (withoutProjections n c (Qm s) w) = norm n w).
  { apply (proj1 (proj2 HE)). intros e _. unfold withoutProjections at 1. rewrite fsum_zero; [ring|]. intros i _. rewrite S0. ring. }
  destruct (orthogonalize norm tiny again 4 n c (Qm s) v (fun _ => 0) (norm n v)) as [[[v' u] rho]|] eqn:E.
  - assert (Ht : tiny rho = false).
    { cbn [orthogonalize] in E. fold w in E. rewrite (proj2 (Nat.eqb_neq _ _) Nn), Tw in E. destruct (again (norm n w) (norm n v) _).
      - rewrite Nww, Tw in E. rewrite (proj2 (proj2 HE) n w _ Nw S0) in E. injection E as _ _ <-. exact Tw.
      - injection E as _ _ <-. exact Tw. }
    rewrite Ht in H. unfold never in H. destruct (insertLoop _ _ _ _ _ _ _) as [[u1 Q1] R1]. discriminate.
  - cbn [orthogonalize] in E. fold w in E. rewrite (proj2 (Nat.eqb_neq _ _) Nn), Tw in E. destruct (again (norm n w) (norm n v) _).
    + rewrite Nww, Tw in E. rewrite (proj2 (proj2 HE) n w _ Nw S0) in E. discriminate.
    + discriminate.
Qed.
Lemma inserted_not_span n V s k v s' drop : factorizes n V s -> k <= length V -> insertColumn hyp norm tiny again k v drop s = Some (true, s') -> ~ in_span n V v.
Proof.
  intros Fs Hk H [a Ha]. destruct (insert_ok F hyp norm tiny again HR exact_tiny n V s k v drop Fs Hk) as [b [s1 [H1 [Fs1 _]]]].
  rewrite H in H1. injection H1 as <- <-. cbn [negb] in Fs1.
  set (x := fun j => if j =? k then 0 - 1 else a (if j <? k then j else pred j)).
  assert (X : x k = 0).
  { apply (independent n (insert_at k v V) s' x Fs1); [|rewrite length_insert by exact Hk; lia].
    intros e He. unfold combination. rewrite length_insert by exact Hk. rewrite (fsum_skip F (length V) k) by lia. rewrite nth_insert_at by exact Hk.
    rewrite (fsum_ext F _ _ (fun i => nth i V (fun _ => 0) e * a i)).
    - unfold x. rewrite Nat.eqb_refl, (Ha e He). unfold combination. ring.
    - intros i Hi. unfold x. rewrite (proj2 (Nat.eqb_neq _ _) (skip_ne k i)). unfold skip. destruct (Nat.ltb_spec i k) as [L|L].
      + rewrite nth_insert_low by assumption. rewrite (proj2 (Nat.ltb_lt i k) L). reflexivity.
      + rewrite nth_insert_high by lia. rewrite (proj2 (Nat.ltb_ge (S i) k) ltac:(lia)). reflexivity. }
  unfold x in X. rewrite Nat.eqb_refl in X. apply (F_1_neq_0 (K_theory F)). transitivity (0 - (0 - 1)); [ring|]. rewrite X. ring.
Qed.
End Reject.

(** * Least squares *)
Lemma normal_equations n V s r : factorizes n V s ->
  let c := solveUpper (cols s) (Rm s) (fun i => opp (fdot n (fun e => Qm s e i) r)) in
  forall j, j < length V -> fdot n (nth j V (fun _ => 0)) (fun e => r e + combination V c e) = 0.
Proof.
  intros Fs c j Hj. pose proof Fs as [Hr [Hc [O [T P]]]].
  assert (Q0 : forall i, i < cols s -> fdot n (fun e => Qm s e i) (fun e => r e + combination V c e) = 0).
  { intros i Hi. rewrite fdot_plus. rewrite (fdot_ext F n (fun e => Qm s e i) (combination V c) (fun e => Qm s e i) (fun e => fsum (cols s) (fun i => Qm s e i * fsum (cols s) (fun j => Rm s i j * c j)))); [|reflexivity|].
    - rewrite (dot_Q n (cols s) (Qm s) _ i O Hi). unfold c. rewrite solve_ok by assumption. ring.
    - intros e He. apply (combination_QR n V s); assumption. }
  rewrite fdot_sym. rewrite (fdot_ext F n _ (nth j V (fun _ => 0)) (fun e => r e + combination V c e) (fun e => fsum (cols s) (fun i => Qm s e i * Rm s i j))); [|reflexivity|].
  - rewrite fdot_comb. apply fsum_zero. intros i Hi. rewrite fdot_sym. rewrite Q0 by exact Hi. ring.
  - intros e He. symmetry. apply P; [exact He|lia].
Qed.
Lemma pythagoras n V (r x y : nat -> F) : (forall j, j < length V -> fdot n (nth j V (fun _ => 0)) (fun e => r e + combination V x e) = 0) ->
  fdot n (fun e => r e + combination V y e) (fun e => r e + combination V y e) =
  fdot n (fun e => r e + combination V x e) (fun e => r e + combination V x e) +
  fdot n (combination V (fun j => y j - x j)) (combination V (fun j => y j - x j)).
Proof.
  intros H. set (p := fun e => r e + combination V x e) in *. set (d := combination V (fun j => y j - x j)).
  assert (E : forall e, r e + combination V y e = p e + d e).
  { intros e. unfold p, d, combination. rewrite (fsum_ext F _ (fun j => nth j V (fun _ => 0) e * (y j - x j)) (fun j => nth j V (fun _ => 0) e * y j - nth j V (fun _ => 0) e * x j)) by (intros; ring).
    rewrite fsum_minus. ring. }
  assert (Z : fdot n p d = 0).
  { unfold d, combination. rewrite (fdot_comb F n (length V) p (fun e j => nth j V (fun _ => 0) e)). apply fsum_zero. intros j Hj.
    transitivity (fdot n (nth j V (fun _ => 0)) p * (y j - x j)); [f_equal; apply fdot_sym|]. rewrite H by exact Hj. ring. }
  rewrite (fdot_ext F n _ _ (fun e => p e + d e) (fun e => p e + d e)) by (intros; apply E).
  rewrite fdot_plus, (fdot_sym F n _ p), (fdot_sym F n _ d), !fdot_plus, (fdot_sym F n d p), Z. ring.
Qed.
End P.
