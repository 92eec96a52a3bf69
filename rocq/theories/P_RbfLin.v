(** Linear functions, inverse matrices: helpers for the theorems on
    radial-basis-function mappings and their examples. *)
From Coq Require Import List Arith Bool QArith Lia Permutation Setoid Morphisms.
From Verif Require Import M_Rbf S_Rbf P_Rbf P_RbfPar.
Import ListNotations.
Open Scope Q_scope.

(** ** linear functions as polynomials *)
Definition coef (a1 a2 a3 : Q) (d : nat) : Q := match d with O => a1 | S O => a2 | _ => a3 end.
Definition coefs (a0 a1 a2 a3 : Q) (ax : axes) : vec := a0 :: map (coef a1 a2 a3) ax.
Lemma lsum_axes ax (f : nat -> Q) : NoDup ax -> (forall d, In d ax -> (d < 3)%nat) -> (forall d, (d < 3)%nat -> ~ In d ax -> f d == 0) ->
  lsum f ax == f 0%nat + f 1%nat + f 2%nat.
Proof.
  intros ND H3 H0. set (full := filter (fun d => existsb (Nat.eqb d) ax) [0; 1; 2]%nat).
  assert (Permutation ax full) as P.
  { apply NoDup_Permutation; [exact ND|apply NoDup_filter; repeat constructor; cbn; lia|]. intros d. unfold full. rewrite filter_In, existsb_exists. split.
    - intros Hd. split; [pose proof (H3 d Hd); cbn; lia|]. exists d. split; [exact Hd|apply Nat.eqb_refl].
    - intros (_ & e & He & E). apply Nat.eqb_eq in E. subst e. exact He. }
  rewrite (lsum_perm _ _ _ P). unfold full.
  assert (forall d, (d < 3)%nat -> existsb (Nat.eqb d) ax = false -> f d == 0) as Z.
  { intros d Hd E. apply H0; [exact Hd|]. intros I. assert (existsb (Nat.eqb d) ax = true) as T by (apply existsb_exists; exists d; split; [exact I|apply Nat.eqb_refl]). congruence. }
  cbn [filter]. destruct (existsb (Nat.eqb 0) ax) eqn:E0, (existsb (Nat.eqb 1) ax) eqn:E1, (existsb (Nat.eqb 2) ax) eqn:E2; cbn [lsum];
    try rewrite (Z 0%nat) by (try lia; exact E0); try rewrite (Z 1%nat) by (try lia; exact E1); try rewrite (Z 2%nat) by (try lia; exact E2); ring.
Qed.
Lemma sumn_shift n f : sumn (S n) f == f 0%nat + sumn n (fun i => f (S i)).
Proof. induction n as [|n IH]; [cbn; ring|]. transitivity (sumn (S n) f + f (S n)); [reflexivity|]. rewrite IH. cbn. ring. Qed.
Lemma linear_poly ax a0 a1 a2 a3 v : NoDup ax -> (forall d, In d ax -> (d < 3)%nat) -> depends_only_on ax a1 a2 a3 ->
  sumn (S (length ax)) (fun k => at_ (poly ax v) k * at_ (coefs a0 a1 a2 a3 ax) k) == linear a0 a1 a2 a3 v.
Proof.
  intros ND H3 (D0 & D1 & D2). rewrite sumn_shift. unfold poly, coefs. cbn [at_ nth].
  transitivity (1 * a0 + lsum (fun d => coord d v * coef a1 a2 a3 d) ax).
  - apply Qplus_comp; [reflexivity|]. rewrite <- (lsum_sumn _ 0%nat). apply sumn_ext. intros i Hi. unfold at_. cbn [nth].
    erewrite (nth_indep (map (fun d => coord d v) ax)) by (rewrite map_length; exact Hi). rewrite (map_nth (fun d => coord d v) ax 0%nat).
    erewrite (nth_indep (map (coef a1 a2 a3) ax)) by (rewrite map_length; exact Hi). rewrite (map_nth (coef a1 a2 a3) ax 0%nat). reflexivity.
  - rewrite lsum_axes; [unfold linear; cbn [coord coef]; ring|exact ND|exact H3|].
    intros d Hd NI. assert (coef a1 a2 a3 d == 0) as Z by (destruct d as [|[|[|d]]]; [destruct D0 as [D|D]|destruct D1 as [D|D]|destruct D2 as [D|D]|lia]; try contradiction; exact D).
    rewrite Z. ring.
Qed.
Lemma coefs_length a0 a1 a2 a3 ax : length (coefs a0 a1 a2 a3 ax) = S (length ax).
Proof. cbn. rewrite map_length. reflexivity. Qed.

(** ** products *)
Lemma total_sumn a : total a == sumn (length a) (at_ a).
Proof. induction a as [|x a IH]; [reflexivity|]. cbn [total length]. rewrite sumn_shift, IH. apply Qplus_comp; [reflexivity|]. apply sumn_ext. intros; reflexivity. Qed.
Lemma dot_sumn a b : length a = length b -> dot a b == sumn (length a) (fun i => at_ a i * at_ b i).
Proof. intros L. unfold dot. rewrite total_sumn, zip_length, <- L, Nat.min_id. apply sumn_ext. intros i _. apply at_zip; [exact L|reflexivity]. Qed.
Definition mm (a b : matrix) : matrix := Mx (m_rows a) (m_cols b) (fun i k => sumn (m_cols a) (fun j => m_at a i j * m_at b j k)).
Lemma mm_mul a b v : m_cols a = m_rows b -> forall i, at_ (mul (mm a b) v) i == at_ (mul a (mul b v)) i.
Proof.
  intros D i. destruct (Nat.lt_ge_cases i (m_rows a)) as [L|L]; [|rewrite !at_over by (rewrite mul_length; exact L); reflexivity].
  rewrite (at_mul (mm a b)), (at_mul a) by exact L. cbn [mm m_cols m_at].
  transitivity (sumn (m_cols b) (fun k => sumn (m_cols a) (fun j => m_at a i j * m_at b j k * at_ v k))); [apply sumn_ext; intros k _; rewrite <- sumn_mul_r; reflexivity|].
  rewrite sumn_swap. apply sumn_ext. intros j Hj. rewrite at_mul by (rewrite <- D; exact Hj). rewrite <- sumn_mul_l. apply sumn_ext. intros k _. ring.
Qed.
Definition is_identity (m : matrix) : bool :=
  forallb (fun i => forallb (fun k => Qeq_bool (m_at m i k) (if (i =? k)%nat then 1 else 0)) (seq 0 (m_cols m))) (seq 0 (m_rows m)).
Lemma identity_mul m v : is_identity m = true -> m_rows m = m_cols m -> length v = m_rows m -> veq (mul m v) v.
Proof.
  intros I E L. apply at_veq; [rewrite mul_length; symmetry; exact L|]. intros i Hi. rewrite mul_length in Hi. rewrite at_mul by exact Hi.
  unfold is_identity in I. rewrite forallb_forall in I. specialize (I i). rewrite in_seq, forallb_forall in I.
  assert (forall k, (k < m_cols m)%nat -> m_at m i k == if (i =? k)%nat then 1 else 0) as H. { intros k Hk. apply Qeq_bool_eq. apply I; [lia|]. apply in_seq. lia. }
  rewrite (sumn_single _ i); [|lia|intros k Hk Hik; rewrite H by exact Hk; rewrite (proj2 (Nat.eqb_neq i k)) by congruence; ring].
  rewrite H by lia. rewrite Nat.eqb_refl. ring.
Qed.
Lemma veq_trans a b c : veq a b -> veq b c -> veq a c.
Proof. intros H. revert c. induction H as [|x y a b E H IH]; intros c K; inversion K; subst; constructor; [rewrite E; assumption|apply IH; assumption]. Qed.
Lemma inverse_solves c d : m_cols c = m_rows d -> m_cols d = m_rows c -> is_identity (mm c d) = true -> solves_systems c (mul d).
Proof.
  intros D1 D2 I b L. rewrite mul_length. split; [symmetry; exact D1|]. apply (veq_trans _ (mul (mm c d) b)).
  - apply at_veq; [rewrite !mul_length; reflexivity|]. intros i _. symmetry. apply mm_mul. exact D1.
  - apply identity_mul; [exact I|cbn; symmetry; exact D2|exact L].
Qed.
Lemma gram_least_squares q g : m_rows g = m_cols q -> m_cols g = m_cols q -> is_identity (mm (mm (transpose q) q) g) = true ->
  least_squares q (fun b => mul g (mul (transpose q) b)) /\ smallest_solution q (fun e => mul q (mul g e)).
Proof.
  intros D1 D2 I.
  assert (forall e, length e = m_cols q -> veq (mul (transpose q) (mul q (mul g e))) e) as K.
  { intros e L. apply (veq_trans _ (mul (mm (mm (transpose q) q) g) e)).
    - apply at_veq; [rewrite !mul_length; reflexivity|]. intros i _. symmetry. rewrite mm_mul by (symmetry; exact D1). apply mm_mul. reflexivity.
    - apply identity_mul; [exact I|cbn; symmetry; exact D2|exact L]. }
  split.
  - intros b L. rewrite mul_length. split; [exact D1|]. apply K. rewrite mul_length. reflexivity.
  - intros e L. rewrite mul_length. split; [reflexivity|]. split; [apply K; exact L|]. exists (mul g e). split; [rewrite mul_length; exact D1|].
    apply at_veq; [reflexivity|]. intros; reflexivity.
Qed.
Definition ofRows (n m : nat) (rows : list vec) : matrix := Mx n m (fun i j => at_ (nth i rows []) j).
