(** Proofs about radial-basis-function mappings. *)
From Coq Require Import List Arith Bool QArith Lia Permutation Setoid Morphisms.
From Verif Require Import M_Rbf S_Rbf.
Import ListNotations.
Open Scope Q_scope.

(** ** sums *)
Lemma sumn_ext n f g : (forall i, (i < n)%nat -> f i == g i) -> sumn n f == sumn n g.
Proof. induction n as [|n IH]; intros H; cbn; [reflexivity|]. rewrite IH by (intros i Hi; apply H; lia). rewrite (H n) by lia. reflexivity. Qed.
Lemma sumn_0 n f : (forall i, (i < n)%nat -> f i == 0) -> sumn n f == 0.
Proof. intros H. rewrite (sumn_ext n f (fun _ => 0) H). clear. induction n as [|n IH]; cbn; [reflexivity|]. rewrite IH. reflexivity. Qed.
Lemma sumn_plus n f g : sumn n (fun i => f i + g i) == sumn n f + sumn n g.
Proof. induction n as [|n IH]; cbn; [reflexivity|]. rewrite IH. ring. Qed.
Lemma sumn_minus n f g : sumn n (fun i => f i - g i) == sumn n f - sumn n g.
Proof. induction n as [|n IH]; cbn; [reflexivity|]. rewrite IH. ring. Qed.
Lemma sumn_mul_l n c f : sumn n (fun i => c * f i) == c * sumn n f.
Proof. induction n as [|n IH]; cbn; [ring|]. rewrite IH. ring. Qed.
Lemma sumn_mul_r n c f : sumn n (fun i => f i * c) == sumn n f * c.
Proof. induction n as [|n IH]; cbn; [ring|]. rewrite IH. ring. Qed.
Lemma sumn_swap n m f : sumn n (fun i => sumn m (fun j => f i j)) == sumn m (fun j => sumn n (fun i => f i j)).
Proof.
  induction n as [|n IH]; cbn; [symmetry; apply sumn_0; reflexivity|].
  rewrite IH, <- sumn_plus. apply sumn_ext. intros; reflexivity.
Qed.
Lemma sumn_app n m f : sumn (n + m) f == sumn n f + sumn m (fun j => f (n + j)%nat).
Proof.
  induction m as [|m IH]; cbn.
  - rewrite Nat.add_0_r. ring.
  - replace (n + S m)%nat with (S (n + m)) by lia. cbn. rewrite IH. ring.
Qed.
Lemma sumn_single n k f : (k < n)%nat -> (forall i, (i < n)%nat -> i <> k -> f i == 0) -> sumn n f == f k.
Proof.
  induction n as [|n IH]; intros Hk H; [lia|]. cbn. destruct (Nat.eq_dec k n) as [->|Hn].
  - rewrite sumn_0 by (intros i Hi; apply H; lia). ring.
  - rewrite IH, (H n) by (try lia; intros i Hi Hik; apply H; lia). ring.
Qed.

(** ** vectors *)
Lemma at_map (f : nat -> Q) i n : at_ (map f (seq 0 n)) i == if (i <? n)%nat then f i else 0.
Proof.
  unfold at_. destruct (Nat.ltb_spec i n) as [H|H].
  - erewrite nth_error_nth; [reflexivity|]. rewrite nth_error_map.
    assert (nth_error (seq 0 n) i = Some i) as E; [|rewrite E; reflexivity].
    rewrite (nth_error_nth' (seq 0 n) 0%nat) by (rewrite seq_length; exact H). rewrite seq_nth by exact H. reflexivity.
  - rewrite nth_overflow; [reflexivity|]. rewrite map_length, seq_length. exact H.
Qed.
Lemma at_mul m v i : (i < m_rows m)%nat -> at_ (mul m v) i == sumn (m_cols m) (fun j => m_at m i j * at_ v j).
Proof. intros H. unfold mul. rewrite at_map. rewrite (proj2 (Nat.ltb_lt _ _) H). reflexivity. Qed.
Lemma mul_length m v : length (mul m v) = m_rows m.
Proof. unfold mul. rewrite map_length, seq_length. reflexivity. Qed.
Lemma zip_length f a b : length (zipWith f a b) = min (length a) (length b).
Proof. unfold zipWith. rewrite map_length, combine_length. reflexivity. Qed.
Lemma at_zip f a b i : length a = length b -> f 0 0 == 0 -> at_ (zipWith f a b) i == f (at_ a i) (at_ b i).
Proof.
  intros L F. unfold at_, zipWith. revert b i L. induction a as [|x a IH]; intros [|y b] i L; try discriminate L.
  - destruct i; cbn; symmetry; exact F.
  - destruct i as [|i]; cbn; [reflexivity|]. apply IH. injection L as L. exact L.
Qed.
Lemma at_vadd a b i : length a = length b -> at_ (vadd a b) i == at_ a i + at_ b i.
Proof. intros L. apply at_zip; [exact L|reflexivity]. Qed.
Lemma at_vsub a b i : length a = length b -> at_ (vsub a b) i == at_ a i - at_ b i.
Proof. intros L. apply (at_zip Qminus); [exact L|reflexivity]. Qed.
Lemma at_vneg a i : at_ (vneg a) i == - at_ a i.
Proof. unfold at_, vneg. change 0 with (Qopp 0) at 1. rewrite map_nth. reflexivity. Qed.
Lemma vneg_length a : length (vneg a) = length a. Proof. apply map_length. Qed.
Lemma vadd_length a b : length a = length b -> length (vadd a b) = length a.
Proof. intros L. unfold vadd. rewrite zip_length. lia. Qed.
Lemma vsub_length a b : length a = length b -> length (vsub a b) = length a.
Proof. intros L. unfold vsub. rewrite zip_length. lia. Qed.
Lemma veq_at a b : veq a b -> forall i, at_ a i == at_ b i.
Proof. intros H. induction H as [|x y a b E H IH]; intros [|i]; cbn; try reflexivity; [exact E|apply IH]. Qed.
Lemma veq_len a b : veq a b -> length a = length b.
Proof. intros H. induction H; cbn; congruence. Qed.
Lemma at_veq a b : length a = length b -> (forall i, (i < length a)%nat -> at_ a i == at_ b i) -> veq a b.
Proof.
  revert b. induction a as [|x a IH]; intros [|y b] L H; try discriminate L; constructor.
  - apply (H 0%nat). cbn; lia.
  - apply IH; [cbn in L; lia|]. intros i Hi. apply (H (S i)). cbn; lia.
Qed.
Lemma at_app_l a b i : (i < length a)%nat -> at_ (a ++ b) i = at_ a i.
Proof. intros H. unfold at_. apply app_nth1. exact H. Qed.
Lemma at_app_r a b i : at_ (a ++ b) (length a + i) = at_ b i.
Proof. unfold at_. rewrite app_nth2 by lia. f_equal. lia. Qed.
Lemma at_app_k a b k i : length a = k -> at_ (a ++ b) (k + i) = at_ b i.
Proof. intros <-. apply at_app_r. Qed.
Lemma at_repeat n i : at_ (repeat 0 n) i = 0.
Proof. unfold at_. revert i. induction n; intros [|i]; cbn; auto. Qed.
Lemma at_over a i : (length a <= i)%nat -> at_ a i = 0.
Proof. intros H. unfold at_. apply nth_overflow. exact H. Qed.
Lemma at_firstn n a i : (i < n)%nat -> at_ (firstn n a) i = at_ a i.
Proof. unfold at_. revert a i. induction n as [|n IH]; intros a i H; [lia|]. destruct a as [|x a], i as [|i]; cbn; try reflexivity. apply IH. lia. Qed.

(** moving a matrix to the other side of a product *)
Lemma adjoint m u v : sumn (m_rows m) (fun i => at_ u i * at_ (mul m v) i) == sumn (m_cols m) (fun j => at_ (mul (transpose m) u) j * at_ v j).
Proof.
  transitivity (sumn (m_rows m) (fun i => sumn (m_cols m) (fun j => at_ u i * m_at m i j * at_ v j))).
  - apply sumn_ext. intros i Hi. rewrite at_mul by exact Hi. rewrite <- sumn_mul_l. apply sumn_ext. intros j Hj. ring.
  - rewrite sumn_swap. apply sumn_ext. intros j Hj. rewrite at_mul by exact Hj. rewrite <- sumn_mul_r. apply sumn_ext. intros i Hi. cbn. ring.
Qed.
Lemma mul_ext m u v : (forall j, (j < m_cols m)%nat -> at_ u j == at_ v j) -> forall i, at_ (mul m u) i == at_ (mul m v) i.
Proof.
  intros H i. destruct (Nat.lt_ge_cases i (m_rows m)) as [L|L].
  - rewrite !at_mul by exact L. apply sumn_ext. intros j Hj. rewrite H by exact Hj. reflexivity.
  - rewrite !at_over by (rewrite mul_length; exact L). reflexivity.
Qed.
Lemma mul_sub m u v : length u = length v -> forall i, at_ (mul m (vsub u v)) i == at_ (mul m u) i - at_ (mul m v) i.
Proof.
  intros L i. destruct (Nat.lt_ge_cases i (m_rows m)) as [Li|Li].
  - rewrite !at_mul by exact Li. rewrite <- sumn_minus. apply sumn_ext. intros j Hj. rewrite at_vsub by exact L. ring.
  - rewrite !at_over by (rewrite mul_length; exact Li). reflexivity.
Qed.
Lemma sumn_sq n f : sumn n (fun i => f i * f i) == 0 -> forall i, (i < n)%nat -> f i == 0.
Proof.
  assert (forall m, 0 <= sumn m (fun i => f i * f i)) as P.
  { induction m as [|m IH]; cbn; [apply Qle_refl|]. replace 0 with (0 + 0) by reflexivity. apply Qplus_le_compat; [exact IH|].
    destruct (f m) as [a b]. unfold Qle, Qmult. cbn. rewrite Z.mul_1_r. apply Z.square_nonneg. }
  induction n as [|n IH]; intros H i Hi; [lia|]. cbn in H.
  assert (0 <= f n * f n) as Pn. { destruct (f n) as [a b]. unfold Qle, Qmult. cbn. rewrite Z.mul_1_r. apply Z.square_nonneg. }
  pose proof (P n) as Ps.
  assert (sumn n (fun i => f i * f i) == 0) as E1.
  { apply Qle_antisym; [|exact Ps]. rewrite <- H. rewrite <- (Qplus_0_r (sumn n _)) at 1. apply Qplus_le_compat; [apply Qle_refl|exact Pn]. }
  destruct (Nat.eq_dec i n) as [->|Hn]; [|apply IH; [exact E1|lia]].
  rewrite E1, Qplus_0_l in H. destruct (Qmult_integral _ _ H); assumption.
Qed.
(** a matrix whose transposed system can always be solved is injective *)
Lemma injective m : (forall e, length e = m_cols m -> exists x, forall j, (j < m_cols m)%nat -> at_ (mul (transpose m) x) j == at_ e j) ->
  forall u v, length u = m_cols m -> length v = m_cols m -> (forall i, (i < m_rows m)%nat -> at_ (mul m u) i == at_ (mul m v) i) ->
  forall j, (j < m_cols m)%nat -> at_ u j == at_ v j.
Proof.
  intros S u v Lu Lv H j Hj. set (w := vsub u v). assert (length w = m_cols m) as Lw by (unfold w; rewrite vsub_length; congruence).
  destruct (S w Lw) as (x & Hx).
  assert (sumn (m_cols m) (fun j => at_ w j * at_ w j) == 0) as Z.
  { transitivity (sumn (m_cols m) (fun j => at_ (mul (transpose m) x) j * at_ w j)); [apply sumn_ext; intros k Hk; rewrite Hx by exact Hk; reflexivity|].
    rewrite <- adjoint. apply sumn_0. intros i Hi. unfold w. rewrite mul_sub by congruence. rewrite H by exact Hi. ring. }
  pose proof (sumn_sq _ _ Z j Hj) as E. unfold w in E. rewrite at_vsub in E by congruence.
  rewrite <- (Qplus_0_r (at_ v j)). rewrite <- E. ring.
Qed.

(** ** the matrices *)
Section Rbf.
Variable phi : Q -> Q.
Hypothesis phi_ext : forall x y, x == y -> phi x == phi y.

Lemma sqdiff_sym ax u v : sqdiff ax u v == sqdiff ax v u.
Proof. unfold sqdiff. induction ax as [|d ax IH]; cbn; [reflexivity|]. rewrite IH. ring. Qed.
Lemma sqdiff_place ax u u' v : same_place ax u u' -> sqdiff ax u v == sqdiff ax u' v.
Proof.
  unfold sqdiff. induction ax as [|d ax IH]; intros H; cbn; [reflexivity|]. rewrite IH by (intros e He; apply H; right; exact He).
  rewrite (H d) by (left; reflexivity). reflexivity.
Qed.
Lemma at_poly_place ax u u' k : same_place ax u u' -> at_ (poly ax u) k == at_ (poly ax u') k.
Proof.
  intros H. unfold poly. destruct k as [|k]; cbn; [reflexivity|]. revert k. induction ax as [|d ax IH]; intros [|k]; cbn; try reflexivity.
  - apply H. left; reflexivity.
  - apply IH. intros e He. apply H. right. exact He.
Qed.
Lemma C_sym ax p m i j : m_at (matrixC phi ax p m) i j == m_at (matrixC phi ax p m) j i.
Proof. cbn [matrixC m_at]. destruct (Nat.leb_spec i j), (Nat.leb_spec j i); try reflexivity; [|lia]. replace j with i by lia. reflexivity. Qed.
(** the first rows of the interpolation matrix are rows of the evaluation matrix *)
Lemma C_row ax p m i j : (i < length m)%nat ->
  m_at (matrixC phi ax p m) i j == if (j <? length m)%nat then phi (sqdiff ax (vtx m i) (vtx m j)) else at_ (poly ax (vtx m i)) (j - length m).
Proof.
  intros Hi. cbn [matrixC m_at]. unfold upperC. destruct (Nat.leb_spec i j).
  - destruct (Nat.ltb_spec j (length m)); [reflexivity|]. rewrite (proj2 (Nat.ltb_lt _ _) Hi). reflexivity.
  - rewrite (proj2 (Nat.ltb_lt _ _) Hi). rewrite (proj2 (Nat.ltb_lt j (length m))) by lia. apply phi_ext, sqdiff_sym.
Qed.
Lemma C_poly ax p m k j : m_at (matrixC phi ax p m) (length m + k) j == if (j <? length m)%nat then at_ (poly ax (vtx m j)) k else 0.
Proof.
  cbn [matrixC m_at]. unfold upperC. destruct (Nat.leb_spec (length m + k) j) as [H|H].
  - rewrite (proj2 (Nat.ltb_ge j (length m))) by lia. rewrite (proj2 (Nat.ltb_ge (length m + k) (length m))) by lia. reflexivity.
  - rewrite (proj2 (Nat.ltb_ge (length m + k) (length m))) by lia. replace (length m + k - length m)%nat with k by lia. destruct (j <? length m)%nat; reflexivity.
Qed.

Definition sizeN (s : solver) : nat := length (s_in s).
Definition sizeC (s : solver) : nat := (sizeN s + polyparams (s_axes s) (s_poly s))%nat.
Section One.
Variable s : solver.
Hypothesis good : good_solver phi s.
Notation n := (sizeN s).
Notation N := (sizeC s).

Lemma dimC : m_rows (s_C phi s) = N /\ m_cols (s_C phi s) = N. Proof. split; reflexivity. Qed.
Lemma dimA : m_rows (s_A phi s) = length (s_out s) /\ m_cols (s_A phi s) = N. Proof. split; reflexivity. Qed.
Lemma solveC_ok b : length b = N -> length (s_solveC s b) = N /\ forall i, at_ (mul (s_C phi s) (s_solveC s b)) i == at_ b i.
Proof. intros L. destruct good as (G & _). destruct (G b L) as (A & B). split; [exact A|]. apply veq_at. exact B. Qed.
Lemma C_mul_sym x i : at_ (mul (transpose (s_C phi s)) x) i == at_ (mul (s_C phi s) x) i.
Proof.
  destruct (Nat.lt_ge_cases i N) as [L|L].
  - rewrite !at_mul by exact L. apply sumn_ext. intros j Hj. change (m_at (s_C phi s) j i * at_ x j == m_at (s_C phi s) i j * at_ x j).
    unfold s_C. rewrite (C_sym (s_axes s) (s_poly s) (s_in s) j i). reflexivity.
  - rewrite !at_over by (rewrite mul_length; exact L). reflexivity.
Qed.
Lemma C_inj u v : length u = N -> length v = N -> (forall i, (i < N)%nat -> at_ (mul (s_C phi s) u) i == at_ (mul (s_C phi s) v) i) ->
  forall j, at_ u j == at_ v j.
Proof.
  intros Lu Lv H j. destruct (Nat.lt_ge_cases j N) as [Lj|Lj]; [|rewrite !at_over by lia; reflexivity].
  apply (injective (s_C phi s)); try assumption.
  intros e Le. destruct (solveC_ok e Le) as (A & B). exists (s_solveC s e). intros k Hk. rewrite C_mul_sym. apply B.
Qed.
(** value of the interpolant at an output vertex *)
Lemma A_row i j : m_at (s_A phi s) i j = if (j <? n)%nat then phi (sqdiff (s_axes s) (vtx (s_out s) i) (vtx (s_in s) j)) else at_ (poly (s_axes s) (vtx (s_out s) i)) (j - n).
Proof. reflexivity. Qed.
Lemma at_A_C p i k : (i < n)%nat -> (k < length (s_out s))%nat -> same_place (s_axes s) (vtx (s_out s) k) (vtx (s_in s) i) ->
  at_ (mul (s_A phi s) p) k == at_ (mul (s_C phi s) p) i.
Proof.
  intros Hi Hk P. rewrite (at_mul (s_A phi s)) by exact Hk. rewrite (at_mul (s_C phi s)) by (change (i < N)%nat; unfold sizeC; lia).
  apply sumn_ext. intros j Hj. unfold s_C. rewrite (C_row (s_axes s) (s_poly s) (s_in s) i j Hi). rewrite A_row. change (length (s_in s)) with n.
  destruct (j <? n)%nat; [rewrite (phi_ext _ _ (sqdiff_place _ _ _ _ P)); reflexivity|]. rewrite (at_poly_place _ _ _ (j - n) P). reflexivity.
Qed.
Lemma sep_params : s_poly s = SEPARATE -> polyparams (s_axes s) (s_poly s) = 0%nat.
Proof. intros ->. reflexivity. Qed.
Lemma off_params : s_poly s = OFF -> polyparams (s_axes s) (s_poly s) = 0%nat.
Proof. intros ->. reflexivity. Qed.
Lemma lsq_ok b : s_poly s = SEPARATE -> length b = n -> length (s_lsq s b) = S (length (s_local s)) /\
  forall i, at_ (mul (transpose (s_Q s)) (mul (s_Q s) (s_lsq s b))) i == at_ (mul (transpose (s_Q s)) b) i.
Proof. intros E L. destruct good as (_ & G & _). destruct (proj1 (G E) b L) as (A & B). split; [exact A|]. apply veq_at. exact B. Qed.
Lemma tsolve_ok e : s_poly s = SEPARATE -> length e = S (length (s_local s)) -> length (s_tsolve s e) = n /\
  (forall i, at_ (mul (transpose (s_Q s)) (s_tsolve s e)) i == at_ e i) /\ exists z, length z = S (length (s_local s)) /\ forall i, at_ (s_tsolve s e) i == at_ (mul (s_Q s) z) i.
Proof.
  intros E L. destruct good as (_ & G & _). destruct (proj2 (G E) e L) as (A & B & z & Lz & Hz). split; [exact A|].
  split; [apply veq_at; exact B|]. exists z. split; [exact Lz|apply veq_at; exact Hz].
Qed.
Lemma Q_inj u v : s_poly s = SEPARATE -> length u = S (length (s_local s)) -> length v = S (length (s_local s)) ->
  (forall i, (i < n)%nat -> at_ (mul (s_Q s) u) i == at_ (mul (s_Q s) v) i) -> forall j, at_ u j == at_ v j.
Proof.
  intros E Lu Lv H j. destruct (Nat.lt_ge_cases j (S (length (s_local s)))) as [Lj|Lj]; [|rewrite !at_over by lia; reflexivity].
  apply (injective (s_Q s)); try assumption. intros e Le. destruct (tsolve_ok e E Le) as (_ & T & _). exists (s_tsolve s e). intros k _. apply T.
Qed.
(** least squares fit an exact polynomial *)
Lemma lsq_exact b a : s_poly s = SEPARATE -> length b = n -> length a = S (length (s_local s)) ->
  (forall i, (i < n)%nat -> at_ b i == at_ (mul (s_Q s) a) i) -> forall j, at_ (s_lsq s b) j == at_ a j.
Proof.
  intros E Lb La H. destruct (lsq_ok b E Lb) as (Lc & Hc). apply Q_inj; try assumption.
  set (w := vsub (s_lsq s b) a). assert (length w = S (length (s_local s))) as Lw by (unfold w; rewrite vsub_length; congruence).
  assert (sumn n (fun i => at_ (mul (s_Q s) w) i * at_ (mul (s_Q s) w) i) == 0) as Z.
  { change n with (m_rows (s_Q s)). rewrite adjoint. apply sumn_0. intros j Hj. setoid_replace (at_ (mul (transpose (s_Q s)) (mul (s_Q s) w)) j) with 0; [ring|].
    rewrite (mul_ext (transpose (s_Q s)) (mul (s_Q s) w) (vsub (mul (s_Q s) (s_lsq s b)) b)).
    - rewrite mul_sub by (rewrite mul_length; symmetry; exact Lb). rewrite Hc. ring.
    - intros i Hi. unfold w. rewrite mul_sub by congruence. rewrite at_vsub by (rewrite mul_length; symmetry; exact Lb). rewrite H by exact Hi. reflexivity. }
  intros i Hi. pose proof (sumn_sq _ _ Z i Hi) as E0. unfold w in E0. rewrite mul_sub in E0 by congruence.
  rewrite <- (Qplus_0_r (at_ (mul (s_Q s) a) i)), <- E0. ring.
Qed.
Lemma at_V_Q c i k : (i < n)%nat -> (k < length (s_out s))%nat -> same_place (s_axes s) (vtx (s_out s) k) (vtx (s_in s) i) ->
  at_ (mul (s_V s) c) k == at_ (mul (s_Q s) c) i.
Proof.
  intros Hi Hk P. rewrite (at_mul (s_V s)) by exact Hk. rewrite (at_mul (s_Q s)) by exact Hi. apply sumn_ext. intros j Hj. cbn [s_V s_Q matrixP m_at].
  rewrite (at_poly_place (s_local s) (vtx (s_out s) k) (vtx (s_in s) i) j); [reflexivity|]. intros d Hd. apply P. destruct good as (_ & _ & G & _). apply G, Hd.
Qed.

(** ** exactness *)
Lemma consistent_exact v i k : length v = n -> (i < n)%nat -> (k < length (s_out s))%nat ->
  same_place (s_axes s) (vtx (s_out s) k) (vtx (s_in s) i) -> at_ (mapConsistent phi s v) k == at_ v i.
Proof.
  intros Lv Hi Hk P. unfold mapConsistent, solveConsistent. destruct (s_poly s) eqn:E.
  - rewrite (at_A_C _ i k Hi Hk P). destruct (solveC_ok (v ++ repeat 0 (polyparams (s_axes s) ON))) as (_ & B).
    { rewrite app_length, repeat_length, Lv. unfold sizeC. rewrite E. reflexivity. }
    rewrite B, at_app_l by lia. reflexivity.
  - rewrite (at_A_C _ i k Hi Hk P). destruct (solveC_ok (v ++ repeat 0 (polyparams (s_axes s) OFF))) as (_ & B).
    { rewrite app_length, repeat_length, Lv. unfold sizeC. rewrite E. reflexivity. }
    rewrite B, at_app_l by lia. reflexivity.
  - cbn [polyparams isOn repeat]. rewrite app_nil_r. set (c := s_lsq s v).
    assert (length (vsub v (mul (s_Q s) c)) = N) as L. { rewrite vsub_length; [unfold sizeC; rewrite sep_params by exact E; lia|]. rewrite mul_length. exact Lv. }
    destruct (solveC_ok _ L) as (_ & B). rewrite at_vadd by (rewrite !mul_length; reflexivity).
    rewrite (at_A_C _ i k Hi Hk P), B, (at_V_Q c i k Hi Hk P). rewrite at_vsub by (rewrite mul_length; exact Lv). ring.
Qed.

(** polynomials *)
Lemma at_P_poly m ax a i : (i < length m)%nat -> at_ (mul (matrixP ax m) a) i == sumn (S (length ax)) (fun k => at_ (poly ax (vtx m i)) k * at_ a k).
Proof. intros H. rewrite at_mul by exact H. reflexivity. Qed.
Lemma consistent_poly v a : s_poly s <> OFF -> length v = n -> length a = S (length (poly_axes s)) ->
  (forall i, (i < n)%nat -> at_ v i == sumn (S (length (poly_axes s))) (fun k => at_ (poly (poly_axes s) (vtx (s_in s) i)) k * at_ a k)) ->
  forall k, (k < length (s_out s))%nat ->
  at_ (mapConsistent phi s v) k == sumn (S (length (poly_axes s))) (fun j => at_ (poly (poly_axes s) (vtx (s_out s) k)) j * at_ a j).
Proof.
  intros NO Lv La H k Hk. unfold mapConsistent, solveConsistent, poly_axes in *. destruct (s_poly s) eqn:E; [|contradiction NO; reflexivity|].
  - set (x := repeat 0 n ++ a). assert (length x = N) as Lx. { unfold x, sizeC. rewrite app_length, repeat_length, La, E. reflexivity. }
    set (b := v ++ repeat 0 (polyparams (s_axes s) ON)). assert (length b = N) as Lb. { unfold b, sizeC. rewrite app_length, repeat_length, Lv, E. reflexivity. }
    destruct (solveC_ok b Lb) as (Lp & B).
    assert (forall j, at_ (s_solveC s b) j == at_ x j) as X.
    { apply C_inj; try assumption. intros i Hi. rewrite B. destruct (Nat.lt_ge_cases i n) as [Hin|Hin].
      - unfold b. rewrite at_app_l by lia. rewrite (H i Hin). rewrite at_mul by exact Hi. change (m_cols (s_C phi s)) with N. unfold sizeC. rewrite sumn_app.
        rewrite (sumn_0 n); [|intros j Hj; unfold x; rewrite at_app_l by (rewrite repeat_length; exact Hj); rewrite at_repeat; ring].
        rewrite Qplus_0_l. rewrite E. apply sumn_ext. intros j Hj. unfold s_C. rewrite (C_row (s_axes s) (s_poly s) (s_in s) i (n + j) Hin). change (length (s_in s)) with n.
        rewrite (proj2 (Nat.ltb_ge (n + j) n)) by lia. replace (n + j - n)%nat with j by lia. unfold x.
        rewrite (at_app_k (repeat 0 n) a n j (repeat_length 0 n)). reflexivity.
      - unfold b. replace i with (length v + (i - n))%nat by lia. rewrite at_app_r, at_repeat. symmetry. rewrite Lv.
        rewrite at_mul by (change (n + (i - n) < N)%nat; lia). apply sumn_0. intros j Hj. unfold s_C. rewrite (C_poly (s_axes s) (s_poly s) (s_in s) (i - n) j). change (length (s_in s)) with n.
        destruct (Nat.ltb_spec j n) as [Hj'|Hj']; [|ring]. unfold x. rewrite at_app_l by (rewrite repeat_length; exact Hj'). rewrite at_repeat. ring. }
    rewrite (mul_ext (s_A phi s) (s_solveC s b) x) by (intros j _; apply X).
    rewrite at_mul by exact Hk. change (m_cols (s_A phi s)) with N. unfold sizeC. rewrite sumn_app.
    rewrite (sumn_0 n); [|intros j Hj; unfold x; rewrite at_app_l by (rewrite repeat_length; exact Hj); rewrite at_repeat; ring].
    rewrite Qplus_0_l, E. apply sumn_ext. intros j Hj. rewrite A_row. rewrite (proj2 (Nat.ltb_ge (n + j) n)) by lia. replace (n + j - n)%nat with j by lia. unfold x.
    rewrite (at_app_k (repeat 0 n) a n j (repeat_length 0 n)). reflexivity.
  - cbn [polyparams isOn repeat]. rewrite app_nil_r.
    assert (forall j, at_ (s_lsq s v) j == at_ a j) as X.
    { apply lsq_exact; try assumption. intros i Hi. rewrite (H i Hi). symmetry. apply (at_P_poly (s_in s)). exact Hi. }
    set (r := vsub v (mul (s_Q s) (s_lsq s v))). assert (length r = N) as Lr. { unfold r. rewrite vsub_length by (rewrite mul_length; exact Lv). unfold sizeC. rewrite sep_params by exact E. lia. }
    assert (forall i, at_ r i == 0) as R0.
    { intros i. destruct (Nat.lt_ge_cases i N) as [Li|Li]; [|rewrite at_over by lia; reflexivity]. unfold r. rewrite at_vsub by (rewrite mul_length; exact Lv).
      rewrite (mul_ext (s_Q s) (s_lsq s v) a) by (intros j _; apply X). assert (i < n)%nat as Li' by (unfold sizeC in Li; rewrite sep_params in Li by exact E; lia).
      rewrite (H i Li'). unfold s_Q. rewrite (at_P_poly (s_in s) (s_local s) a i Li'). ring. }
    destruct (solveC_ok r Lr) as (Lp & B).
    assert (forall j, at_ (s_solveC s r) j == at_ (repeat 0 N) j) as P0.
    { apply C_inj; [exact Lp|apply repeat_length|]. intros i Hi. rewrite B, R0. symmetry. rewrite at_mul by exact Hi. apply sumn_0. intros j Hj. rewrite at_repeat. ring. }
    rewrite at_vadd by (rewrite !mul_length; reflexivity). rewrite (mul_ext (s_A phi s) (s_solveC s r) (repeat 0 N)) by (intros j _; apply P0).
    rewrite at_mul by exact Hk. rewrite sumn_0 by (intros j Hj; rewrite at_repeat; ring). rewrite Qplus_0_l.
    rewrite (mul_ext (s_V s) (s_lsq s v) a) by (intros j _; apply X). apply (at_P_poly (s_out s)). exact Hk.
Qed.

(** ** conservation: the moments of the polynomial are kept *)
Lemma conservative_length u : length u = length (s_out s) -> length (solveConservative phi s u) = N.
Proof.
  intros Lu. unfold solveConservative. assert (length (s_solveC s (mul (transpose (s_A phi s)) u)) = N) as L by (apply solveC_ok; rewrite mul_length; reflexivity).
  destruct (s_poly s) eqn:E; try exact L. rewrite vsub_length; [exact L|]. rewrite L. symmetry. unfold sizeC. rewrite sep_params by exact E. rewrite Nat.add_0_r.
  apply tsolve_ok; [exact E|]. rewrite vneg_length, vsub_length; rewrite !mul_length; reflexivity.
Qed.
Lemma conservative_moments u k : s_poly s <> OFF -> length u = length (s_out s) -> (k < S (length (poly_axes s)))%nat ->
  sumn n (fun i => at_ (poly (poly_axes s) (vtx (s_in s) i)) k * at_ (mapConservative phi s u) i) ==
  sumn (length (s_out s)) (fun j => at_ (poly (poly_axes s) (vtx (s_out s) j)) k * at_ u j).
Proof.
  intros NO Lu Hk. unfold mapConservative.
  transitivity (sumn n (fun i => at_ (poly (poly_axes s) (vtx (s_in s) i)) k * at_ (solveConservative phi s u) i)).
  { apply sumn_ext. intros i Hi. rewrite at_firstn by exact Hi. reflexivity. }
  unfold solveConservative, poly_axes in *. destruct (s_poly s) eqn:E; [|contradiction NO; reflexivity|].
  - destruct (solveC_ok (mul (transpose (s_A phi s)) u)) as (Lw & B); [rewrite mul_length; reflexivity|]. set (w := s_solveC s (mul (transpose (s_A phi s)) u)) in *.
    assert (n + k < N)%nat as HkN by (unfold sizeC; rewrite E; cbn; lia).
    pose proof (B (n + k)%nat) as Bk. rewrite (at_mul (s_C phi s)) in Bk by exact HkN. rewrite (at_mul (transpose (s_A phi s))) in Bk by exact HkN.
    change (m_cols (s_C phi s)) with N in Bk. change (m_cols (transpose (s_A phi s))) with (length (s_out s)) in Bk.
    transitivity (sumn N (fun j => m_at (s_C phi s) (n + k) j * at_ w j)).
    + unfold sizeC. rewrite sumn_app. rewrite (sumn_0 (polyparams (s_axes s) (s_poly s))).
      * rewrite Qplus_0_r. apply sumn_ext. intros i Hi. unfold s_C. rewrite (C_poly (s_axes s) (s_poly s) (s_in s) k i). change (length (s_in s)) with n. rewrite (proj2 (Nat.ltb_lt i n) Hi). reflexivity.
      * intros j Hj. unfold s_C. rewrite (C_poly (s_axes s) (s_poly s) (s_in s) k (n + j)). change (length (s_in s)) with n. rewrite (proj2 (Nat.ltb_ge (n + j) n)) by lia. ring.
    + rewrite Bk. apply sumn_ext. intros j Hj. cbn [transpose m_at]. rewrite A_row. rewrite (proj2 (Nat.ltb_ge (n + k) n)) by lia. replace (n + k - n)%nat with k by lia. reflexivity.
  - set (w := s_solveC s (mul (transpose (s_A phi s)) u)). assert (length w = n) as Lw. { unfold w. replace n with N by (unfold sizeC; rewrite sep_params by exact E; lia). apply solveC_ok. rewrite mul_length. reflexivity. }
    set (e := vsub (mul (transpose (s_V s)) u) (mul (transpose (s_Q s)) w)). assert (length e = S (length (s_local s))) as Le by (unfold e; rewrite vsub_length; rewrite !mul_length; reflexivity).
    destruct (tsolve_ok (vneg e) E) as (Lt & T & _); [rewrite vneg_length; exact Le|].
    transitivity (at_ (mul (transpose (s_Q s)) (vsub w (s_tsolve s (vneg e)))) k).
    + rewrite (at_mul (transpose (s_Q s))) by exact Hk. apply sumn_ext. intros i Hi. reflexivity.
    + rewrite mul_sub by congruence. rewrite T, at_vneg. unfold e. rewrite at_vsub by (rewrite !mul_length; reflexivity).
      rewrite (at_mul (transpose (s_V s))) by exact Hk. cbn [transpose s_V matrixP m_at m_cols m_rows]. ring.
Qed.

(** ** the conservative mapping is the transposed consistent one *)
Lemma lsq_adjoint b e : s_poly s = SEPARATE -> length b = n -> length e = S (length (s_local s)) ->
  sumn (S (length (s_local s))) (fun k => at_ (s_lsq s b) k * at_ e k) == sumn n (fun i => at_ b i * at_ (s_tsolve s e) i).
Proof.
  intros E Lb Le. destruct (lsq_ok b E Lb) as (Lc & Hc). destruct (tsolve_ok e E Le) as (Lt & T & z & Lz & Hz).
  transitivity (sumn (m_cols (s_Q s)) (fun k => at_ (mul (transpose (s_Q s)) (mul (s_Q s) (s_lsq s b))) k * at_ z k)).
  - rewrite <- adjoint. transitivity (sumn (m_rows (s_Q s)) (fun i => at_ (mul (s_Q s) z) i * at_ (mul (s_Q s) (s_lsq s b)) i)); [|apply sumn_ext; intros; ring].
    rewrite adjoint. change (m_cols (s_Q s)) with (S (length (s_local s))). apply sumn_ext. intros k Hk.
    rewrite (mul_ext (transpose (s_Q s)) (mul (s_Q s) z) (s_tsolve s e)) by (intros i _; symmetry; apply Hz). rewrite T. ring.
  - transitivity (sumn (m_cols (s_Q s)) (fun k => at_ (mul (transpose (s_Q s)) b) k * at_ z k)); [apply sumn_ext; intros k Hk; rewrite Hc; reflexivity|].
    rewrite <- adjoint. change (m_rows (s_Q s)) with n. apply sumn_ext. intros i Hi. rewrite <- Hz. reflexivity.
Qed.
Lemma transposed_C b c : length b = N -> length c = N ->
  sumn N (fun i => at_ b i * at_ (s_solveC s c) i) == sumn N (fun i => at_ (s_solveC s b) i * at_ c i).
Proof.
  intros Lb Lc. destruct (solveC_ok b Lb) as (_ & B). destruct (solveC_ok c Lc) as (_ & B').
  transitivity (sumn N (fun i => at_ (s_solveC s c) i * at_ (mul (s_C phi s) (s_solveC s b)) i)); [apply sumn_ext; intros i Hi; rewrite B; ring|].
  change N with (m_rows (s_C phi s)). rewrite adjoint. change (m_cols (s_C phi s)) with N. apply sumn_ext. intros i Hi. rewrite C_mul_sym, B'. ring.
Qed.
Lemma transposed v u : length v = n -> length u = length (s_out s) ->
  sumn n (fun i => at_ v i * at_ (mapConservative phi s u) i) == sumn (length (s_out s)) (fun j => at_ (mapConsistent phi s v) j * at_ u j).
Proof.
  intros Lv Lu. unfold mapConservative, mapConsistent.
  transitivity (sumn n (fun i => at_ v i * at_ (solveConservative phi s u) i)); [apply sumn_ext; intros i Hi; rewrite at_firstn by exact Hi; reflexivity|].
  unfold solveConservative, solveConsistent.
  assert (forall b, length b = N -> (forall i, (i < n)%nat -> at_ b i == at_ v i) -> (forall i, (n <= i)%nat -> at_ b i == 0) ->
    sumn n (fun i => at_ v i * at_ (s_solveC s (mul (transpose (s_A phi s)) u)) i) == sumn (length (s_out s)) (fun j => at_ (mul (s_A phi s) (s_solveC s b)) j * at_ u j)) as Main.
  { intros b Lb Hb H0. set (c := mul (transpose (s_A phi s)) u). assert (length c = N) as Lc by (unfold c; rewrite mul_length; reflexivity).
    transitivity (sumn N (fun i => at_ b i * at_ (s_solveC s c) i)).
    - unfold sizeC. rewrite sumn_app. rewrite (sumn_0 (polyparams (s_axes s) (s_poly s))) by (intros j Hj; rewrite H0 by lia; ring). rewrite Qplus_0_r. apply sumn_ext. intros i Hi. rewrite Hb by exact Hi. reflexivity.
    - rewrite (transposed_C b c Lb Lc). symmetry.
      transitivity (sumn (m_rows (s_A phi s)) (fun j => at_ u j * at_ (mul (s_A phi s) (s_solveC s b)) j)); [apply sumn_ext; intros; ring|].
      rewrite adjoint. change (m_cols (s_A phi s)) with N. apply sumn_ext. intros i Hi. unfold c. ring. }
  destruct (s_poly s) eqn:E.
  1,2: apply Main; [rewrite app_length, repeat_length, Lv; unfold sizeC; rewrite E; reflexivity|intros i Hi; rewrite at_app_l by lia; reflexivity|];
     intros i Hi; replace i with (length v + (i - length v))%nat by lia; rewrite at_app_r, at_repeat; reflexivity.
  cbn [polyparams isOn repeat]. rewrite app_nil_r. assert (N = n) as EN by (unfold sizeC; rewrite sep_params by exact E; lia).
  set (c := s_lsq s v). set (r := vsub v (mul (s_Q s) c)). set (w := s_solveC s (mul (transpose (s_A phi s)) u)).
  assert (length r = N) as Lr by (unfold r; rewrite vsub_length by (rewrite mul_length; exact Lv); congruence).
  assert (length w = n) as Lw. { unfold w. rewrite <- EN. apply solveC_ok. rewrite mul_length. reflexivity. }
  set (e := vsub (mul (transpose (s_V s)) u) (mul (transpose (s_Q s)) w)). assert (length e = S (length (s_local s))) as Le by (unfold e; rewrite vsub_length; rewrite !mul_length; reflexivity).
  assert (length (s_tsolve s (vneg e)) = n) as Lt by (apply tsolve_ok; [exact E|rewrite vneg_length; exact Le]).
  (* the part of the radial functions *)
  assert (sumn n (fun i => at_ r i * at_ w i) == sumn (length (s_out s)) (fun j => at_ (mul (s_A phi s) (s_solveC s r)) j * at_ u j)) as M1.
  { transitivity (sumn N (fun i => at_ r i * at_ w i)); [rewrite EN; reflexivity|]. unfold w. rewrite transposed_C by (try exact Lr; rewrite mul_length; reflexivity). symmetry.
    transitivity (sumn (m_rows (s_A phi s)) (fun j => at_ u j * at_ (mul (s_A phi s) (s_solveC s r)) j)); [apply sumn_ext; intros; ring|].
    rewrite adjoint. change (m_cols (s_A phi s)) with N. apply sumn_ext. intros i Hi. ring. }
  transitivity (sumn (length (s_out s)) (fun j => at_ (mul (s_A phi s) (s_solveC s r)) j * at_ u j) + sumn (length (s_out s)) (fun j => at_ (mul (s_V s) c) j * at_ u j)).
  2: { rewrite <- sumn_plus. apply sumn_ext. intros j Hj. rewrite at_vadd by (rewrite !mul_length; reflexivity). ring. }
  rewrite <- M1.
  transitivity (sumn n (fun i => at_ v i * at_ w i) - sumn n (fun i => at_ v i * at_ (s_tsolve s (vneg e)) i)).
  { rewrite <- sumn_minus. apply sumn_ext. intros i Hi. rewrite at_vsub by congruence. ring. }
  rewrite <- (lsq_adjoint v (vneg e) E Lv) by (rewrite vneg_length; exact Le). fold c.
  assert (sumn n (fun i => at_ r i * at_ w i) == sumn n (fun i => at_ v i * at_ w i) - sumn (S (length (s_local s))) (fun k => at_ (mul (transpose (s_Q s)) w) k * at_ c k)) as Er.
  { transitivity (sumn n (fun i => at_ v i * at_ w i) - sumn (m_rows (s_Q s)) (fun i => at_ w i * at_ (mul (s_Q s) c) i)).
    - rewrite <- sumn_minus. apply sumn_ext. intros i Hi. unfold r. rewrite at_vsub by (rewrite mul_length; exact Lv). ring.
    - rewrite adjoint. reflexivity. }
  rewrite Er.
  assert (sumn (length (s_out s)) (fun j => at_ (mul (s_V s) c) j * at_ u j) == sumn (S (length (s_local s))) (fun k => at_ (mul (transpose (s_V s)) u) k * at_ c k)) as EV.
  { transitivity (sumn (m_rows (s_V s)) (fun j => at_ u j * at_ (mul (s_V s) c) j)); [apply sumn_ext; intros; ring|]. rewrite adjoint. reflexivity. }
  rewrite EV.
  transitivity (sumn n (fun i => at_ v i * at_ w i) + (sumn (S (length (s_local s))) (fun k => at_ (mul (transpose (s_V s)) u) k * at_ c k) - sumn (S (length (s_local s))) (fun k => at_ (mul (transpose (s_Q s)) w) k * at_ c k))); [|ring].
  rewrite <- sumn_minus.
  transitivity (sumn n (fun i => at_ v i * at_ w i) + (0 - sumn (S (length (s_local s))) (fun k => at_ c k * at_ (vneg e) k))); [ring|]. apply Qplus_comp; [reflexivity|].
  transitivity (sumn (S (length (s_local s))) (fun k => 0 - at_ c k * at_ (vneg e) k)).
  { rewrite sumn_minus. rewrite (sumn_0 _ (fun _ => 0)) by reflexivity. reflexivity. }
  apply sumn_ext. intros k Hk. rewrite at_vneg. unfold e. rewrite at_vsub by (rewrite !mul_length; reflexivity). ring.
Qed.
End One.

(** ** the order of the vertices does not matter *)
Fixpoint lsum {A} (f : A -> Q) (l : list A) : Q := match l with [] => 0 | x :: r => f x + lsum f r end.
Lemma lsum_perm {A} (f : A -> Q) l l' : Permutation l l' -> lsum f l == lsum f l'.
Proof. intros P. induction P; cbn; [reflexivity|rewrite IHP; reflexivity|ring|rewrite IHP1; exact IHP2]. Qed.
Lemma lsum_app {A} (f : A -> Q) a b : lsum f (a ++ b) == lsum f a + lsum f b.
Proof. induction a as [|x a IH]; cbn; [ring|]. rewrite IH. ring. Qed.
Lemma lsum_sumn {A} (f : A -> Q) d l : sumn (length l) (fun i => f (nth i l d)) == lsum f l.
Proof.
  induction l as [|x l IH] using rev_ind; cbn; [reflexivity|]. rewrite app_length, Nat.add_1_r. cbn [sumn]. rewrite lsum_app, <- IH. cbn [lsum].
  rewrite app_nth2 by lia. rewrite Nat.sub_diag. cbn [nth]. rewrite (sumn_ext _ (fun i => f (nth i (l ++ [x]) d)) (fun i => f (nth i l d))); [ring|].
  intros i Hi. rewrite app_nth1 by exact Hi. reflexivity.
Qed.
Lemma combine_nth_at {A} (l : list A) (v : vec) i d : length v = length l -> nth i (combine l v) (d, 0) = (nth i l d, at_ v i).
Proof. intros L. unfold at_. apply combine_nth. symmetry. exact L. Qed.
Lemma map_fst_combine {A} (l : list A) (v : vec) : length v = length l -> map fst (combine l v) = l.
Proof. revert v. induction l as [|x l IH]; intros [|y v] L; try discriminate L; cbn; [reflexivity|]. f_equal. apply IH. injection L as L. exact L. Qed.
Lemma map_snd_combine {A} (l : list A) (v : vec) : length v = length l -> map snd (combine l v) = v.
Proof. revert v. induction l as [|x l IH]; intros [|y v] L; try discriminate L; cbn; [reflexivity|]. f_equal. apply IH. injection L as L. exact L. Qed.
Lemma nth_in_perm {A} (l l' : list A) d i : Permutation l l' -> (i < length l')%nat -> exists j, (j < length l)%nat /\ nth j l d = nth i l' d.
Proof.
  intros P H. assert (In (nth i l' d) l) as I by (apply (Permutation_in _ (Permutation_sym P)), nth_In, H).
  destruct (In_nth _ _ d I) as (j & Hj & E). exists j. split; assumption.
Qed.

(** points with values *)
Definition points := list (vertex * Q).
Definition pairs_of (m : list vertex) (v : vec) (L : points) : Prop := map fst L = m /\ veq (map snd L) v.
Lemma pairs_len m v L : pairs_of m v L -> length L = length m /\ length v = length m.
Proof. intros (<- & E). apply veq_len in E. rewrite map_length in *. split; [reflexivity|symmetry; exact E]. Qed.
Lemma pairs_vtx m v L i : pairs_of m v L -> vtx m i = fst (nth i L (origin, 0)).
Proof. intros (<- & _). unfold vtx. change origin with (fst (origin, 0)) at 1. apply map_nth. Qed.
Lemma pairs_at m v L i : pairs_of m v L -> at_ v i == snd (nth i L (origin, 0)).
Proof. intros (_ & E). rewrite <- (veq_at _ _ E i). unfold at_. change 0 with (snd (origin, 0)) at 1. rewrite map_nth. reflexivity. Qed.
Lemma pairs_combine m v : length v = length m -> pairs_of m v (combine m v).
Proof. intros L. split; [apply map_fst_combine; exact L|]. rewrite map_snd_combine by exact L. clear. induction v; constructor; [reflexivity|assumption]. Qed.

(** the sum over the coefficients, and the rows of the system *)
Local Notation tri := (vertex * Q * Q)%type.
Definition radial (ax : axes) (y : vertex) (T : list tri) : Q := lsum (fun t => phi (sqdiff ax y (fst (fst t))) * snd t) T.
Definition moment (ax : axes) (k : nat) (T : list tri) : Q := lsum (fun t => at_ (poly ax (fst (fst t))) k * snd t) T.
Definition polyAt (ax : axes) (y : vertex) (a : vec) (m : nat) : Q := sumn m (fun k => at_ (poly ax y) k * at_ a k).
Lemma polyAt_place ax y y' a m : same_place ax y y' -> polyAt ax y a m == polyAt ax y' a m.
Proof. intros P. apply sumn_ext. intros k _. rewrite (at_poly_place _ _ _ k P). reflexivity. Qed.
Lemma radial_place ax y y' T : same_place ax y y' -> radial ax y T == radial ax y' T.
Proof. intros P. unfold radial. induction T as [|t T IH]; cbn; [reflexivity|]. rewrite IH. rewrite (phi_ext _ _ (sqdiff_place _ _ _ _ P)). reflexivity. Qed.
Definition d0 : tri := (origin, 0, 0).
Lemma tri_nth (L : points) (x : vec) i : length x = length L -> nth i (combine L x) d0 = (nth i L (origin, 0), at_ x i).
Proof. intros E. unfold d0, at_. rewrite combine_nth by (symmetry; exact E). reflexivity. Qed.
(** value of a combination of radial functions and polynomial at a place, in the matrices of the code *)
Lemma row_value s L v (x a : vec) y : pairs_of (s_in s) v L -> length x = sizeN s ->
  sumn (sizeC s) (fun j => (if (j <? sizeN s)%nat then phi (sqdiff (s_axes s) y (vtx (s_in s) j)) else at_ (poly (s_axes s) y) (j - sizeN s)) * at_ (x ++ a) j) ==
  radial (s_axes s) y (combine L x) + polyAt (s_axes s) y a (polyparams (s_axes s) (s_poly s)).
Proof.
  intros PL Lx. destruct (pairs_len _ _ _ PL) as (LL & _). unfold sizeC. rewrite sumn_app. apply Qplus_comp.
  - unfold radial. rewrite <- (lsum_sumn _ d0). assert (length (combine L x) = sizeN s) as Lc by (rewrite combine_length, LL, Lx; apply Nat.min_id). rewrite Lc.
    apply sumn_ext. intros j Hj. rewrite (proj2 (Nat.ltb_lt _ _) Hj). rewrite tri_nth by (rewrite LL; exact Lx). cbn [fst snd]. rewrite <- (pairs_vtx _ _ _ j PL). rewrite at_app_l by lia. reflexivity.
  - unfold polyAt. apply sumn_ext. intros k Hk. rewrite (proj2 (Nat.ltb_ge (sizeN s + k) (sizeN s))) by lia. replace (sizeN s + k - sizeN s)%nat with k by lia. rewrite (at_app_k x a (sizeN s) k Lx). reflexivity.
Qed.
Lemma poly_value s L v (x a : vec) k : pairs_of (s_in s) v L -> length x = sizeN s ->
  sumn (sizeC s) (fun j => (if (j <? sizeN s)%nat then at_ (poly (s_axes s) (vtx (s_in s) j)) k else 0) * at_ (x ++ a) j) == moment (s_axes s) k (combine L x).
Proof.
  intros PL Lx. destruct (pairs_len _ _ _ PL) as (LL & _). unfold sizeC. rewrite sumn_app. rewrite (sumn_0 (polyparams _ _)).
  2: { intros j Hj. rewrite (proj2 (Nat.ltb_ge (sizeN s + j) (sizeN s))) by lia. ring. }
  rewrite Qplus_0_r. unfold moment. rewrite <- (lsum_sumn _ d0). assert (length (combine L x) = sizeN s) as Lc by (rewrite combine_length, LL, Lx; apply Nat.min_id). rewrite Lc.
  apply sumn_ext. intros j Hj. rewrite (proj2 (Nat.ltb_lt _ _) Hj). rewrite tri_nth by (rewrite LL; exact Lx). cbn [fst snd]. rewrite <- (pairs_vtx _ _ _ j PL). rewrite at_app_l by lia. reflexivity.
Qed.
Lemma split_vec (x : vec) n m : length x = (n + m)%nat -> exists a b, x = a ++ b /\ length a = n /\ length b = m.
Proof. intros L. exists (firstn n x), (skipn n x). rewrite firstn_skipn, firstn_length, skipn_length. repeat split; lia. Qed.
Lemma at_A_value s L v (x a : vec) k : pairs_of (s_in s) v L -> length x = sizeN s -> (k < length (s_out s))%nat ->
  at_ (mul (s_A phi s) (x ++ a)) k == radial (s_axes s) (vtx (s_out s) k) (combine L x) + polyAt (s_axes s) (vtx (s_out s) k) a (polyparams (s_axes s) (s_poly s)).
Proof. intros PL Lx Hk. rewrite at_mul by exact Hk. rewrite <- (row_value s L v x a _ PL Lx). apply sumn_ext. intros j Hj. rewrite (A_row s k j). reflexivity. Qed.
Lemma at_C_value s L v (x a : vec) i : pairs_of (s_in s) v L -> length x = sizeN s -> (i < sizeN s)%nat ->
  at_ (mul (s_C phi s) (x ++ a)) i == radial (s_axes s) (vtx (s_in s) i) (combine L x) + polyAt (s_axes s) (vtx (s_in s) i) a (polyparams (s_axes s) (s_poly s)).
Proof.
  intros PL Lx Hi. rewrite at_mul by (change (i < sizeC s)%nat; unfold sizeC; lia). rewrite <- (row_value s L v x a _ PL Lx). apply sumn_ext. intros j Hj.
  unfold s_C. rewrite (C_row (s_axes s) (s_poly s) (s_in s) i j Hi). reflexivity.
Qed.
Lemma at_C_moment s L v (x a : vec) k : pairs_of (s_in s) v L -> length x = sizeN s -> (k < polyparams (s_axes s) (s_poly s))%nat ->
  at_ (mul (s_C phi s) (x ++ a)) (sizeN s + k) == moment (s_axes s) k (combine L x).
Proof.
  intros PL Lx Hk. rewrite at_mul by (change (sizeN s + k < sizeC s)%nat; unfold sizeC; lia). rewrite <- (poly_value s L v x a _ PL Lx). apply sumn_ext. intros j Hj.
  unfold s_C. change (sizeN s) with (length (s_in s)). rewrite (C_poly (s_axes s) (s_poly s) (s_in s) k j). reflexivity.
Qed.

Lemma core_order s1 s2 L1 L2 v1 v2 : good_solver phi s1 -> good_solver phi s2 -> s_axes s1 = s_axes s2 -> s_poly s1 = s_poly s2 ->
  pairs_of (s_in s1) v1 L1 -> pairs_of (s_in s2) v2 L2 -> Permutation L1 L2 ->
  forall k1 k2, (k1 < length (s_out s1))%nat -> (k2 < length (s_out s2))%nat -> same_place (s_axes s1) (vtx (s_out s1) k1) (vtx (s_out s2) k2) ->
  at_ (mul (s_A phi s1) (s_solveC s1 (v1 ++ repeat 0 (polyparams (s_axes s1) (s_poly s1))))) k1 ==
  at_ (mul (s_A phi s2) (s_solveC s2 (v2 ++ repeat 0 (polyparams (s_axes s2) (s_poly s2))))) k2.
Proof.
  intros G1 G2 EA EP P1 P2 P k1 k2 H1 H2 SP. destruct (pairs_len _ _ _ P1) as (LL1 & Lv1). destruct (pairs_len _ _ _ P2) as (LL2 & Lv2).
  assert (sizeN s1 = sizeN s2) as EN. { unfold sizeN. rewrite <- LL1, <- LL2. apply Permutation_length. exact P. }
  set (q := polyparams (s_axes s1) (s_poly s1)). assert (polyparams (s_axes s2) (s_poly s2) = q) as Eq by (unfold q; congruence). rewrite Eq.
  set (b1 := v1 ++ repeat 0 q). set (b2 := v2 ++ repeat 0 q).
  assert (length b1 = sizeC s1) as Lb1 by (unfold b1, sizeC; rewrite app_length, repeat_length; fold q; unfold sizeN; lia).
  assert (length b2 = sizeC s2) as Lb2 by (unfold b2, sizeC; rewrite app_length, repeat_length, Eq; unfold sizeN; lia).
  destruct (solveC_ok s1 G1 b1 Lb1) as (Lp1 & B1). destruct (solveC_ok s2 G2 b2 Lb2) as (Lp2 & B2).
  destruct (split_vec (s_solveC s1 b1) (sizeN s1) q Lp1) as (x & a & Ex & Lx & La).
  rewrite Ex in *. set (T1 := combine L1 x). assert (map fst T1 = L1) as F1 by (unfold T1; apply map_fst_combine; rewrite Lx, LL1; reflexivity).
  destruct (Permutation_map_inv fst T1 (l1:=L2)) as (T2 & F2 & PT); [rewrite F1; apply Permutation_sym; exact P|].
  set (x2 := map snd T2). assert (length T2 = sizeN s2) as LT2 by (rewrite <- (map_length fst T2), <- F2, LL2; reflexivity).
  assert (length x2 = sizeN s2) as Lx2 by (unfold x2; rewrite map_length; exact LT2).
  assert (combine L2 x2 = T2) as ET2. { unfold x2. rewrite F2. clear. induction T2 as [|[u w] T IH]; cbn; [reflexivity|]. rewrite IH. reflexivity. }
  assert (forall y, radial (s_axes s1) y T1 == radial (s_axes s2) y T2) as RT by (intros y; rewrite EA; apply lsum_perm; exact PT).
  assert (forall j, at_ (s_solveC s2 b2) j == at_ (x2 ++ a) j) as U.
  { apply (C_inj s2 G2); [exact Lp2|rewrite app_length, Lx2, La; unfold sizeC; rewrite Eq; reflexivity|]. intros i Hi. rewrite B2.
    destruct (Nat.lt_ge_cases i (sizeN s2)) as [Hi'|Hi'].
    - rewrite (at_C_value s2 L2 v2 x2 a i P2 Lx2 Hi'). rewrite ET2, <- RT, Eq.
      destruct (nth_in_perm T1 T2 d0 i PT) as (j & Hj & En); [rewrite LT2; exact Hi'|].
      assert (j < sizeN s1)%nat as Hj' by (unfold T1 in Hj; rewrite combine_length, LL1, Lx in Hj; unfold sizeN in *; lia).
      assert (nth j L1 (origin, 0) = nth i L2 (origin, 0)) as EL.
      { rewrite F2, <- F1. change (origin, 0) with (fst d0). rewrite !map_nth, En. reflexivity. }
      assert (vtx (s_in s2) i = vtx (s_in s1) j) as EV by (rewrite (pairs_vtx _ _ _ i P2), (pairs_vtx _ _ _ j P1), EL; reflexivity).
      rewrite EV, <- EA. unfold T1. unfold q. rewrite <- (at_C_value s1 L1 v1 x a j P1 Lx Hj'). rewrite B1. unfold b1, b2.
      rewrite !at_app_l by (rewrite ?Lv1, ?Lv2; assumption). rewrite (pairs_at _ _ _ i P2), (pairs_at _ _ _ j P1), EL. reflexivity.
    - set (k := (i - sizeN s2)%nat). assert (k < q)%nat as Hk by (unfold sizeC in Hi; rewrite Eq in Hi; unfold k; lia).
      replace i with (sizeN s2 + k)%nat by (unfold k; lia). rewrite (at_C_moment s2 L2 v2 x2 a k P2 Lx2) by (rewrite Eq; exact Hk). rewrite ET2.
      transitivity (moment (s_axes s1) k T1); [|rewrite EA; apply lsum_perm; exact PT]. unfold T1. rewrite <- (at_C_moment s1 L1 v1 x a k P1 Lx Hk). rewrite B1.
      unfold b1, b2. rewrite (at_app_k v1 _ (sizeN s1) k Lv1), (at_app_k v2 _ (sizeN s2) k Lv2), at_repeat. reflexivity. }
  rewrite (mul_ext (s_A phi s2) _ _ (fun j _ => U j)). rewrite (at_A_value s2 L2 v2 x2 a k2 P2 Lx2 H2). rewrite (at_A_value s1 L1 v1 x a k1 P1 Lx H1).
  rewrite ET2, Eq. fold q. apply Qplus_comp.
  - rewrite <- RT. apply radial_place. exact SP.
  - rewrite <- EA. apply polyAt_place. exact SP.
Qed.

(** normal equations as sums over points *)
Lemma normal_left s L v c k : pairs_of (s_in s) v L -> (k < S (length (s_local s)))%nat -> length c = S (length (s_local s)) ->
  at_ (mul (transpose (s_Q s)) (mul (s_Q s) c)) k == lsum (fun p => at_ (poly (s_local s) (fst p)) k * polyAt (s_local s) (fst p) c (S (length (s_local s)))) L.
Proof.
  intros PL Hk Lc. destruct (pairs_len _ _ _ PL) as (LL & _). rewrite at_mul by exact Hk. rewrite <- (lsum_sumn _ (origin, 0)). rewrite LL.
  apply sumn_ext. intros i Hi. cbn [transpose s_Q matrixP m_at]. rewrite (at_P_poly (s_in s) (s_local s) c i Hi). rewrite (pairs_vtx _ _ _ i PL). reflexivity.
Qed.
Lemma normal_right s L v k : pairs_of (s_in s) v L -> (k < S (length (s_local s)))%nat ->
  at_ (mul (transpose (s_Q s)) v) k == lsum (fun p => at_ (poly (s_local s) (fst p)) k * snd p) L.
Proof.
  intros PL Hk. destruct (pairs_len _ _ _ PL) as (LL & _). rewrite at_mul by exact Hk. rewrite <- (lsum_sumn _ (origin, 0)). rewrite LL.
  apply sumn_ext. intros i Hi. cbn [transpose s_Q matrixP m_at]. rewrite (pairs_vtx _ _ _ i PL), (pairs_at _ _ _ i PL). reflexivity.
Qed.
Lemma normal_unique s c c' : good_solver phi s -> s_poly s = SEPARATE -> length c = S (length (s_local s)) -> length c' = S (length (s_local s)) ->
  (forall k, (k < S (length (s_local s)))%nat -> at_ (mul (transpose (s_Q s)) (mul (s_Q s) c)) k == at_ (mul (transpose (s_Q s)) (mul (s_Q s) c')) k) ->
  forall k, at_ c k == at_ c' k.
Proof.
  intros G E Lc Lc' H. apply (Q_inj s G); try assumption.
  set (w := vsub c c'). assert (sumn (sizeN s) (fun i => at_ (mul (s_Q s) w) i * at_ (mul (s_Q s) w) i) == 0) as Z.
  { change (sizeN s) with (m_rows (s_Q s)). rewrite adjoint. apply sumn_0. intros j Hj. setoid_replace (at_ (mul (transpose (s_Q s)) (mul (s_Q s) w)) j) with 0; [ring|].
    rewrite (mul_ext (transpose (s_Q s)) (mul (s_Q s) w) (vsub (mul (s_Q s) c) (mul (s_Q s) c'))).
    - rewrite mul_sub by (rewrite !mul_length; reflexivity). rewrite H by exact Hj. ring.
    - intros i Hi. unfold w. rewrite mul_sub by congruence. rewrite at_vsub by (rewrite !mul_length; reflexivity). reflexivity. }
  intros i Hi. pose proof (sumn_sq _ _ Z i Hi) as E0. unfold w in E0. rewrite mul_sub in E0 by congruence.
  rewrite <- (Qplus_0_r (at_ (mul (s_Q s) c') i)), <- E0. ring.
Qed.
Lemma consistent_order s1 s2 L1 L2 v1 v2 : good_solver phi s1 -> good_solver phi s2 -> s_axes s1 = s_axes s2 -> s_poly s1 = s_poly s2 -> s_local s1 = s_local s2 ->
  pairs_of (s_in s1) v1 L1 -> pairs_of (s_in s2) v2 L2 -> Permutation L1 L2 ->
  forall k1 k2, (k1 < length (s_out s1))%nat -> (k2 < length (s_out s2))%nat -> same_place (s_axes s1) (vtx (s_out s1) k1) (vtx (s_out s2) k2) ->
  at_ (mapConsistent phi s1 v1) k1 == at_ (mapConsistent phi s2 v2) k2.
Proof.
  intros G1 G2 EA EP EL P1 P2 P k1 k2 H1 H2 SP. pose proof (core_order s1 s2) as Core. destruct (pairs_len _ _ _ P1) as (LL1 & Lv1). destruct (pairs_len _ _ _ P2) as (LL2 & Lv2).
  unfold mapConsistent, solveConsistent. rewrite <- EP. destruct (s_poly s1) eqn:E.
  1,2: specialize (Core L1 L2 v1 v2 G1 G2 EA (eq_trans eq_refl EP) P1 P2 P k1 k2 H1 H2 SP); rewrite <- EP in Core; exact Core.
  cbn [polyparams isOn repeat]. rewrite !app_nil_r.
  destruct (lsq_ok s1 G1 v1 E Lv1) as (Lc1 & N1). destruct (lsq_ok s2 G2 v2 (eq_sym EP) Lv2) as (Lc2 & N2).
  set (c1 := s_lsq s1 v1) in *. set (c2 := s_lsq s2 v2) in *.
  assert (forall k, at_ c2 k == at_ c1 k) as Ec.
  { apply (normal_unique s2); [exact G2|exact (eq_sym EP)|exact Lc2|rewrite <- EL; exact Lc1|]. intros k Hk. rewrite N2. rewrite (normal_right s2 L2 v2 k P2 Hk).
    rewrite (normal_left s2 L2 v2 c1 k P2 Hk) by (rewrite <- EL; exact Lc1). rewrite <- (lsum_perm _ _ _ P). rewrite <- (lsum_perm _ _ _ P).
    rewrite <- EL in *. rewrite <- (normal_right s1 L1 v1 k P1 Hk), <- (normal_left s1 L1 v1 c1 k P1 Hk Lc1). symmetry. apply N1. }
  set (r1 := vsub v1 (mul (s_Q s1) c1)). set (r2 := vsub v2 (mul (s_Q s2) c2)).
  set (g := fun p : vertex * Q => (fst p, snd p - polyAt (s_local s1) (fst p) c1 (S (length (s_local s1))))).
  assert (pairs_of (s_in s1) r1 (map g L1)) as R1.
  { split; [rewrite map_map; cbn; apply P1|]. apply at_veq; [unfold r1; rewrite vsub_length by (rewrite mul_length; exact Lv1); rewrite !map_length; congruence|].
    intros i Hi. rewrite !map_length in Hi. rewrite map_map. unfold at_ at 1. erewrite nth_indep by (rewrite map_length; exact Hi). rewrite (map_nth (fun p => snd (g p)) L1 (origin, 0)). cbn [g snd].
    unfold r1. rewrite at_vsub by (rewrite mul_length; exact Lv1). rewrite LL1 in Hi. unfold s_Q. rewrite (at_P_poly (s_in s1) (s_local s1) c1 i Hi).
    rewrite (pairs_at _ _ _ i P1), (pairs_vtx _ _ _ i P1). reflexivity. }
  assert (pairs_of (s_in s2) r2 (map g L2)) as R2.
  { split; [rewrite map_map; cbn; apply P2|]. apply at_veq; [unfold r2; rewrite vsub_length by (rewrite mul_length; exact Lv2); rewrite !map_length; congruence|].
    intros i Hi. rewrite !map_length in Hi. rewrite map_map. unfold at_ at 1. erewrite nth_indep by (rewrite map_length; exact Hi). rewrite (map_nth (fun p => snd (g p)) L2 (origin, 0)). cbn [g snd].
    unfold r2. rewrite at_vsub by (rewrite mul_length; exact Lv2). rewrite LL2 in Hi. rewrite (mul_ext (s_Q s2) c2 c1) by (intros j _; apply Ec). unfold s_Q. rewrite (at_P_poly (s_in s2) (s_local s2) c1 i Hi).
    rewrite (pairs_at _ _ _ i P2), (pairs_vtx _ _ _ i P2), EL. reflexivity. }
  specialize (Core (map g L1) (map g L2) r1 r2 G1 G2 EA (eq_trans eq_refl EP) R1 R2 (Permutation_map g P) k1 k2 H1 H2 SP).
  rewrite <- EP in Core. rewrite ?E in Core. cbn [polyparams isOn repeat] in Core. rewrite !app_nil_r in Core.
  rewrite !at_vadd by (rewrite !mul_length; reflexivity). rewrite Core. apply Qplus_comp; [reflexivity|].
  rewrite (mul_ext (s_V s2) c2 c1) by (intros j _; apply Ec). unfold s_V. rewrite !at_P_poly by assumption. rewrite EL. apply sumn_ext. intros j Hj.
  rewrite (at_poly_place (s_local s2) (vtx (s_out s1) k1) (vtx (s_out s2) k2) j); [reflexivity|]. intros d Hd. apply SP. destruct G1 as (_ & _ & G1 & _). apply G1. rewrite EL. exact Hd.
Qed.
(** every weighted sum of the values of a conservative mapping *)
Lemma conservative_order s1 s2 L1 L2 w1 w2 U1 U2 u1 u2 : good_solver phi s1 -> good_solver phi s2 -> s_axes s1 = s_axes s2 -> s_poly s1 = s_poly s2 -> s_local s1 = s_local s2 ->
  pairs_of (s_in s1) w1 L1 -> pairs_of (s_in s2) w2 L2 -> Permutation L1 L2 ->
  pairs_of (s_out s1) u1 U1 -> pairs_of (s_out s2) u2 U2 -> Permutation U1 U2 ->
  sumn (sizeN s1) (fun i => at_ w1 i * at_ (mapConservative phi s1 u1) i) == sumn (sizeN s2) (fun i => at_ w2 i * at_ (mapConservative phi s2 u2) i).
Proof.
  intros G1 G2 EA EP EL P1 P2 P Q1 Q2 PU. destruct (pairs_len _ _ _ P1) as (LL1 & Lw1). destruct (pairs_len _ _ _ P2) as (LL2 & Lw2).
  destruct (pairs_len _ _ _ Q1) as (LU1 & Lu1). destruct (pairs_len _ _ _ Q2) as (LU2 & Lu2).
  rewrite (transposed s1 G1 w1 u1 Lw1 Lu1), (transposed s2 G2 w2 u2 Lw2 Lu2).
  set (y1 := mapConsistent phi s1 w1). set (y2 := mapConsistent phi s2 w2).
  assert (length (s_out s1) = length (s_out s2)) as EO by (rewrite <- LU1, <- LU2; apply Permutation_length; exact PU).
  set (z1 := map (at_ y1) (seq 0 (length (s_out s1)))). assert (length z1 = length U1) as Lz1 by (unfold z1; rewrite map_length, seq_length; congruence).
  set (T1 := combine U1 z1). assert (map fst T1 = U1) as F1 by (apply map_fst_combine; exact Lz1).
  destruct (Permutation_map_inv fst T1 (l1:=U2)) as (T2 & F2 & PT); [rewrite F1; apply Permutation_sym; exact PU|].
  assert (length T2 = length (s_out s2)) as LT2 by (rewrite <- (map_length fst T2), <- F2; exact LU2).
  assert (length T1 = length (s_out s1)) as LT1 by (rewrite <- (map_length fst T1), F1; exact LU1).
  transitivity (lsum (fun t : tri => snd t * snd (fst t)) T1).
  { rewrite <- (lsum_sumn _ d0). rewrite LT1. apply sumn_ext. intros j Hj. unfold T1. rewrite tri_nth by exact Lz1. cbn [fst snd]. rewrite <- (pairs_at _ _ _ j Q1).
    unfold z1. rewrite at_map. rewrite (proj2 (Nat.ltb_lt _ _) Hj). reflexivity. }
  rewrite (lsum_perm _ _ _ PT). rewrite <- (lsum_sumn _ d0). rewrite LT2. apply sumn_ext. intros i Hi.
  destruct (nth_in_perm T1 T2 d0 i PT) as (j & Hj & En); [rewrite LT2; exact Hi|]. rewrite LT1 in Hj.
  assert (nth j U1 (origin, 0) = nth i U2 (origin, 0)) as EU by (rewrite F2, <- F1; change (origin, 0) with (fst d0); rewrite !map_nth, En; reflexivity).
  rewrite <- En. unfold T1. rewrite tri_nth by exact Lz1. cbn [fst snd]. rewrite EU. rewrite <- (pairs_at _ _ _ i Q2).
  unfold z1. rewrite at_map. rewrite (proj2 (Nat.ltb_lt _ _) Hj). apply Qmult_comp; [|reflexivity].
  apply (consistent_order s1 s2 L1 L2); try assumption. rewrite (pairs_vtx _ _ _ j Q1), (pairs_vtx _ _ _ i Q2), EU. intros d _. reflexivity.
Qed.
End Rbf.
