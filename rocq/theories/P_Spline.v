(** The interpolating spline: degree 1 is linear interpolation; every degree
    reproduces constants. *)
From Coq Require Import ZArith QArith Qfield Bool List Lia Arith Lqa.
From Verif Require Import M_Time M_Wave M_WaveCache S_Wave P_Wave.
Import ListNotations.
Open Scope nat_scope.

Lemma Qltb_lt a b : Qltb a b = true <-> (a < b)%Q.
Proof.
  unfold Qltb. rewrite negb_true_iff. split; intros H.
  - destruct (Qlt_le_dec a b) as [L|L]; [exact L|]. apply Qle_bool_iff in L. congruence.
  - destruct (Qle_bool b a) eqn:E; [|reflexivity]. apply Qle_bool_iff in E. exfalso. eapply Qlt_not_le; eassumption.
Qed.
Lemma Qltb_ge a b : Qltb a b = false <-> (b <= a)%Q.
Proof.
  unfold Qltb. rewrite negb_false_iff. apply Qle_bool_iff.
Qed.

Lemma upperBound_at U u m : forall n i, i <= m <= i + n -> (forall j, i <= j < m -> (qat U j <= u)%Q) ->
  (m = i + n \/ (u < qat U m)%Q) -> upperBound U u i n = m.
Proof.
  induction n as [|n IH]; intros i Hm Lo Hi; cbn [upperBound]; [lia|].
  destruct (Nat.eq_dec i m) as [->|N].
  - destruct Hi as [Hi|Hi]; [lia|]. apply Qltb_lt in Hi. rewrite Hi. reflexivity.
  - assert (Qltb u (qat U i) = false) as -> by (apply Qltb_ge, Lo; lia).
    apply IH; [lia|intros j Hj; apply Lo; lia|]. destruct Hi as [Hi|Hi]; [left; lia|right; exact Hi].
Qed.

Lemma repeat_qat x n i : i < n -> qat (repeat x n) i = x.
Proof. revert i. induction n as [|n IH]; intros [|i] H; cbn; try lia; [reflexivity|apply IH; lia]. Qed.
Lemma qat_app1 a b i : i < length a -> qat (a ++ b) i = qat a i.
Proof. intros H. apply app_nth1, H. Qed.
Lemma qat_app2 a b i : length a <= i -> qat (a ++ b) i = qat b (i - length a).
Proof. intros H. apply app_nth2, H. Qed.
Lemma knot_length ts d : d + 1 <= length ts -> length (knotAveraging ts d) = length ts + d + 1.
Proof. intros H. unfold knotAveraging. rewrite !app_length, !repeat_length, map_length, seq_length. lia. Qed.
Lemma qat_map_seq (g : nat -> Q) s n i : i < n -> qat (map g (seq s n)) i = g (s + i).
Proof.
  revert s i. induction n as [|n IH]; intros s i H; [lia|]. destruct i as [|i]; cbn.
  - rewrite Nat.add_0_r. reflexivity.
  - etransitivity; [apply (IH (S s) i); lia|]. f_equal. lia.
Qed.
Lemma knot_low ts d i : i < d + 1 -> qat (knotAveraging ts d) i = 0%Q.
Proof. intros H. unfold knotAveraging. rewrite qat_app1; [apply repeat_qat, H|rewrite repeat_length; exact H]. Qed.
Lemma knot_mid ts d i : d + 1 <= i -> i < length ts -> qat (knotAveraging ts d) i = mean (segment ts (i - d) d).
Proof.
  intros H1 H2. unfold knotAveraging. rewrite qat_app2, repeat_length; [|rewrite repeat_length; exact H1].
  rewrite qat_app1; [|rewrite map_length, seq_length; lia]. rewrite qat_map_seq; [|lia]. f_equal. f_equal. lia.
Qed.
Lemma knot_high ts d i : d + 1 <= length ts -> length ts <= i -> i < length ts + d + 1 -> qat (knotAveraging ts d) i = 1%Q.
Proof.
  intros H0 H1 H2. unfold knotAveraging. rewrite qat_app2, repeat_length; [|rewrite repeat_length; lia].
  rewrite qat_app2; rewrite map_length, seq_length; [|lia]. apply repeat_qat. lia.
Qed.
Lemma segment_one (l : list Q) i : i < length l -> segment l i 1 = [qat l i].
Proof.
  unfold segment, qat. revert i. induction l as [|a l IH]; intros i H; cbn in H; [lia|].
  destruct i as [|i]; [reflexivity|]. cbn [skipn nth]. apply IH. lia.
Qed.
Lemma segment_cons (l : list Q) i n : i < length l -> segment l i (S n) = qat l i :: segment l (S i) n.
Proof.
  unfold segment, qat. revert i. induction l as [|a l IH]; intros i H; cbn in H; [lia|].
  destruct i as [|i]; [reflexivity|]. cbn [skipn nth]. apply IH. lia.
Qed.

(** strictly increasing parameters from 0 to 1 *)
Record params (ts : list Q) : Prop := {
  pm_two : 2 <= length ts;
  pm_inc : forall i j, i < j -> j < length ts -> (qat ts i < qat ts j)%Q;
  pm_first : (qat ts 0 == 0)%Q;
  pm_last : (qat ts (length ts - 1) == 1)%Q
}.

(** ** Partition of unity *)
Lemma qsum_inner L R j : forall N r saved,
  (forall r', r <= r' < r + length N -> ~ (R (r' + 1)%nat + L (j - r')%nat == 0)%Q) ->
  (qsum (basisInner L R j r N saved) == saved + qsum N)%Q.
Proof.
  induction N as [|x N IH]; intros r saved H; cbn [basisInner qsum fold_right]; [reflexivity|].
  fold (qsum (basisInner L R j (S r) N (L (j - r)%nat * (x / (R (r + 1)%nat + L (j - r)%nat)))%Q)).
  rewrite IH; [|intros r' Hr; apply H; cbn [length]; lia]. fold (qsum N).
  specialize (H r ltac:(cbn [length]; lia)). field. exact H.
Qed.
Lemma inner_length L R j : forall N r saved, length (basisInner L R j r N saved) = S (length N).
Proof. induction N as [|x N IH]; intros r saved; cbn; [reflexivity|]. f_equal. apply IH. Qed.
Lemma basis_length u U i d : length (basisUpTo u U i d) = S d.
Proof. induction d as [|d IH]; [reflexivity|]. cbn [basisUpTo]. rewrite inner_length, IH. reflexivity. Qed.
Lemma basis_unity u U i d : d <= i ->
  (forall a b, i < a + d + 1 -> a <= i -> i < b -> b <= i + d -> (qat U a < qat U b)%Q) ->
  (qsum (basisUpTo u U i d) == 1)%Q.
Proof.
  intros Hd Inc. assert (G : forall j, j <= d -> (qsum (basisUpTo u U i j) == 1)%Q); [|apply G; lia].
  induction j as [|j IH]; intros Hj; [reflexivity|]. cbn [basisUpTo]. rewrite qsum_inner, IH; [ring|lia|].
  rewrite basis_length. intros r Hr E.
  specialize (Inc (i + 1 - (S j - r)) (i + (r + 1)) ltac:(lia) ltac:(lia) ltac:(lia) ltac:(lia)).
  lra.
Qed.

Section Knots.
Variable ts : list Q.
Hypothesis P : params ts.
Variable d : nat.
Hypothesis D1 : 1 <= d.
Hypothesis D2 : d < length ts.
Notation n := (length ts).
Notation U := (knotAveraging ts d).

Fixpoint fs (g : nat -> Q) (i m : nat) : Q := match m with O => 0%Q | S m' => (g i + fs g (S i) m')%Q end.
Lemma fs_segment (l : list Q) : forall m i, i + m <= length l -> qsum (segment l i m) = fs (qat l) i m.
Proof.
  induction m as [|m IH]; intros i H; [reflexivity|]. rewrite segment_cons by lia. cbn [qsum fold_right fs]. f_equal. apply IH. lia.
Qed.
Lemma nonneg_at i : i < n -> (0 <= qat ts i)%Q.
Proof.
  clear D1 D2. intros H. destruct i as [|i]; [rewrite (pm_first _ P); apply Qle_refl|].
  rewrite <- (pm_first _ P). apply Qlt_le_weak, (pm_inc _ P); lia.
Qed.
Lemma fs_lt g h : forall m i j, 1 <= m -> (forall k, k < m -> (g (i + k)%nat < h (j + k)%nat)%Q) -> (fs g i m < fs h j m)%Q.
Proof.
  induction m as [|m IH]; intros i j Hm H; [lia|]. cbn [fs]. pose proof (H 0 ltac:(lia)) as H0. rewrite !Nat.add_0_r in H0.
  destruct m as [|m]; [cbn [fs]; lra|]. specialize (IH (S i) (S j) ltac:(lia)).
  assert (fs g (S i) (S m) < fs h (S j) (S m))%Q; [|lra]. apply IH. intros k Hk. specialize (H (S k) ltac:(lia)).
  replace (S i + k) with (i + S k) by lia. replace (S j + k) with (j + S k) by lia. exact H.
Qed.
Lemma fs_const c m i : (fs (fun _ => c) i m == inject_Z (Z.of_nat m) * c)%Q.
Proof.
  revert i. induction m as [|m IH]; intros i; [cbn; unfold inject_Z; ring|]. cbn [fs]. rewrite IH, Nat2Z.inj_succ, <- Z.add_1_l, inject_Z_plus.
  unfold inject_Z at 2. ring.
Qed.
Lemma segment_length {A} (l : list A) i m : i + m <= length l -> length (segment l i m) = m.
Proof. intros H. unfold segment. rewrite firstn_length, skipn_length. lia. Qed.
Lemma dpos : (0 < inject_Z (Z.of_nat d))%Q.
Proof. unfold inject_Z, Qlt. cbn. lia. Qed.
Lemma mean_fs i : i + d <= n -> (mean (segment ts i d) * inject_Z (Z.of_nat d) == fs (qat ts) i d)%Q.
Proof.
  intros H. unfold mean. rewrite segment_length, fs_segment by lia. pose proof dpos. field. lra.
Qed.
Lemma Qmult_lt_r_inv a b c : (0 < c)%Q -> (a * c < b * c)%Q -> (a < b)%Q.
Proof. intros H. apply Qmult_lt_r, H. Qed.

Lemma knot_step i : d <= i < n -> (qat U i < qat U (S i))%Q.
Proof.
  intros H. pose proof dpos as Dp. apply (Qmult_lt_r_inv _ _ _ Dp).
  assert (A : (qat U i * inject_Z (Z.of_nat d) == if i =? d then 0 else fs (qat ts) (i - d) d)%Q).
  { destruct (Nat.eqb_spec i d) as [E|N]; [rewrite knot_low by lia; ring|]. rewrite knot_mid by lia. apply mean_fs. lia. }
  assert (B : (qat U (S i) * inject_Z (Z.of_nat d) == if S i =? n then inject_Z (Z.of_nat d) else fs (qat ts) (S i - d) d)%Q).
  { destruct (Nat.eqb_spec (S i) n) as [E|N]; [rewrite knot_high by lia; ring|]. rewrite knot_mid by lia. apply mean_fs. lia. }
  rewrite A, B. destruct (Nat.eqb_spec i d) as [E1|N1]; destruct (Nat.eqb_spec (S i) n) as [E|N2].
  - exact Dp.
  - assert (Z0 : (fs (fun _ => 0) 0 d == 0)%Q) by (rewrite fs_const; ring). rewrite <- Z0. apply fs_lt; [exact D1|]. intros k Hk.
    rewrite <- (pm_first _ P). apply (pm_inc _ P); lia.
  - assert (Z1 : (fs (fun _ => 1) 0 d == inject_Z (Z.of_nat d))%Q) by (rewrite fs_const; ring). rewrite <- Z1. apply fs_lt; [exact D1|]. intros k Hk.
    rewrite <- (pm_last _ P). apply (pm_inc _ P); lia.
  - apply fs_lt; [exact D1|]. intros k Hk. apply (pm_inc _ P); lia.
Qed.
Lemma knot_mono a b : a <= b -> b < n + d + 1 -> (qat U a <= qat U b)%Q.
Proof.
  intros H. induction H as [|b H IH]; intros L; [apply Qle_refl|]. eapply Qle_trans; [apply IH; lia|].
  destruct (le_lt_dec d b) as [L1|L1]; [destruct (le_lt_dec n b) as [L2|L2]|].
  - rewrite !knot_high by lia. apply Qle_refl.
  - apply Qlt_le_weak, knot_step. lia.
  - rewrite !knot_low by lia. apply Qle_refl.
Qed.
Lemma span_range u : (0 <= u)%Q -> d <= span u d U < n.
Proof.
  intros Hu. unfold span. rewrite knot_low by lia. destruct (Qle_bool u 0); [lia|].
  rewrite knot_length by lia. replace (n + d + 1 - d - 1 - (d - 1)) with (n - (d - 1)) by lia.
  assert (G : forall m i, upperBound U u i m <= i + m).
  { induction m as [|m IH]; intros i; cbn [upperBound]; [lia|]. destruct (Qltb u (qat U i)); [lia|]. specialize (IH (S i)). lia. }
  pose proof (G (n - (d - 1)) (d - 1)) as G1.
  assert (d + 1 <= upperBound U u (d - 1) (n - (d - 1))); [|lia].
  replace (n - (d - 1)) with (S (S (n - d - 1))) by lia. cbn [upperBound].
  assert (Q1 : Qltb u (qat U (d - 1)) = false) by (apply Qltb_ge; rewrite knot_low by lia; exact Hu).
  assert (Q2 : Qltb u (qat U (S (d - 1))) = false) by (apply Qltb_ge; rewrite knot_low by lia; exact Hu).
  rewrite Q1, Q2. assert (G2 : forall m i, i <= upperBound U u i m).
  { induction m as [|m IH]; intros i; cbn [upperBound]; [lia|]. destruct (Qltb u (qat U i)); [lia|]. specialize (IH (S i)). lia. }
  specialize (G2 (n - d - 1) (S (S (d - 1)))). lia.
Qed.
Lemma unity u : (0 <= u)%Q -> (qsum (basis u d U) == 1)%Q.
Proof.
  intros Hu. pose proof (span_range u Hu) as S. unfold basis. apply basis_unity; [lia|]. intros a b H1 H2 H3 H4.
  eapply Qle_lt_trans; [apply (knot_mono a (span u d U)); lia|]. eapply Qlt_le_trans; [apply knot_step; lia|]. apply knot_mono; lia.
Qed.

Lemma dot_const c : forall a b, length a = length b -> (forall i, i < length b -> (qat b i == c)%Q) -> (dot a b == c * qsum a)%Q.
Proof.
  induction a as [|x a IH]; intros [|y b] L H; try discriminate L; cbn [dot qsum fold_right]; [ring|].
  fold (qsum a). rewrite (IH b); [|injection L as L; exact L|intros i Hi; apply (H (S i)); cbn; lia].
  pose proof (H 0 ltac:(cbn; lia)) as H0. cbn in H0. rewrite H0. ring.
Qed.
Lemma qat_segment (l : list Q) i m k : k < m -> i + m <= length l -> qat (segment l i m) k = qat l (i + k).
Proof.
  revert i k. induction m as [|m IH]; intros i k Hk L; [lia|]. rewrite segment_cons by lia. destruct k as [|k]; cbn.
  - f_equal. lia.
  - etransitivity; [apply (IH (S i) k); lia|]. f_equal. lia.
Qed.
Lemma eval_const ctrls c u : (0 <= u)%Q -> length ctrls = n -> (forall i, i < n -> (qat ctrls i == c)%Q) ->
  (splineEval U ctrls u == c)%Q.
Proof.
  intros Hu L H. unfold splineEval. rewrite knot_length, L by lia. replace (n + d + 1 - n - 1) with d by lia.
  pose proof (span_range u Hu) as S. rewrite (dot_const c).
  - rewrite unity by exact Hu. ring.
  - rewrite segment_length by lia. unfold basis. rewrite basis_length. lia.
  - rewrite segment_length by lia. intros i Hi. rewrite qat_segment by lia. apply H. lia.
Qed.

(** constants solve the collocation system for constants *)
Lemma rowDot_combine c cs : forall N s, (forall i, i < length N -> (qat cs (s + i)%nat == c)%Q) ->
  (rowDot (combine (seq s (length N)) N) cs == c * qsum N)%Q.
Proof.
  induction N as [|x N IH]; intros s H; [cbn; ring|]. cbn [length seq combine]. unfold rowDot in *. cbn [map qsum fold_right fst snd].
  fold (qsum (map (fun e => (snd e * qat cs (fst e))%Q) (combine (seq (S s) (length N)) N))).
  rewrite (IH (S s)); [|intros i Hi; specialize (H (S i) ltac:(cbn; lia)); replace (S s + i) with (s + S i) by lia; exact H].
  fold (qsum N). pose proof (H 0 ltac:(cbn; lia)) as H0. rewrite Nat.add_0_r in H0. rewrite H0. ring.
Qed.
Lemma const_solves c b : length b = n -> (forall i, i < n -> (qat b i == c)%Q) ->
  solves (collocation ts d U) (repeat c n) b.
Proof.
  intros L H. split; [rewrite repeat_length; auto|]. unfold collocation.
  assert (G : forall m s bs, length bs = m -> s + m = n -> (forall i, i < m -> (qat bs i == c)%Q) ->
    Forall2 (fun r y => (rowDot r (repeat c n) == y)%Q) (map (collocationRow ts d U) (seq s m)) bs).
  { induction m as [|m IH]; intros s [|y bs] Lb Hs Hb; try discriminate Lb; [constructor|]. cbn [seq map]. constructor.
    - pose proof (Hb 0 ltac:(lia)) as H0. cbn in H0. rewrite H0. unfold collocationRow.
      destruct ((s =? 0) || (s =? n - 1)) eqn:E.
      + unfold rowDot. cbn [map qsum fold_right fst snd]. rewrite repeat_qat by lia. ring.
      + apply orb_false_iff in E as (E1 & E2). apply Nat.eqb_neq in E1, E2.
        pose proof (nonneg_at s ltac:(lia)) as Hu. pose proof (span_range _ Hu) as Sp.
        assert (Lb' : length (basis (qat ts s) d U) = d + 1) by (unfold basis; rewrite basis_length; lia). rewrite <- Lb' at 1.
        rewrite (rowDot_combine c).
        * rewrite unity by exact Hu. ring.
        * intros i Hi. rewrite repeat_qat; [reflexivity|]. lia.
    - apply IH; [injection Lb; auto|lia|]. intros i Hi. apply (Hb (S i)). lia. }
  apply (G n 0 b); auto.
Qed.
End Knots.

(** ** Degree 1 *)
Section Linear.
Variable ts : list Q.
Hypothesis P : params ts.
Notation n := (length ts).
Notation U := (knotAveraging ts 1).
Let two := pm_two _ P.

Lemma knot1 i : i < n -> (qat U (S i) == qat ts i)%Q.
Proof.
  intros H. destruct i as [|i]; [rewrite knot_low by lia; symmetry; apply (pm_first _ P)|].
  destruct (Nat.eq_dec (S (S i)) n) as [E|N].
  - rewrite knot_high by lia. rewrite <- (pm_last _ P). replace (n - 1) with (S i) by lia. reflexivity.
  - rewrite knot_mid by lia. replace (S (S i) - 1) with (S i) by lia. rewrite segment_one by lia.
    unfold mean. cbn [qsum fold_right length Z.of_nat Pos.of_succ_nat]. field.
Qed.
Lemma ts_mono i j : i <= j -> j < n -> (qat ts i <= qat ts j)%Q.
Proof. intros H L. destruct (Nat.eq_dec i j) as [->|N]; [apply Qle_refl|]. apply Qlt_le_weak, (pm_inc _ P); lia. Qed.
Lemma span1 k u : S k < n -> (qat ts k <= u)%Q -> (u < qat ts (S k))%Q -> span u 1 U = S k.
Proof.
  intros Hk L1 L2. unfold span. rewrite knot_low by lia. destruct (Qle_bool u 0) eqn:E.
  - apply Qle_bool_iff in E. destruct k as [|k]; [reflexivity|].
    pose proof (pm_inc _ P 0 (S k) ltac:(lia) ltac:(lia)) as I. rewrite (pm_first _ P) in I. lra.
  - rewrite knot_length by lia. replace (n + 1 + 1 - 1 - 1 - (1 - 1)) with n by lia. cbn [Nat.sub].
    rewrite (upperBound_at U u (S (S k))); [lia|lia| |].
    + intros j Hj. destruct j as [|j]; [rewrite knot_low by lia; eapply Qle_trans; [|exact L1]; apply (nonneg_at _ P); lia|].
      rewrite knot1 by lia. eapply Qle_trans; [apply (ts_mono j k); lia|exact L1].
    + destruct (Nat.eq_dec (S (S k)) n) as [->|N]; [left; reflexivity|right]. rewrite knot1 by lia. exact L2.
Qed.
Lemma basis1 k u : S k < n -> (qat ts k <= u)%Q -> (u < qat ts (S k))%Q ->
  exists a b, basis u 1 U = [a; b] /\
    (a == (qat ts (S k) - u) / (qat ts (S k) - qat ts k))%Q /\ (b == (u - qat ts k) / (qat ts (S k) - qat ts k))%Q.
Proof.
  intros Hk L1 L2. unfold basis. rewrite (span1 k u Hk L1 L2). cbn [basisUpTo basisInner].
  replace (S k + 1 - (1 - 0)) with (S k) by lia. replace (S k + (0 + 1)) with (S (S k)) by lia.
  pose proof (pm_inc _ P k (S k) ltac:(lia) Hk) as I.
  eexists _, _. split; [reflexivity|]. rewrite (knot1 k) by lia. rewrite (knot1 (S k)) by lia. split; field; lra.
Qed.
Lemma identity_rows c i : S i < n -> (rowDot (collocationRow ts 1 U i) c == qat c i)%Q.
Proof.
  intros H. unfold collocationRow. destruct ((i =? 0) || (i =? n - 1)) eqn:E.
  - unfold rowDot. cbn [map qsum fold_right fst snd]. ring.
  - pose proof (pm_inc _ P i (S i) ltac:(lia) H) as I.
    rewrite (span1 i) by (try lia; try apply Qle_refl; exact I).
    destruct (basis1 i (qat ts i) H (Qle_refl _) I) as (a & b & -> & Ha & Hb).
    replace (S i - 1) with i by lia. cbn [Nat.add seq combine]. unfold rowDot. cbn [map qsum fold_right fst snd].
    rewrite Ha, Hb. field. lra.
Qed.
Lemma identity_last c : (rowDot (collocationRow ts 1 U (n - 1)) c == qat c (n - 1))%Q.
Proof. unfold collocationRow. rewrite Nat.eqb_refl, orb_true_r. unfold rowDot. cbn [map qsum fold_right fst snd]. ring. Qed.
Lemma identity_row c i : i < n -> (rowDot (collocationRow ts 1 U i) c == qat c i)%Q.
Proof. intros H. destruct (Nat.eq_dec i (n - 1)) as [->|N]; [apply identity_last|apply identity_rows; lia]. Qed.
Lemma solves_at c b : solves (collocation ts 1 U) c b -> length b = n -> forall i, i < n -> (qat c i == qat b i)%Q.
Proof.
  intros (L & F) Lb i Hi. rewrite <- (identity_row c i Hi). unfold collocation in F.
  assert (G : forall m s bs, length bs = m -> Forall2 (fun r y => (rowDot r c == y)%Q) (map (collocationRow ts 1 U) (seq s m)) bs ->
    forall j, j < m -> (rowDot (collocationRow ts 1 U (s + j)) c == qat bs j)%Q).
  { clear. induction m as [|m IH]; intros s [|y bs] Lb H j Hj; try discriminate Lb; [lia|]. cbn [seq map] in H. inversion H as [|r y' R B H1 H2]; subst.
    destruct j as [|j]; [rewrite Nat.add_0_r; exact H1|]. replace (s + S j) with (S s + j) by lia. apply (IH (S s) bs); [injection Lb; auto|exact H2|lia]. }
  apply (G n 0 b Lb F i Hi).
Qed.
Lemma solvable_id b : length b = n -> solves (collocation ts 1 U) b b.
Proof.
  intros Lb. split; [reflexivity|]. unfold collocation.
  assert (G : forall m s, s + m = n -> Forall2 (fun r y => (rowDot r b == y)%Q) (map (collocationRow ts 1 U) (seq s m)) (skipn s b)).
  { induction m as [|m IH]; intros s Hs.
    - rewrite skipn_all2 by lia. constructor.
    - assert (Sk : skipn s b = qat b s :: skipn (S s) b).
      { clear -Lb Hs. unfold qat. assert (s < length b) by lia. clear Hs Lb. revert s H. induction b as [|y b IH]; intros s H; cbn in H; [lia|].
        destruct s as [|s]; [reflexivity|]. cbn [skipn nth]. apply IH. lia. }
      rewrite Sk. cbn [seq map]. constructor; [apply identity_row; lia|apply IH; lia]. }
  apply (G n 0). lia.
Qed.
Lemma solvable b : length b = n -> exists c, solves (collocation ts 1 U) c b.
Proof. intros L. exists b. apply solvable_id, L. Qed.
Lemma eval1 c k u : length c = n -> S k < n -> (qat ts k <= u)%Q -> (u < qat ts (S k))%Q ->
  (splineEval U c u == qat c k + (qat c (S k) - qat c k) * ((u - qat ts k) / (qat ts (S k) - qat ts k)))%Q.
Proof.
  intros L Hk L1 L2. unfold splineEval. rewrite knot_length, L by lia. replace (n + 1 + 1 - n - 1) with 1 by lia.
  rewrite (span1 k u Hk L1 L2). destruct (basis1 k u Hk L1 L2) as (a & b & -> & Ha & Hb).
  replace (S k - 1) with k by lia. cbn [Nat.add]. rewrite segment_cons, segment_one by lia. cbn [dot].
  rewrite Ha, Hb. pose proof (pm_inc _ P k (S k) ltac:(lia) Hk) as I. field. lra.
Qed.
End Linear.

(** ** Waveforms *)
Section WfSpline.
Variable eps : Z.
Hypothesis E0 : (0 <= eps)%Z.
Variable qr : list row -> list Q -> list Q.
Context {G : Type}.
Notation smpl := (sample (G:=G)).
Notation wf := (waveform (G:=G)).

Lemma relTime_mono a b s t : (a < b)%Z -> (s < t)%Z -> (relTime a b s < relTime a b t)%Q.
Proof.
  intros H1 H2. unfold relTime. apply Qmult_lt_r; [|rewrite <- Zlt_Qlt; lia].
  apply Qinv_lt_0_compat. replace 0%Q with (inject_Z 0) by reflexivity. rewrite <- Zlt_Qlt. lia.
Qed.
Lemma relTime_0 a b : (relTime a b a == 0)%Q.
Proof. unfold relTime. rewrite Z.sub_diag. unfold Qdiv. rewrite Qmult_0_l. reflexivity. Qed.
Lemma relTime_1 a b : (a < b)%Z -> (relTime a b b == 1)%Q.
Proof. intros H. unfold relTime. unfold Qdiv. apply Qmult_inv_r. intros E. assert (0 < inject_Z (b - a))%Q by (replace 0%Q with (inject_Z 0) by reflexivity; rewrite <- Zlt_Qlt; lia). lra. Qed.

Definition times (w : wave smpl) := map fst w.
Definition rel (w : wave smpl) := map (relTime (hd 0%Z (times w)) (last (times w) 0%Z)) (times w).
Lemma rel_at (w : wave smpl) i : i < length w -> qat (rel w) i = relTime (hd 0%Z (times w)) (last (times w) 0%Z) (nth i (times w) 0%Z).
Proof.
  intros H. unfold rel, qat. rewrite (nth_indep _ 0%Q (relTime (hd 0%Z (times w)) (last (times w) 0%Z) 0%Z)).
  - apply map_nth.
  - unfold times. rewrite !map_length. exact H.
Qed.
Lemma last_nth (l : list Z) : last l 0%Z = nth (length l - 1) l 0%Z.
Proof.
  induction l as [|a [|b l] IH]; try reflexivity. change (last (a :: b :: l) 0%Z) with (last (b :: l) 0%Z). rewrite IH.
  cbn [length]. replace (S (S (length l)) - 1) with (S (S (length l) - 1)) by lia. reflexivity.
Qed.
Lemma times_inc (w : wave smpl) i j : Ord eps w -> i < j -> j < length w -> (nth i (times w) 0 + eps < nth j (times w) 0)%Z.
Proof.
  intros O L Hj. apply ord_ordered in O. 
  destruct (nth_error w i) as [p|] eqn:Hi; [|apply nth_error_None in Hi; lia].
  destruct (nth_error w j) as [q|] eqn:Hq; [|apply nth_error_None in Hq; lia].
  pose proof (O i j p q L Hi Hq) as R. unfold times.
  rewrite (nth_error_nth _ _ _ (map_nth_error fst _ _ Hi)), (nth_error_nth _ _ _ (map_nth_error fst _ _ Hq)). exact R.
Qed.
Lemma times_last (w : wave smpl) : last (times w) 0%Z = nth (length w - 1) (times w) 0%Z.
Proof. rewrite last_nth. f_equal. unfold times. rewrite map_length. reflexivity. Qed.
Lemma first_last (w : wave smpl) : Ord eps w -> 2 <= length w -> (hd 0 (times w) < last (times w) 0)%Z.
Proof.
  intros O L. rewrite times_last.
  assert (hd 0%Z (times w) = nth 0 (times w) 0%Z) as -> by (destruct w; reflexivity).
  pose proof (times_inc w 0 (length w - 1) O ltac:(lia) ltac:(lia)). lia.
Qed.
Lemma rel_length (w : wave smpl) : length (rel w) = length w.
Proof. unfold rel, times. rewrite !map_length. reflexivity. Qed.
Lemma rel_params (w : wave smpl) : Ord eps w -> 2 <= length w -> params (rel w).
Proof.
  intros O L. pose proof (first_last w O L) as FL. constructor.
  - rewrite rel_length. exact L.
  - rewrite rel_length. intros i j Hi Hj. rewrite !rel_at by lia. apply relTime_mono; [exact FL|].
    pose proof (times_inc w i j O Hi Hj). lia.
  - rewrite rel_at by lia. destruct w; [cbn in L; lia|]. apply relTime_0.
  - rewrite rel_length, rel_at by lia. rewrite <- times_last. apply relTime_1, FL.
Qed.
Lemma clamp_id x : (0 <= x)%Q -> (x <= 1)%Q -> clamp01 x = x.
Proof.
  intros H1 H2. unfold clamp01. destruct (Qltb x 0) eqn:E; [apply Qltb_lt in E; lra|]. destruct (Qltb 1 x) eqn:E'; [apply Qltb_lt in E'; lra|reflexivity].
Qed.
Lemma clamp_nonneg x : (0 <= clamp01 x)%Q.
Proof.
  unfold clamp01. destruct (Qltb x 0) eqn:E; [apply Qle_refl|]. destruct (Qltb 1 x); [discriminate|]. apply Qltb_ge in E. exact E.
Qed.
Lemma column_length k (w : wave smpl) : length (column k w) = length w.
Proof. apply map_length. Qed.
Lemma column_at k (w : wave smpl) i p : nth_error w i = Some p -> qat (column k w) i = qat (fst (snd p)) k.
Proof.
  intros H. unfold qat at 1, column. apply (map_nth_error (fun p => qat (fst (snd p)) k)) in H. apply nth_error_nth, H.
Qed.

Lemma vline_at t0 t1 t : forall x0 x1 m, m < length x0 -> m < length x1 -> qat (vline t0 t1 t x0 x1) m = line t0 t1 t (qat x0 m) (qat x1 m).
Proof.
  induction x0 as [|a x0 IH]; intros [|b x1] m L0 L1; cbn in L0, L1; try lia. destruct m as [|m]; [reflexivity|]. cbn [vline qat nth]. apply IH; lia.
Qed.
Lemma vline_length t0 t1 t : forall x0 x1, length x0 = length x1 -> length (vline t0 t1 t x0 x1) = length x0.
Proof. induction x0 as [|a x0 IH]; intros [|b x1] L; try discriminate L; cbn; [reflexivity|]. f_equal. apply IH. injection L; auto. Qed.
Lemma veq_at a b : length a = length b -> (forall i, i < length a -> (qat a i == qat b i)%Q) -> veq a b.
Proof.
  revert b. induction a as [|x a IH]; intros [|y b] L H; try discriminate L; constructor.
  - apply (H 0). cbn. lia.
  - apply IH; [injection L; auto|]. intros i Hi. apply (H (S i)). cbn. lia.
Qed.

Lemma interpolate_linear (w : wave smpl) m k p q t : Ord eps w ->
  (forall r, In r w -> length (fst (snd r)) = m) ->
  solver qr (system w 1) ->
  nth_error w k = Some p -> nth_error w (S k) = Some q -> (fst p <= t)%Z -> (t < fst q)%Z ->
  veq (interpolateAt (mkSpline qr w 1) t) (vline (fst p) (fst q) t (fst (snd p)) (fst (snd q))).
Proof.
  intros O Hm QR Hp Hq L1 L2.
  assert (Hk : S k < length w) by (apply nth_error_Some; congruence).
  assert (L : 2 <= length w) by lia. pose proof (rel_params w O L) as P.
  pose proof (Hm p (nth_error_In _ _ Hp)) as Mp. pose proof (Hm q (nth_error_In _ _ Hq)) as Mq.
  assert (Nd : nDofs w = m). { destruct w as [|r w]; [cbn in L; lia|]. apply Hm. left. reflexivity. }
  unfold mkSpline, interpolateAt. cbn [sp_knots sp_ctrls sp_min sp_max]. fold (times w). fold (rel w). rewrite Nd.
  assert (Tp : nth k (times w) 0%Z = fst p) by (apply nth_error_nth, map_nth_error, Hp).
  assert (Tq : nth (S k) (times w) 0%Z = fst q) by (apply nth_error_nth, map_nth_error, Hq).
  set (u := relTime (hd 0%Z (times w)) (last (times w) 0%Z) t). pose proof (first_last w O L) as FL.
  assert (U1 : (qat (rel w) k <= u)%Q).
  { rewrite rel_at by lia. rewrite Tp. destruct (Z.eq_dec (fst p) t) as [->|N]; [apply Qle_refl|].
    apply Qlt_le_weak, relTime_mono; [exact FL|lia]. }
  assert (U2 : (u < qat (rel w) (S k))%Q) by (rewrite rel_at by lia; rewrite Tq; apply relTime_mono; [exact FL|exact L2]).
  assert (C : clamp01 u = u).
  { apply clamp_id; [eapply Qle_trans; [|exact U1]; apply (nonneg_at _ P); rewrite rel_length; lia|].
    eapply Qlt_le_weak, Qlt_le_trans; [exact U2|]. rewrite <- (pm_last _ P). rewrite rel_length. apply (ts_mono _ P); rewrite ?rel_length; lia. }
  rewrite C. apply veq_at.
  - rewrite !map_length, seq_length, vline_length by congruence. symmetry. exact Mp.
  - rewrite !map_length, seq_length. intros i Hi. rewrite map_map. unfold qat at 1.
    rewrite (nth_indep _ 0%Q (splineEval (knotAveraging (rel w) 1) (qr (collocation (rel w) 1 (knotAveraging (rel w) 1)) (column 0 w)) u)) by (rewrite map_length, seq_length; exact Hi).
    rewrite (map_nth (fun n => splineEval (knotAveraging (rel w) 1) (qr (collocation (rel w) 1 (knotAveraging (rel w) 1)) (column n w)) u) (seq 0 m) 0 i).
    rewrite seq_nth by exact Hi. cbn [Nat.add]. rewrite vline_at by congruence.
    assert (Lc : length (column i w) = length (rel w)) by (rewrite column_length, rel_length; reflexivity).
    pose proof (QR _ (solvable _ P (column i w) Lc)) as S. pose proof (solves_at _ P _ _ S Lc) as At. destruct S as (Ls & _).
    set (c := qr _ _) in *. assert (Hk' : S k < length (rel w)) by (rewrite rel_length; exact Hk).
    pose proof (eval1 _ P c k u ltac:(congruence) Hk' U1 U2) as Ev. rewrite Ev. rewrite (At k), (At (S k)) by lia.
    rewrite (column_at i w k p Hp), (column_at i w (S k) q Hq). unfold line.
    assert (R : ((u - qat (rel w) k) / (qat (rel w) (S k) - qat (rel w) k) == inject_Z (t - fst p) / inject_Z (fst q - fst p))%Q).
    { rewrite !rel_at by lia. rewrite Tp, Tq. unfold u, relTime, Z.sub. rewrite !inject_Z_plus, !inject_Z_opp.
      assert (A1 : ~ (inject_Z (last (times w) 0%Z) + - inject_Z (hd 0%Z (times w)) == 0)%Q).
      { rewrite Zlt_Qlt in FL. lra. }
      assert (A2 : ~ (inject_Z (fst q) + - inject_Z (fst p) == 0)%Q). { assert (B : (fst p < fst q)%Z) by lia. rewrite Zlt_Qlt in B. lra. }
      field. repeat (split; [first [exact A1|exact A2|lra]|]); first [exact A1|exact A2|lra|idtac]. }
    rewrite R. reflexivity.
Qed.

Lemma forall2_length {A B} (R : A -> B -> Prop) a b : Forall2 R a b -> length a = length b.
Proof. intros H. induction H as [|x y a b H1 H2 IH]; cbn; congruence. Qed.
Lemma veq_length a b : veq a b -> length a = length b.
Proof. intros H. induction H as [|x y a b H1 H2 IH]; cbn; congruence. Qed.
Lemma veq_nth a b i : veq a b -> (qat a i == qat b i)%Q.
Proof. intros H. revert i. induction H as [|x y a b H1 H2 IH]; intros [|i]; try reflexivity; [exact H1|apply IH]. Qed.

(** constant data, any degree *)
Lemma interpolate_constant (w : wave smpl) d v t : Ord eps w -> 1 <= d -> d < length w ->
  (forall r, In r w -> veq (fst (snd r)) v) ->
  solver qr (system w d) -> unique (system w d) ->
  veq (interpolateAt (mkSpline qr w d) t) v.
Proof.
  intros O D1 D2 Hv QR Un. change (system w d) with (collocation (rel w) d (knotAveraging (rel w) d)) in QR, Un. assert (L : 2 <= length w) by lia. pose proof (rel_params w O L) as P.
  assert (Nd : nDofs w = length v). { destruct w as [|r w]; [cbn in L; lia|]. apply veq_length, (Hv r (or_introl eq_refl)). }
  unfold mkSpline, interpolateAt. cbn [sp_knots sp_ctrls sp_min sp_max]. fold (times w). fold (rel w). rewrite Nd.
  set (u := clamp01 _). assert (Hu : (0 <= u)%Q) by apply clamp_nonneg.
  apply veq_at; rewrite !map_length, seq_length; [reflexivity|]. intros i Hi. rewrite map_map. unfold qat at 1.
  set (g := fun n => splineEval (knotAveraging (rel w) d) (qr (collocation (rel w) d (knotAveraging (rel w) d)) (column n w)) u).
  rewrite (nth_indep _ 0%Q (g 0)) by (rewrite map_length, seq_length; exact Hi).
  rewrite (map_nth g (seq 0 (length v)) 0 i). rewrite seq_nth by exact Hi. cbn [Nat.add]. unfold g.
  assert (Lc : length (column i w) = length (rel w)) by (rewrite column_length, rel_length; reflexivity).
  assert (Hc : forall j, j < length (rel w) -> (qat (column i w) j == qat v i)%Q).
  { rewrite rel_length. intros j Hj. destruct (nth_error w j) as [r|] eqn:E; [|apply nth_error_None in E; lia].
    rewrite (column_at i w j r E). apply veq_nth, Hv. eapply nth_error_In, E. }
  assert (D2' : d < length (rel w)) by (rewrite rel_length; exact D2).
  pose proof (const_solves _ P d D1 D2' (qat v i) (column i w) Lc Hc) as CS.
  pose proof (QR _ (ex_intro (fun c => solves _ c (column i w)) _ CS)) as S. pose proof (Un _ _ _ S CS) as V. destruct S as (Ls & _).
  apply (eval_const _ P d D1 D2' _ _ u Hu); [congruence|]. intros j Hj. rewrite (veq_nth _ _ j V). rewrite repeat_qat by exact Hj. reflexivity.
Qed.
End WfSpline.
