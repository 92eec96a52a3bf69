(** Proofs about the geometric multiscale mappings: lists, lines. *)
From Coq Require Import ZArith QArith Qabs Bool List Lia Lqa Permutation Sorted.
From Verif Require Import M_Geo S_Geo.
Import ListNotations.
Open Scope list_scope.
Open Scope nat_scope.

Lemma mapR_pure : forall A B (f : A -> result B) (g : A -> B) l,
  (forall a, In a l -> f a = Good (g a)) -> mapR f l = Good (map g l).
Proof.
  induction l as [| a l IH]; intros H; cbn; [reflexivity |].
  rewrite (H a (or_introl eq_refl)). cbn. rewrite IH by (intros b Hb; apply H; right; exact Hb). reflexivity.
Qed.
Lemma mapR_ub : forall A B (f : A -> result B) l,
  (forall a, In a l -> f a = UB \/ exists b, f a = Good b) ->
  (exists a, In a l /\ f a = UB) -> mapR f l = UB.
Proof.
  induction l as [| a l IH]; intros H [x [Hx Hf]]; [destruct Hx |]. cbn.
  destruct (H a (or_introl eq_refl)) as [E | [b E]]; rewrite E; cbn; [reflexivity |].
  rewrite IH; [reflexivity | intros c Hc; apply H; right; exact Hc |].
  destruct Hx as [-> | Hx]; [congruence |]. exists x. split; assumption.
Qed.
Lemma mapR_check : forall A B (f : A -> result B) l,
  (forall a, In a l -> f a = Check \/ exists b, f a = Good b) ->
  (exists a, In a l /\ f a = Check) -> mapR f l = Check.
Proof.
  induction l as [| a l IH]; intros H [x [Hx Hf]]; [destruct Hx |]. cbn.
  destruct (H a (or_introl eq_refl)) as [E | [b E]]; rewrite E; cbn; [reflexivity |].
  rewrite IH; [reflexivity | intros c Hc; apply H; right; exact Hc |].
  destruct Hx as [-> | Hx]; [congruence |]. exists x. split; assumption.
Qed.
Lemma getR_in : forall A (l : list A) i d, i < length l -> getR l i = Good (nth i l d).
Proof. intros A l i d H. unfold getR. rewrite (nth_error_nth' l d H). reflexivity. Qed.
Lemma getR_out : forall A (l : list A) i, length l <= i -> getR l i = UB.
Proof. intros A l i H. unfold getR. apply nth_error_None in H. rewrite H. reflexivity. Qed.

Lemma nth_map_seq : forall A (f : nat -> A) n i d, i < n -> nth i (map f (seq 0 n)) d = f i.
Proof.
  intros A f n i d H. rewrite (nth_indep _ d (f 0)) by (rewrite map_length, seq_length; exact H).
  rewrite map_nth. rewrite seq_nth by exact H. reflexivity.
Qed.

Lemma place_length : forall d e vals, length (place d e vals) = length vals * d.
Proof.
  intros d e vals. unfold place. induction vals as [| v vals IH]; [reflexivity |].
  cbn [flat_map length]. rewrite app_length, map_length, seq_length, IH. lia.
Qed.
Lemma place_nth : forall d e vals i c, c < d -> i < length vals ->
  res d (place d e vals) i c = if c =? e then nth i vals None else Some 0%Q.
Proof.
  intros d e vals i c Hc. unfold res, place. revert i. induction vals as [| v vals IH]; intros i Hi; [cbn in Hi; lia |].
  cbn [flat_map]. destruct i as [| i].
  - rewrite app_nth1 by (rewrite map_length, seq_length; lia). cbn [Nat.mul Nat.add nth].
    rewrite nth_map_seq by exact Hc. reflexivity.
  - rewrite app_nth2 by (rewrite map_length, seq_length; lia). rewrite map_length, seq_length.
    replace (S i * d + c - d) with (i * d + c) by lia. cbn [nth]. apply IH. cbn in Hi. lia.
Qed.

(** ** lines *)
Definition mid (xs : list Q) (i : nat) : Q := ((nth i xs 0 + nth (i + 1) xs 0) / 2)%Q.

Lemma sortBy_seq : forall xs n a, (forall i j, i < j -> j < a + n -> (nth i xs 0 <= nth j xs 0)%Q) ->
  sortBy xs (seq a n) = seq a n.
Proof.
  intros xs n. induction n as [| n IH]; intros a H; [reflexivity |].
  cbn [seq sortBy]. rewrite IH by (intros i j H1 H2; apply H; lia).
  destruct n as [| n]; [reflexivity |]. cbn [seq insertBy].
  assert (E : Qle_bool (nth a xs 0%Q) (nth (S a) xs 0%Q) = true) by (apply Qle_bool_iff; apply H; lia).
  rewrite E. reflexivity.
Qed.
Lemma ordered_id : forall xs, increasing xs -> ordered xs = seq 0 (length xs).
Proof. intros xs H. apply sortBy_seq. intros i j H1 H2. apply Qlt_le_weak. apply H. lia. Qed.

Lemma collect_mids : forall xs, collectMidpoints xs = Good (map (mid xs) (seq 0 (length xs - 1))).
Proof.
  intros xs. unfold collectMidpoints. apply mapR_pure. intros i Hi. apply in_seq in Hi.
  rewrite (getR_in _ _ _ 0%Q) by lia. cbn [bindR]. rewrite (getR_in _ _ _ 0%Q) by lia. reflexivity.
Qed.
Lemma spread_mids : forall xs, increasing xs -> spreadMidpoints xs = Good (map (mid xs) (seq 0 (length xs - 1))).
Proof.
  intros xs H. unfold spreadMidpoints. rewrite ordered_id by exact H. apply mapR_pure. intros i Hi. apply in_seq in Hi.
  rewrite (getR_in _ (seq 0 _) _ 0) by (rewrite seq_length; lia). cbn [bindR]. rewrite seq_nth by lia. cbn [Nat.add].
  rewrite (getR_in _ _ _ 0%Q) by lia. cbn [bindR]. rewrite (getR_in _ _ _ 0%Q) by lia. reflexivity.
Qed.

Lemma findBin_spec : forall (f : nat -> Q) y m a,
  let k := findBin (map f (seq a m)) y in
  k <= m /\ (forall j, j < k -> (f (a + j)%nat < y)%Q) /\ (k < m -> (y <= f (a + k)%nat)%Q).
Proof.
  intros f y m. induction m as [| m IH]; intros a; cbn [seq map findBin].
  - repeat split; intros; lia.
  - destruct (Qle_bool y (f a)) eqn:E.
    + repeat split; try lia. intros _. rewrite Nat.add_0_r. apply Qle_bool_iff. exact E.
    + destruct (IH (S a)) as [A [B C]]. split; [lia |]. split.
      * intros j Hj. destruct j as [| j].
        { rewrite Nat.add_0_r. apply Qnot_le_lt. intros L. apply Qle_bool_iff in L. congruence. }
        replace (a + S j) with (S a + j) by lia. apply B. lia.
      * intros H. replace (a + S (findBin (map f (seq (S a) m)) y)) with (S a + findBin (map f (seq (S a) m)) y) by lia.
        apply C. lia.
Qed.

Definition bin (xs : list Q) (y : Q) : nat := findBin (map (mid xs) (seq 0 (length xs - 1))) y.

Lemma half : forall a b y : Q, ((a + b) / 2 < y)%Q -> (a + b < 2 * y)%Q.
Proof. intros a b y H. setoid_replace ((a + b) / 2)%Q with ((1 # 2) * (a + b))%Q in H by (field). lra. Qed.
Lemma half' : forall a b y : Q, (y <= (a + b) / 2)%Q -> (2 * y <= a + b)%Q.
Proof. intros a b y H. setoid_replace ((a + b) / 2)%Q with ((1 # 2) * (a + b))%Q in H by (field). lra. Qed.

Ltac qabs := repeat match goal with |- context [Qabs ?x] => let H := fresh in
    destruct (Qlt_le_dec x 0) as [H | H];
    [ rewrite (Qabs_neg x (Qlt_le_weak _ _ H)) | rewrite (Qabs_pos x H) ] end.

Lemma bin_closest : forall xs y, xs <> [] -> increasing xs -> closest xs y (bin xs y).
Proof.
  intros xs y N H. unfold bin.
  assert (L : 0 < length xs) by (destruct xs; [congruence | cbn; lia]).
  destruct (findBin_spec (mid xs) y (length xs - 1) 0) as [A [B C]].
  set (k := findBin (map (mid xs) (seq 0 (length xs - 1))) y) in *. clearbody k.
  assert (W : forall i j, i <= j -> j < length xs -> (nth i xs 0 <= nth j xs 0)%Q).
  { intros i j H1 H2. destruct (Nat.eq_dec i j) as [-> | D]; [apply Qle_refl | apply Qlt_le_weak; apply H; lia]. }
  split; [lia |]. intros j Hj.
  destruct (Nat.lt_trichotomy j k) as [Lt | [-> | Gt]].
  - assert (M : (nth j xs 0 + nth (j + 1) xs 0 < 2 * y)%Q) by (apply half; apply (B j Lt)).
    assert (M1 : (nth (k - 1) xs 0 + nth k xs 0 < 2 * y)%Q).
    { apply half. replace k with (k - 1 + 1) at 2 by lia. apply (B (k - 1)). lia. }
    assert (P : (nth j xs 0 < nth k xs 0)%Q) by (apply H; lia).
    assert (P1 : (nth j xs 0 <= nth (k - 1) xs 0)%Q) by (apply W; lia).
    assert (S : (Qabs (y - nth k xs 0) < Qabs (y - nth j xs 0))%Q) by (qabs; lra).
    split; [apply Qlt_le_weak; exact S | intros _; exact S].
  - split; [apply Qle_refl | lia].
  - assert (Kn : k < length xs - 1) by lia. specialize (C Kn). apply half' in C. cbn [Nat.add] in C.
    assert (P : (nth (k + 1) xs 0 <= nth j xs 0)%Q) by (apply W; lia).
    assert (P1 : (nth k xs 0 < nth (k + 1) xs 0)%Q) by (apply H; lia).
    split; [qabs; lra | lia].
Qed.
Lemma closest_unique : forall xs y a b, closest xs y a -> closest xs y b -> a = b.
Proof.
  intros xs y a b [A1 A2] [B1 B2]. destruct (Nat.lt_trichotomy a b) as [L | [E | L]]; [exfalso | exact E | exfalso].
  - destruct (A2 b B1) as [P _]. destruct (B2 a A1) as [_ Q]. specialize (Q L). lra.
  - destruct (B2 a A1) as [P _]. destruct (A2 b B1) as [_ Q]. specialize (Q L). lra.
Qed.

(** ** sums and averages *)
Lemma binSum_cons : forall b bins v vals k,
  binSum (b :: bins) (v :: vals) k = if b =? k then (v + binSum bins vals k)%Q else binSum bins vals k.
Proof. reflexivity. Qed.

Lemma filter_shift : forall (p : nat -> bool) n a, filter p (seq (S a) n) = map S (filter (fun i => p (S i)) (seq a n)).
Proof.
  intros p n. induction n as [| n IH]; intros a; [reflexivity |]. cbn [seq filter].
  destruct (p (S a)); cbn [map]; rewrite IH; reflexivity.
Qed.
Lemma share_cons : forall b bins f k,
  share (b :: bins) f k = if b =? k then f 0 :: share bins (fun i => f (S i)) k else share bins (fun i => f (S i)) k.
Proof.
  intros b bins f k. unfold share. cbn [length seq filter nth].
  rewrite filter_shift. destruct (b =? k); cbn [map]; rewrite map_map; reflexivity.
Qed.
Lemma binSum_share : forall bins f k,
  binSum bins (map f (seq 0 (length bins))) k = sum (share bins f k).
Proof.
  induction bins as [| b bins IH]; intros f k; [reflexivity |].
  rewrite share_cons. cbn [length seq map]. rewrite binSum_cons. rewrite <- seq_shift, map_map.
  rewrite (IH (fun i => f (S i)) k). destruct (b =? k); reflexivity.
Qed.
Lemma binCount_share : forall bins f k, binCount bins k = length (share bins f k).
Proof.
  induction bins as [| b bins IH]; intros f k; [reflexivity |].
  rewrite share_cons. unfold binCount in *. cbn [filter]. destruct (b =? k); cbn [length]; rewrite (IH (fun i => f (S i))); reflexivity.
Qed.
Lemma average_share : forall bins f k,
  average (binSum bins (map f (seq 0 (length bins))) k) (binCount bins k) =
  match share bins f k with [] => None | l => Some (mean l) end.
Proof.
  intros bins f k. rewrite binSum_share, (binCount_share bins f k).
  destruct (share bins f k) as [| v l]; [reflexivity |]. reflexivity.
Qed.
Lemma sum_const : forall l c, (forall v, In v l -> v == c)%Q -> (sum l == c * inject_Z (Z.of_nat (length l)))%Q.
Proof.
  induction l as [| v l IH]; intros c H; [cbn; ring |].
  change (sum (v :: l)) with (v + sum l)%Q. rewrite (IH c) by (intros w Hw; apply H; right; exact Hw).
  assert (E : (v == c)%Q) by (apply H; left; reflexivity). change (length (v :: l)) with (1 + length l). rewrite E. rewrite Nat2Z.inj_add, inject_Z_plus.
  change (inject_Z (Z.of_nat 1)) with 1%Q. ring.
Qed.
Lemma count_pos : forall n, 0 < n -> (0 < inject_Z (Z.of_nat n))%Q.
Proof. intros n H. change 0%Q with (inject_Z 0). rewrite <- Zlt_Qlt. lia. Qed.
Lemma mean_const : forall l c, l <> [] -> (forall v, In v l -> v == c)%Q -> (mean l == c)%Q.
Proof.
  intros l c N H. unfold mean. rewrite (sum_const l c H).
  assert (P : (0 < inject_Z (Z.of_nat (length l)))%Q) by (apply count_pos; destruct l; [congruence | cbn; lia]).
  field. lra.
Qed.
Lemma share_in : forall bins f k v, In v (share bins f k) -> exists i, i < length bins /\ nth i bins (S k) = k /\ v = f i.
Proof.
  intros bins f k v H. unfold share in H. apply in_map_iff in H. destruct H as [i [<- H]].
  apply filter_In in H. destruct H as [H1 H2]. apply in_seq in H1. apply Nat.eqb_eq in H2.
  exists i. repeat split; [lia | exact H2].
Qed.
Lemma share_nonempty : forall bins f k i, i < length bins -> nth i bins (S k) = k -> share bins f k <> [].
Proof.
  intros bins f k i H E N. assert (I : In (f i) (share bins f k)).
  { unfold share. apply in_map. apply filter_In. split; [apply in_seq; lia | apply Nat.eqb_eq; exact E]. }
  rewrite N in I. destruct I.
Qed.

(** ** the radial mapping *)
Lemma radial_spread : forall d xs ys inp, xs <> [] -> increasing xs -> 0 < d -> values_of d (length xs) inp ->
  radialSpread d xs ys inp = Good (place d 0 (map (fun y => Some (val d inp (bin xs y) 0)) ys)).
Proof.
  intros d xs ys inp N H D V. unfold radialSpread. destruct xs as [| x xs'] eqn:X; [congruence |]. rewrite <- X in *.
  rewrite spread_mids by exact H. cbn [bindR].
  rewrite (mapR_pure _ _ _ (fun y => val d inp (bin xs y) 0)).
  - cbn [bindR]. rewrite map_map. reflexivity.
  - intros y _. destruct (bin_closest xs y N H) as [B _]. fold (bin xs y).
    unfold val. rewrite Nat.add_0_r. apply getR_in. unfold values_of in V. rewrite V.
    apply Nat.mul_lt_mono_pos_r; assumption.
Qed.
Lemma radial_collect : forall d xs ys inp, xs <> [] -> 0 < d -> values_of d (length ys) inp ->
  radialCollect d xs ys inp =
  Good (place d 0 (map (fun k => match share (map (bin xs) ys) (fun i => val d inp i 0) k with [] => None | l => Some (mean l) end)
                       (seq 0 (length xs)))).
Proof.
  intros d xs ys inp N D V. unfold radialCollect. destruct xs as [| x xs'] eqn:X; [congruence |]. rewrite <- X in *.
  rewrite collect_mids. cbn [bindR].
  rewrite (mapR_pure _ _ _ (fun i => val d inp i 0)).
  - cbn [bindR]. f_equal. f_equal. apply map_ext. intros k. fold (bin xs).
    rewrite <- average_share. rewrite map_length. reflexivity.
  - intros i Hi. apply in_seq in Hi. unfold val. rewrite Nat.add_0_r. apply getR_in. unfold values_of in V. rewrite V.
    apply Nat.mul_lt_mono_pos_r; lia.
Qed.

(** ** the order of the vertices of the line *)
Lemma insertBy_perm : forall xs a l, Permutation (insertBy xs a l) (a :: l).
Proof.
  intros xs a l. induction l as [| b l IH]; cbn; [reflexivity |].
  destruct (Qle_bool (nth a xs 0%Q) (nth b xs 0%Q)); [reflexivity |]. rewrite IH. apply perm_swap.
Qed.
Lemma sortBy_perm : forall xs l, Permutation (sortBy xs l) l.
Proof.
  intros xs l. induction l as [| a l IH]; cbn; [reflexivity |]. rewrite insertBy_perm. rewrite IH. reflexivity.
Qed.
Definition leBy (xs : list Q) (a b : nat) : Prop := (nth a xs 0 <= nth b xs 0)%Q.
Lemma insertBy_sorted : forall xs a l, StronglySorted (leBy xs) l -> StronglySorted (leBy xs) (insertBy xs a l).
Proof.
  intros xs a l H. induction H as [| b l Hs IH Hf]; cbn; [repeat constructor |].
  destruct (Qle_bool (nth a xs 0%Q) (nth b xs 0%Q)) eqn:E.
  - apply Qle_bool_iff in E. constructor; [constructor; assumption |]. constructor; [exact E |].
    apply (Forall_impl (leBy xs a)) in Hf; [exact Hf |]. intros c Hc. unfold leBy in *. eapply Qle_trans; eassumption.
  - constructor; [exact IH |].
    assert (L : leBy xs b a).
    { unfold leBy. apply Qlt_le_weak. apply Qnot_le_lt. intros L. apply Qle_bool_iff in L. congruence. }
    apply Forall_forall. intros c Hc. apply (Permutation_in _ (insertBy_perm xs a l)) in Hc.
    destruct Hc as [<- | Hc]; [exact L |]. rewrite Forall_forall in Hf. apply Hf. exact Hc.
Qed.
Lemma sortBy_sorted : forall xs l, StronglySorted (leBy xs) (sortBy xs l).
Proof. intros xs l. induction l as [| a l IH]; cbn; [constructor | apply insertBy_sorted; exact IH]. Qed.
Lemma sorted_last : forall (R : nat -> nat -> Prop) l a, StronglySorted R (l ++ [a]) -> forall b, In b l -> R b a.
Proof.
  intros R l a. induction l as [| c l IH]; intros H b Hb; [destruct Hb |].
  cbn in H. inversion H as [| ? ? H1 H2]; subst. destruct Hb as [<- | Hb]; [| apply IH; assumption].
  rewrite Forall_forall in H2. apply H2. apply in_or_app. right. left. reflexivity.
Qed.

Lemma unsorted_ub : forall xs j, j < length xs - 1 -> (nth (length xs - 1) xs 0 < nth j xs 0)%Q ->
  spreadMidpoints xs = UB.
Proof.
  intros xs j Hj Hx. unfold spreadMidpoints. set (n := length xs) in *.
  assert (LO : length (ordered xs) = n) by (unfold ordered; rewrite (Permutation_length (sortBy_perm xs _)), seq_length; reflexivity).
  assert (RO : forall i, i < n -> nth i (ordered xs) 0 < n).
  { intros i Hi. assert (I : In (nth i (ordered xs) 0) (seq 0 n)).
    { apply (Permutation_in _ (sortBy_perm xs (seq 0 n))). apply nth_In. unfold ordered in LO. fold n in LO. unfold ordered. fold n. lia. }
    apply in_seq in I. lia. }
  apply mapR_ub.
  - intros i Hi. apply in_seq in Hi. rewrite (getR_in _ _ _ 0) by lia. cbn [bindR].
    rewrite (getR_in _ xs _ 0%Q) by (apply RO; lia). cbn [bindR].
    destruct (Nat.lt_ge_cases (nth i (ordered xs) 0 + 1) (length xs)) as [L | L].
    + right. rewrite (getR_in _ xs _ 0%Q) by exact L. cbn [bindR]. eexists. reflexivity.
    + left. rewrite (getR_out _ xs) by exact L. reflexivity.
  - assert (I : In (n - 1) (ordered xs)).
    { apply (Permutation_in _ (Permutation_sym (sortBy_perm xs (seq 0 n)))). apply in_seq. lia. }
    destruct (In_nth _ _ 0 I) as [p [Hp Ep]]. rewrite LO in Hp.
    assert (Pn : p <> n - 1).
    { intros ->. assert (NE : ordered xs <> []) by (intros E; rewrite E in LO; cbn in LO; lia).
      destruct (exists_last NE) as [l [a El]].
      assert (A : a = n - 1).
      { rewrite El in Ep. rewrite El, app_length in LO. cbn in LO. rewrite app_nth2 in Ep by lia.
        replace (n - 1 - length l) with 0 in Ep by lia. exact Ep. }
      assert (Jin : In j (ordered xs)).
      { apply (Permutation_in _ (Permutation_sym (sortBy_perm xs (seq 0 n)))). apply in_seq. lia. }
      rewrite El in Jin. apply in_app_or in Jin. destruct Jin as [Jin | [<- | []]]; [| lia].
      pose proof (sortBy_sorted xs (seq 0 n)) as SS. change (sortBy xs (seq 0 n)) with (ordered xs) in SS. rewrite El in SS.
      pose proof (sorted_last _ _ _ SS j Jin) as Bad. unfold leBy in Bad. rewrite A in Bad. lra. }
    exists p. split; [apply in_seq; lia |].
    rewrite (getR_in _ _ _ 0) by lia. cbn [bindR]. rewrite Ep. rewrite (getR_in _ xs _ 0%Q) by (fold n; lia). cbn [bindR].
    rewrite (getR_out _ xs) by (fold n; lia). reflexivity.
Qed.
