(** Proofs about the bounds of accelerated data. *)
From Coq Require Import QArith Bool List Arith Lia Lqa.
From Verif Require Import M_Bounds S_Bounds.
Import ListNotations.
Open Scope nat_scope.

(** * Booleans *)
Lemma qlt_iff a b : qlt a b = true <-> (a < b)%Q.
Proof.
  unfold qlt. rewrite negb_true_iff. split; intro H.
  - apply Qnot_le_lt. intro C. apply Qle_bool_iff in C. congruence.
  - destruct (Qle_bool b a) eqn:E; [|reflexivity]. apply Qle_bool_iff in E. lra.
Qed.
Lemma qlt_false a b : qlt a b = false <-> (b <= a)%Q.
Proof. unfold qlt. rewrite negb_false_iff. apply Qle_bool_iff. Qed.
Lemma qle_dec a b : {Qle_bool a b = true /\ (a <= b)%Q} + {Qle_bool a b = false /\ (b < a)%Q}.
Proof.
  destruct (Qle_bool a b) eqn:E; [left|right]; (split; [reflexivity|]).
  - now apply Qle_bool_iff.
  - apply Qnot_le_lt. intro C. apply Qle_bool_iff in C. congruence.
Qed.
Lemma qmax_l a b : (a <= qmax a b)%Q.
Proof. unfold qmax. destruct (qle_dec a b) as [[-> H]|[-> H]]; lra. Qed.
Lemma qmax_r a b : (b <= qmax a b)%Q.
Proof. unfold qmax. destruct (qle_dec a b) as [[-> H]|[-> H]]; lra. Qed.
Lemma qmax_cases a b : ((a <= b)%Q /\ qmax a b = b) \/ ((b < a)%Q /\ qmax a b = a).
Proof. unfold qmax. destruct (qle_dec a b) as [[-> H]|[-> H]]; auto. Qed.
Lemma qmin_cases a b : ((a <= b)%Q /\ qmin a b = a) \/ ((b < a)%Q /\ qmin a b = b).
Proof. unfold qmin. destruct (qle_dec a b) as [[-> H]|[-> H]]; auto. Qed.
Lemma qmax_or a b : qmax a b = a \/ qmax a b = b.
Proof. unfold qmax. destruct (Qle_bool a b); auto. Qed.
Lemma qabs_nonneg a : (0 <= qabs a)%Q.
Proof. unfold qabs. destruct (qle_dec 0 a) as [[-> H]|[-> H]]; lra. Qed.
Lemma qabs_cases a : ((0 <= a)%Q /\ qabs a = a) \/ ((a < 0)%Q /\ qabs a = (- a)%Q).
Proof. unfold qabs. destruct (qle_dec 0 a) as [[-> H]|[-> H]]; auto. Qed.

(** * Lists *)
Lemma length_indexed {A} (l : list A) : length (indexed l) = length l.
Proof. unfold indexed. rewrite combine_length, seq_length. lia. Qed.
Lemma nth_error_indexed {A} (l : list A) i x : nth_error (indexed l) i = Some x <-> fst x = i /\ nth_error l i = Some (snd x).
Proof.
  unfold indexed.
  assert (G : forall (l : list A) s i x, nth_error (combine (seq s (length l)) l) i = Some x <-> fst x = s + i /\ nth_error l i = Some (snd x)).
  { clear. induction l as [|a l IH]; intros s i [j y]; cbn [length seq combine].
    - destruct i; cbn; split; [discriminate| |discriminate|]; intros [_ ?]; discriminate.
    - destruct i as [|i]; cbn [nth_error].
      + cbn. split; [intro E; injection E; intros; subst; split; [lia|reflexivity]|]. intros [E F]. injection F; intros; subst. f_equal. f_equal. lia.
      + rewrite IH. cbn. split; intros [E F]; (split; [lia|assumption]). }
  apply G.
Qed.
Lemma nth_combine {A B} (a : list A) (b : list B) i x y :
  nth_error (combine a b) i = Some (x, y) <-> nth_error a i = Some x /\ nth_error b i = Some y.
Proof.
  revert b i. induction a as [|p a IH]; intros b i.
  - destruct i; cbn; split; try discriminate; intros [? ?]; discriminate.
  - destruct b as [|q b]; [destruct i; cbn; split; try discriminate; intros [? ?]; discriminate|].
    destruct i as [|i]; cbn [combine nth_error]; [|apply IH].
    split; [intro E; injection E; intros; subst; split; reflexivity|]. intros [E F]. congruence.
Qed.
Lemma existsb_indexed {A} (f : nat * A -> bool) (l : list A) :
  existsb f (indexed l) = true <-> exists i x, nth_error l i = Some x /\ f (i, x) = true.
Proof.
  rewrite existsb_exists. split.
  - intros ([i x] & I & E). apply In_nth_error in I as (n & I). apply nth_error_indexed in I as [J I]. cbn in *. subst. now exists n, x.
  - intros (i & x & I & E). exists (i, x). split; [|exact E]. apply (nth_error_In _ i). apply nth_error_indexed. now split.
Qed.
Lemma fold_max_ge l : forall s, (s <= fold_left qmax l s)%Q /\ forall x, In x l -> (x <= fold_left qmax l s)%Q.
Proof.
  induction l as [|a l IH]; intro s; cbn [fold_left].
  - split; [lra|intros x []].
  - destruct (IH (qmax s a)) as [H1 H2]. pose proof (qmax_l s a). pose proof (qmax_r s a). split; [lra|].
    intros x [<-|I]; [lra|now apply H2].
Qed.
Lemma fold_max_in l : forall s, fold_left qmax l s = s \/ In (fold_left qmax l s) l.
Proof.
  induction l as [|a l IH]; intro s; cbn [fold_left]; [now left|].
  destruct (IH (qmax s a)) as [E|I]; [|right; now right].
  rewrite E. destruct (qmax_or s a) as [->| ->]; [now left|right; now left].
Qed.
Lemma length_zipWith f a b : length b = length a -> length (zipWith f a b) = length a.
Proof. intro E. unfold zipWith. rewrite map_length, combine_length. lia. Qed.
Lemma nth_zipWith f a b i x y : nth_error a i = Some x -> nth_error b i = Some y -> nth_error (zipWith f a b) i = Some (f x y).
Proof.
  intros A B. unfold zipWith. assert (C : nth_error (combine a b) i = Some (x, y)) by (apply nth_combine; now split).
  now rewrite (map_nth_error (fun q => f (fst q) (snd q)) i (combine a b) C).
Qed.
Lemma nth_zip f a b i : length b = length a -> i < length a -> nth i (zipWith f a b) 0%Q = f (nth i a 0%Q) (nth i b 0%Q).
Proof.
  intros E L. apply nth_error_nth. apply nth_zipWith; apply nth_error_nth'; lia.
Qed.
Lemma mapM_all {A B} (f : A -> option B) (g : A -> B) l : (forall a, In a l -> f a = Some (g a)) -> mapM f l = Some (map g l).
Proof.
  induction l as [|a l IH]; intro H; [reflexivity|]. cbn [mapM map].
  rewrite (H a) by now left. rewrite IH; [reflexivity|]. intros b I. apply H. now right.
Qed.

(** * Segments *)
Fixpoint segs (sizes : list nat) (data : vec) : list vec :=
  match sizes with [] => [] | n :: r => firstn n data :: segs r (skipn n data) end.
Lemma length_segs sizes : forall data, length (segs sizes data) = length sizes.
Proof. induction sizes as [|n r IH]; intro data; cbn; [reflexivity|now rewrite IH]. Qed.
Lemma concat_segs sizes : forall data, length data = fold_right plus 0 sizes -> concat (segs sizes data) = data.
Proof.
  induction sizes as [|n r IH]; intros data L; cbn in *.
  - now destruct data.
  - rewrite IH; [apply firstn_skipn|]. rewrite skipn_length. lia.
Qed.
Lemma length_seg sizes : forall data k, length data = fold_right plus 0 sizes -> length (nth k (segs sizes data) []) = nth k sizes 0.
Proof.
  induction sizes as [|n r IH]; intros data k L; cbn in *.
  - now destruct k.
  - destruct k as [|k]; [rewrite firstn_length; lia|]. apply IH. rewrite skipn_length. lia.
Qed.
Lemma nth_segs sizes : forall data k j, length data = fold_right plus 0 sizes -> j < nth k sizes 0 ->
  nth_error (nth k (segs sizes data) []) j = nth_error data (fold_right plus 0 (firstn k sizes) + j).
Proof.
  induction sizes as [|n r IH]; intros data k j L B; cbn in *; [destruct k; cbn in *; lia|].
  destruct k as [|k].
  - cbn. rewrite <- (firstn_skipn n data) at 2. rewrite nth_error_app1; [reflexivity|]. rewrite firstn_length. lia.
  - cbn [firstn fold_right]. rewrite IH; [|rewrite skipn_length; lia|assumption].
    rewrite <- (firstn_skipn n data) at 2. rewrite nth_error_app2; [|rewrite firstn_length; lia].
    rewrite firstn_length. f_equal. lia.
Qed.

Lemma offset_lt l : forall k j, j < nth k l 0 -> fold_right plus 0 (firstn k l) + j < fold_right plus 0 l.
Proof. induction l as [|n l IH]; intros [|k] j B; cbn in *; try lia. specialize (IH k j B). lia. Qed.
Lemma cut_ok n data : n <= length data -> cut n data = Some (firstn n data, skipn n data).
Proof. intro H. unfold cut. now destruct (Nat.leb_spec n (length data)); [|lia]. Qed.

Fixpoint map2 {A B C} (f : A -> B -> C) (a : list A) (b : list B) : list C :=
  match a, b with x :: r, y :: q => f x y :: map2 f r q | _, _ => [] end.
Lemma nth_map2 {A B C} (f : A -> B -> C) a : forall b i x y,
  nth_error a i = Some x -> nth_error b i = Some y -> nth_error (map2 f a b) i = Some (f x y).
Proof.
  induction a as [|p a IH]; intros b i x y; [now destruct i|]. destruct b as [|q b]; [now destruct i|].
  destruct i as [|i]; cbn; [intros E F; congruence|]. now apply IH.
Qed.
Lemma length_map2 {A B C} (f : A -> B -> C) a : forall b, length b = length a -> length (map2 f a b) = length a.
Proof. induction a as [|p a IH]; intros [|q b] E; cbn in *; [reflexivity|lia|lia|]. rewrite IH; lia. Qed.

Definition flag (d : dataInfo) (s : vec) : bool := withBounds d && violates d s.
Lemma check_segs infos : forall sizes data, length sizes = length infos -> length data = fold_right plus 0 sizes ->
  checkBoundViolation (combine infos sizes) data = Some (map2 flag infos (segs sizes data)).
Proof.
  induction infos as [|d r IH]; intros [|n sizes] data E L; cbn in *; try lia; [reflexivity|].
  rewrite cut_ok by lia. rewrite IH; [reflexivity|lia|rewrite skipn_length; lia].
Qed.
Definition clampSeg (d : dataInfo) (s : vec) : vec := if flag d s then clampToBounds d s else s.
Lemma clamp_segs infos : forall sizes data, length sizes = length infos -> length data = fold_right plus 0 sizes ->
  onBoundViolationsClamp (combine infos sizes) (map2 flag infos (segs sizes data)) data = Some (concat (map2 clampSeg infos (segs sizes data))).
Proof.
  induction infos as [|d r IH]; intros [|n sizes] data E L; cbn in *; try lia.
  - now destruct data.
  - rewrite cut_ok by lia. rewrite IH; [reflexivity|lia|rewrite skipn_length; lia].
Qed.

(** * One segment *)
Lemma covered_at d m v c : 0 < i_dim d -> c < i_dim d -> (covered d (m * i_dim d) (v * i_dim d + c) = true <-> v < m).
Proof.
  intros P C. unfold covered. rewrite Nat.div_mul by lia. rewrite Nat.ltb_lt. split; intro H.
  - apply Nat.nle_gt. intro K. nia.
  - nia.
Qed.
Lemma mod_at dim v c : 0 < dim -> c < dim -> (v * dim + c) mod dim = c.
Proof. intros P C. rewrite Nat.add_comm, Nat.mod_add by lia. now apply Nat.mod_small. Qed.

Lemma length_clampToBounds d s : length (clampToBounds d s) = length s.
Proof. unfold clampToBounds. now rewrite map_length, length_indexed. Qed.
Lemma length_clampSeg d s : length (clampSeg d s) = length s.
Proof. unfold clampSeg. destruct flag; [apply length_clampToBounds|reflexivity]. Qed.
Lemma nth_clampToBounds d s i x : nth_error s i = Some x -> nth_error (clampToBounds d s) i = Some (clampEntry d (length s) (i, x)).
Proof.
  intro E. unfold clampToBounds. assert (I : nth_error (indexed s) i = Some (i, x)) by (apply nth_error_indexed; now split).
  now rewrite (map_nth_error (clampEntry d (length s)) i (indexed s) I).
Qed.
Lemma violates_iff d s : violates d s = true <-> exists i x, nth_error s i = Some x /\ covered d (length s) i = true /\ entryViolates d i x = true.
Proof.
  unfold violates. rewrite existsb_indexed. split; intros (i & x & E & H); exists i, x; cbn in *.
  - apply andb_true_iff in H. tauto.
  - rewrite andb_true_iff. tauto.
Qed.
Lemma entryViolates_false d i x :
  entryViolates d i x = false <-> (forall b, lowerAt d i = Some b -> (b <= x)%Q) /\ (forall b, upperAt d i = Some b -> (x <= b)%Q).
Proof.
  unfold entryViolates. rewrite orb_false_iff. split; intros [H K].
  - split; intros b E; rewrite E in *; now apply qlt_false.
  - split; [destruct (lowerAt d i) as [b|]|destruct (upperAt d i) as [b|]]; try reflexivity; apply qlt_false; auto.
Qed.
Lemma entryViolates_true d i x :
  entryViolates d i x = true <-> (exists b, lowerAt d i = Some b /\ (x < b)%Q) \/ (exists b, upperAt d i = Some b /\ (b < x)%Q).
Proof.
  unfold entryViolates. rewrite orb_true_iff. split.
  - intros [H|H]; [destruct (lowerAt d i) as [b|] eqn:E|destruct (upperAt d i) as [b|] eqn:E]; try discriminate; apply qlt_iff in H; eauto.
  - intros [(b & -> & H)|(b & -> & H)]; [left|right]; now apply qlt_iff.
Qed.
Lemma withBounds_at d i : (lowerAt d i <> None \/ upperAt d i <> None) -> withBounds d = true.
Proof.
  unfold withBounds, lowerAt, upperAt. rewrite orb_true_iff, !existsb_exists.
  assert (G : forall l n, nth n l (@None Q) <> None -> exists x, In x l /\ hasValue x = true).
  { intros l n H. exists (nth n l None). split; [|destruct (nth n l None); [reflexivity|contradiction]].
    destruct (Nat.lt_ge_cases n (length l)) as [L|L]; [now apply nth_In|]. rewrite nth_overflow in H by lia. contradiction. }
  intros [H|H]; [left|right]; eauto.
Qed.
Lemma flag_iff d s : flag d s = true <-> exists i x, nth_error s i = Some x /\ covered d (length s) i = true /\ entryViolates d i x = true.
Proof.
  unfold flag. rewrite andb_true_iff, violates_iff. split; [tauto|]. intros (i & x & E & C & V). split; [|eauto].
  apply (withBounds_at d i). apply entryViolates_true in V as [(b & F & _)|(b & F & _)]; rewrite F; [left|right]; discriminate.
Qed.
(** the entry after clamping *)
Definition clamped (d : dataInfo) (i : nat) (x : Q) : Q :=
  let y := match lowerAt d i with Some b => qmax x b | None => x end in
  match upperAt d i with Some b => qmin y b | None => y end.
Lemma clamped_id d i x : entryViolates d i x = false -> (clamped d i x == x)%Q.
Proof.
  intro H. apply entryViolates_false in H as [H K]. unfold clamped.
  destruct (lowerAt d i) as [l|]; [specialize (H l eq_refl)|]; (destruct (upperAt d i) as [u|]; [specialize (K u eq_refl)|]);
    try destruct (qmax_cases x l) as [[? ->]|[? ->]];
    try match goal with |- context [qmin ?y ?b] => destruct (qmin_cases y b) as [[? ->]|[? ->]] end; lra.
Qed.
Lemma clamped_ok d i x : (forall l u, lowerAt d i = Some l -> upperAt d i = Some u -> (l <= u)%Q) -> entryViolates d i (clamped d i x) = false.
Proof.
  intro O. apply entryViolates_false. unfold clamped.
  destruct (lowerAt d i) as [l|] eqn:L; (destruct (upperAt d i) as [u|] eqn:U);
    try (specialize (O _ _ eq_refl eq_refl));
    try destruct (qmax_cases x l) as [[? ->]|[? ->]];
    try match goal with |- context [qmin ?y ?b] => destruct (qmin_cases y b) as [[? ->]|[? ->]] end;
    (split; intros b E; inversion E; subst; lra).
Qed.
Lemma clamped_nearest d i x z : entryViolates d i z = false -> (qabs (x - clamped d i x) <= qabs (x - z))%Q.
Proof.
  intro H. apply entryViolates_false in H as [H K]. unfold clamped.
  destruct (lowerAt d i) as [l|]; [specialize (H l eq_refl)|]; (destruct (upperAt d i) as [u|]; [specialize (K u eq_refl)|]);
    try destruct (qmax_cases x l) as [[? ->]|[? ->]];
    try match goal with |- context [qmin ?y ?b] => destruct (qmin_cases y b) as [[? ->]|[? ->]] end;
    match goal with |- (qabs ?a <= qabs ?b)%Q => destruct (qabs_cases a) as [[? ->]|[? ->]]; destruct (qabs_cases b) as [[? ->]|[? ->]] end; lra.
Qed.
Lemma clampSeg_entry d s i x : nth_error s i = Some x -> covered d (length s) i = true ->
  exists y, nth_error (clampSeg d s) i = Some y /\ (y == clamped d i x)%Q.
Proof.
  intros E C. unfold clampSeg. destruct (flag d s) eqn:F.
  - exists (clamped d i x). split; [|reflexivity]. rewrite (nth_clampToBounds d s i x E). unfold clampEntry. cbn [fst snd]. rewrite C. reflexivity.
  - exists x. split; [exact E|]. symmetry. apply clamped_id. destruct (entryViolates d i x) eqn:V; [|reflexivity].
    assert (F' : flag d s = true) by (apply flag_iff; eauto). congruence.
Qed.

(** * Shortening the step *)
Definition shorten (d : dataInfo) (i : nat) (x u : Q) : Q :=
  qmax (match lowerAt d i with Some b => quotient (x - b)%Q (- qabs u)%Q | None => 0%Q end)
       (match upperAt d i with Some b => quotient (x - b)%Q (qabs u) | None => 0%Q end).
Lemma quotient_cases n e : ((e == 0)%Q /\ quotient n e = 0%Q) \/ (~ (e == 0)%Q /\ (quotient n e * e == n)%Q).
Proof.
  unfold quotient. destruct (Qeq_bool e 0) eqn:E.
  - left. split; [now apply Qeq_bool_eq|reflexivity].
  - right. assert (N : ~ (e == 0)%Q) by now apply Qeq_bool_neq. split; [exact N|]. field. exact N.
Qed.
(** [v] the value before the step, [u] the step *)
Lemma shorten_range d i v u : entryViolates d i v = false -> (shorten d i (v + u) u <= 1)%Q.
Proof.
  intro H. apply entryViolates_false in H as [H K]. unfold shorten.
  assert (A : (match lowerAt d i with Some b => quotient (v + u - b) (- qabs u) | None => 0 end <= 1)%Q).
  { destruct (lowerAt d i) as [l|]; [specialize (H l eq_refl)|lra].
    destruct (quotient_cases (v + u - l) (- qabs u)) as [[? ->]|[N E]]; [lra|].
    set (q := quotient _ _) in *. pose proof (qabs_nonneg u). destruct (Qlt_le_dec 1 q) as [G|G]; [|exact G]. exfalso.
    assert (0 < qabs u)%Q by (destruct (qabs_cases u) as [[? ->]|[? ->]]; destruct (qabs_cases u) as [[? F]|[? F]]; rewrite ?F in N; try lra;
      apply Qnot_le_lt; intro; apply N; lra).
    assert (q * qabs u > qabs u)%Q by nra. destruct (qabs_cases u) as [[? F]|[? F]]; rewrite F in *; lra. }
  assert (B : (match upperAt d i with Some b => quotient (v + u - b) (qabs u) | None => 0 end <= 1)%Q).
  { destruct (upperAt d i) as [l|]; [specialize (K l eq_refl)|lra].
    destruct (quotient_cases (v + u - l) (qabs u)) as [[? ->]|[N E]]; [lra|].
    set (q := quotient _ _) in *. pose proof (qabs_nonneg u). destruct (Qlt_le_dec 1 q) as [G|G]; [|exact G]. exfalso.
    assert (0 < qabs u)%Q by (apply Qnot_le_lt; intro; apply N; lra).
    assert (q * qabs u > qabs u)%Q by nra. destruct (qabs_cases u) as [[? F]|[? F]]; rewrite F in *; lra. }
  destruct (qmax_or (match lowerAt d i with Some b => quotient (v + u - b) (- qabs u) | None => 0 end)%Q
     (match upperAt d i with Some b => quotient (v + u - b) (qabs u) | None => 0 end)%Q) as [->| ->]; assumption.
Qed.
(** shortening by at least the factor brings the value back *)
Lemma shorten_ok d i v u s : entryViolates d i v = false -> (0 <= s)%Q -> (s <= 1)%Q -> (shorten d i (v + u) u <= s)%Q ->
  entryViolates d i (v + u - u * s)%Q = false.
Proof.
  intros H S0 S1 S. apply entryViolates_false in H as [H K]. apply entryViolates_false. unfold shorten in S.
  split; intros b E; rewrite E in S; [specialize (H b E)|specialize (K b E)].
  - pose proof (Qle_trans _ _ _ (qmax_l _ _) S) as T.
    destruct (quotient_cases (v + u - b) (- qabs u)) as [[Z F]|[N F]].
    + assert (u == 0)%Q by (destruct (qabs_cases u) as [[? G]|[? G]]; rewrite G in Z; lra). nra.
    + set (q := quotient _ _) in *. destruct (qabs_cases u) as [[? G]|[? G]]; rewrite G in *.
      * nra.
      * assert (s * (- u) >= q * (- u))%Q by nra. lra.
  - pose proof (Qle_trans _ _ _ (qmax_r _ _) S) as T.
    destruct (quotient_cases (v + u - b) (qabs u)) as [[Z F]|[N F]].
    + assert (u == 0)%Q by (destruct (qabs_cases u) as [[? G]|[? G]]; rewrite G in Z; lra). nra.
    + set (q := quotient _ _) in *. destruct (qabs_cases u) as [[? G]|[? G]]; rewrite G in *.
      * assert (s * u >= q * u)%Q by nra. lra.
      * nra.
Qed.
(** a smaller factor does not *)
Lemma shorten_needed d i v u s : entryViolates d i v = false -> (0 <= s)%Q -> (s < shorten d i (v + u) u)%Q ->
  entryViolates d i (v + u - u * s)%Q = true.
Proof.
  intros H S0 S. apply entryViolates_false in H as [H K]. apply entryViolates_true. unfold shorten in S.
  destruct (qmax_or (match lowerAt d i with Some b => quotient (v + u - b) (- qabs u) | None => 0 end)%Q
     (match upperAt d i with Some b => quotient (v + u - b) (qabs u) | None => 0 end)%Q) as [E|E]; rewrite E in S; clear E.
  - left. destruct (lowerAt d i) as [b|]; [|lra]. exists b. split; [reflexivity|]. specialize (H b eq_refl).
    destruct (quotient_cases (v + u - b) (- qabs u)) as [[Z F]|[N F]]; [rewrite F in S; lra|].
    set (q := quotient _ _) in *. pose proof (qabs_nonneg u).
    assert (P : (0 < qabs u)%Q) by (apply Qnot_le_lt; intro; apply N; lra).
    destruct (qabs_cases u) as [[? G]|[? G]]; rewrite G in *.
    + nra.
    + assert (s * (- u) < q * (- u))%Q by nra. lra.
  - right. destruct (upperAt d i) as [b|]; [|lra]. exists b. split; [reflexivity|]. specialize (K b eq_refl).
    destruct (quotient_cases (v + u - b) (qabs u)) as [[Z F]|[N F]]; [rewrite F in S; lra|].
    set (q := quotient _ _) in *. pose proof (qabs_nonneg u).
    assert (P : (0 < qabs u)%Q) by (apply Qnot_le_lt; intro; apply N; lra).
    destruct (qabs_cases u) as [[? G]|[? G]]; rewrite G in *.
    + assert (s * u < q * u)%Q by nra. lra.
    + nra.
Qed.
Lemma shorten_inside d i x u : entryViolates d i x = false -> (shorten d i x u <= 0)%Q.
Proof.
  intro H. apply entryViolates_false in H as [H K]. unfold shorten. pose proof (qabs_nonneg u).
  match goal with |- (qmax ?a ?b <= 0)%Q => destruct (qmax_or a b) as [->| ->] end.
  - destruct (lowerAt d i) as [b|]; [|lra]. specialize (H b eq_refl).
    destruct (quotient_cases (x - b) (- qabs u)) as [[Z F]|[N F]]; [rewrite F; lra|]. set (q := quotient _ _) in *.
    destruct (Qlt_le_dec 0 q) as [G|G]; [|exact G]. assert (0 < qabs u)%Q by (apply Qnot_le_lt; intro; apply N; lra). nra.
  - destruct (upperAt d i) as [b|]; [|lra]. specialize (K b eq_refl).
    destruct (quotient_cases (x - b) (qabs u)) as [[Z F]|[N F]]; [rewrite F; lra|]. set (q := quotient _ _) in *.
    destruct (Qlt_le_dec 0 q) as [G|G]; [|exact G]. assert (0 < qabs u)%Q by (apply Qnot_le_lt; intro; apply N; lra). nra.
Qed.

(** all entries of a segment that have a bound *)
Definition entries (d : dataInfo) (vs us : vec) (P : nat -> Q -> Q -> Prop) : Prop :=
  forall i x y, nth_error vs i = Some x -> nth_error us i = Some y -> covered d (length vs) i = true -> P i x y.
Lemma factor_seg d vs us : length us = length vs -> entries d vs us (fun i x y => entryViolates d i x = false) ->
  exists s, computeShorteningFactor d (zipWith Qplus vs us) us = Some s /\ (0 <= s)%Q /\ (s <= 1)%Q /\
    entries d vs us (fun i x y => (shorten d i (x + y) y <= s)%Q) /\
    (s = 0%Q \/ exists i x y, nth_error vs i = Some x /\ nth_error us i = Some y /\ covered d (length vs) i = true /\ s = shorten d i (x + y)%Q y).
Proof.
  intros E H. unfold computeShorteningFactor. rewrite (length_zipWith _ _ _ E).
  set (l := map _ _). pose proof (fold_max_ge l 0%Q) as [G0 G]. pose proof (fold_max_in l 0%Q) as I.
  set (s := fold_left qmax l 0%Q) in *. exists s.
  assert (L : forall i x y, nth_error vs i = Some x -> nth_error us i = Some y ->
     nth_error l i = Some (shortening d (length vs) (i, ((x + y)%Q, y)))).
  { intros i x y X Y. unfold l. apply map_nth_error. apply nth_error_indexed. cbn. split; [reflexivity|].
    apply nth_combine. split; [now apply nth_zipWith|exact Y]. }
  assert (L' : forall z, In z l -> exists i x y, nth_error vs i = Some x /\ nth_error us i = Some y /\ z = shortening d (length vs) (i, ((x + y)%Q, y))).
  { intros z J. unfold l in J. apply in_map_iff in J as ([i [p q]] & <- & J). apply In_nth_error in J as (n & J).
    apply nth_error_indexed in J as [N J]. cbn in N, J. subst n. apply nth_combine in J as [J1 J2].
    assert (B : i < length vs) by (rewrite <- (length_zipWith Qplus vs us E); apply nth_error_Some; congruence).
    exists i, (nth i vs 0%Q), q. split; [now apply nth_error_nth'|]. split; [exact J2|].
    rewrite (nth_zipWith Qplus vs us i (nth i vs 0%Q) q (nth_error_nth' _ _ B) J2) in J1. injection J1 as <-. reflexivity. }
  assert (S1 : (s <= 1)%Q).
  { destruct I as [->|J]; [lra|]. destruct (L' s J) as (i & x & y & X & Y & ->). unfold shortening.
    destruct (covered d (length vs) i) eqn:C; [|lra]. apply (shorten_range d i x y). now apply (H i x y). }
  split. { destruct (qle_dec 0 s) as [[-> _]|[_ ?]]; [|lra]. destruct (qle_dec s 1) as [[-> _]|[_ ?]]; [reflexivity|lra]. }
  split; [exact G0|]. split; [exact S1|]. split.
  - intros i x y X Y C. specialize (G _ (nth_error_In _ _ (L i x y X Y))). unfold shortening in G. rewrite C in G. exact G.
  - destruct I as [->|J]; [now left|]. destruct (L' s J) as (i & x & y & X & Y & F). unfold shortening in F.
    destruct (covered d (length vs) i) eqn:C; [|now left]. right. exists i, x, y. now repeat (split; [assumption|]).
Qed.

Lemma skipn_combine {A B} n : forall (a : list A) (b : list B), skipn n (combine a b) = combine (skipn n a) (skipn n b).
Proof.
  induction n as [|n IH]; intros [|x a] [|y b]; cbn; try reflexivity.
  - now destruct (skipn n a).
  - apply IH.
Qed.
Lemma firstn_zip f n a b : firstn n (zipWith f a b) = zipWith f (firstn n a) (firstn n b).
Proof. unfold zipWith. now rewrite firstn_map, combine_firstn. Qed.
Lemma skipn_zip f n a b : skipn n (zipWith f a b) = zipWith f (skipn n a) (skipn n b).
Proof. unfold zipWith. now rewrite skipn_map, skipn_combine. Qed.
Lemma segs_zip f sizes : forall a b, segs sizes (zipWith f a b) = map2 (zipWith f) (segs sizes a) (segs sizes b).
Proof. induction sizes as [|n r IH]; intros a b; cbn; [reflexivity|]. now rewrite firstn_zip, skipn_zip, IH. Qed.

(** all entries of a vector that have a bound *)
Fixpoint everywhere (infos : list dataInfo) (vss uss : list vec) (P : dataInfo -> nat -> Q -> Q -> Prop) : Prop :=
  match infos, vss, uss with
  | d :: r, vs :: vr, us :: ur => entries d vs us (P d) /\ everywhere r vr ur P
  | _, _, _ => True
  end.
Fixpoint somewhere (infos : list dataInfo) (vss uss : list vec) (P : dataInfo -> nat -> Q -> Q -> Prop) : Prop :=
  match infos, vss, uss with
  | d :: r, vs :: vr, us :: ur =>
      (exists i x y, nth_error vs i = Some x /\ nth_error us i = Some y /\ covered d (length vs) i = true /\ P d i x y) \/ somewhere r vr ur P
  | _, _, _ => False
  end.
Lemma everywhere_mono infos : forall vss uss (P R : dataInfo -> nat -> Q -> Q -> Prop), (forall d i x y, P d i x y -> R d i x y) ->
  everywhere infos vss uss P -> everywhere infos vss uss R.
Proof.
  induction infos as [|d r IH]; intros [|vs vr] [|us ur] P R M H; cbn in *; auto.
  destruct H as [H1 H2]. split; [|now apply (IH _ _ P)]. intros i x y X Y C. apply M. now apply H1.
Qed.
Lemma everywhere_at infos : forall vss uss P k d vs us i x y, everywhere infos vss uss P ->
  nth_error infos k = Some d -> nth_error vss k = Some vs -> nth_error uss k = Some us ->
  nth_error vs i = Some x -> nth_error us i = Some y -> covered d (length vs) i = true -> P d i x y.
Proof.
  induction infos as [|e r IH]; intros vss uss P k d vs us i x y H D V U X Y C; [now destruct k|].
  destruct k as [|k]; (destruct vss as [|vs' vr]; [discriminate|]); (destruct uss as [|us' ur]; [discriminate|]); cbn in *; destruct H as [H1 H2].
  - injection D as ->. injection V as ->. injection U as ->. now apply H1.
  - now apply (IH vr ur P k d vs us).
Qed.
Lemma somewhere_at infos : forall vss uss P, somewhere infos vss uss P -> exists k d vs us i x y,
  nth_error infos k = Some d /\ nth_error vss k = Some vs /\ nth_error uss k = Some us /\
  nth_error vs i = Some x /\ nth_error us i = Some y /\ covered d (length vs) i = true /\ P d i x y.
Proof.
  induction infos as [|e r IH]; intros [|vs vr] [|us ur] P H; cbn in *; try contradiction.
  destruct H as [(i & x & y & X & Y & C & H)|H].
  - exists 0, e, vs, us, i, x, y. now repeat (split; [assumption || reflexivity|]).
  - destruct (IH _ _ _ H) as (k & d & vs' & us' & i & x & y & H'). exists (S k), d, vs', us', i, x, y. exact H'.
Qed.
Lemma at_everywhere infos : forall vss uss (P : dataInfo -> nat -> Q -> Q -> Prop),
  (forall k d vs us i x y, nth_error infos k = Some d -> nth_error vss k = Some vs -> nth_error uss k = Some us ->
     nth_error vs i = Some x -> nth_error us i = Some y -> covered d (length vs) i = true -> P d i x y) -> everywhere infos vss uss P.
Proof.
  induction infos as [|e r IH]; intros [|vs vr] [|us ur] P H; cbn; auto. split.
  - intros i x y. now apply (H 0 e vs us).
  - apply IH. intros k. apply (H (S k)).
Qed.

Lemma local_scale infos : forall sizes vals upd, length sizes = length infos -> length vals = fold_right plus 0 sizes -> length upd = length vals ->
  everywhere infos (segs sizes vals) (segs sizes upd) (fun d i x y => entryViolates d i x = false) ->
  exists s, localScale (combine infos sizes) (map2 flag infos (segs sizes (zipWith Qplus vals upd))) (zipWith Qplus vals upd) upd = Some s /\
    (0 <= s)%Q /\ (s <= 1)%Q /\
    everywhere infos (segs sizes vals) (segs sizes upd) (fun d i x y => (shorten d i (x + y) y <= s)%Q) /\
    (s = 0%Q \/ somewhere infos (segs sizes vals) (segs sizes upd) (fun d i x y => s = shorten d i (x + y)%Q y)).
Proof.
  induction infos as [|d r IH]; intros [|n sizes] vals upd E L M H; cbn in *; try lia.
  - exists 0%Q. split; [reflexivity|]. repeat split; try lra. now left.
  - destruct H as [H1 H2].
    assert (LZ : length (zipWith Qplus vals upd) = length vals) by (apply length_zipWith; lia).
    rewrite !cut_ok by lia. rewrite firstn_zip, skipn_zip.
    destruct (IH sizes (skipn n vals) (skipn n upd)) as (t & F & T0 & T1 & T2 & T3); try (rewrite ?skipn_length; lia); [exact H2|].
    rewrite F.
    assert (LE : length (firstn n upd) = length (firstn n vals)) by (rewrite !firstn_length; lia).
    destruct (factor_seg d (firstn n vals) (firstn n upd) LE H1) as (s & G & S0 & S1 & S2 & S3).
    set (vs := firstn n vals) in *. set (us := firstn n upd) in *.
    destruct (flag d (zipWith Qplus vs us)) eqn:FL.
    + rewrite G. exists (qmax s t). split; [reflexivity|].
      pose proof (qmax_l s t). pose proof (qmax_r s t).
      split; [lra|]. split; [destruct (qmax_or s t) as [->| ->]; assumption|]. split; [split|].
      * intros i x y X Y C. specialize (S2 i x y X Y C). cbn in S2. lra.
      * revert T2. apply everywhere_mono. intros. cbn in *. lra.
      * destruct (qmax_or s t) as [->| ->].
        -- destruct S3 as [->|S3]; [now left|]. right. left. exact S3.
        -- destruct T3 as [->|T3]; [now left|]. right. now right.
    + exists (qmax 0 t). split; [reflexivity|]. destruct (qmax_cases 0 t) as [[Z ->]|[Z ->]]; [|lra].
      split; [exact T0|]. split; [exact T1|]. split; [split; [|exact T2]|].
      * intros i x y X Y C.
        assert (V : entryViolates d i (x + y)%Q = false).
        { destruct (entryViolates d i (x + y)%Q) eqn:V; [|reflexivity].
          assert (flag d (zipWith Qplus vs us) = true); [|congruence]. apply flag_iff. exists i, (x + y)%Q.
          split; [now apply nth_zipWith|]. split; [|exact V]. now rewrite (length_zipWith Qplus vs us LE). }
        pose proof (shorten_inside d i (x + y)%Q y V). lra.
      * destruct T3 as [->|T3]; [now left|]. right. now right.
Qed.

(** * Values of a vector *)
Section Values.
Variables (infos : list dataInfo) (r : rank).
Hypothesis O : one_step infos r.
Notation sizes := (r_sizes r).
Notation info k := (nth k infos (Info 0 [] [])).

Lemma at_value data k v c : length data = fold_right plus 0 sizes -> exists_value infos sizes k v c ->
  exists seg, nth_error infos k = Some (info k) /\ nth_error (segs sizes data) k = Some seg /\ length seg = nth k sizes 0 /\
    nth_error seg (v * i_dim (info k) + c) = Some (value infos sizes data k v c) /\
    covered (info k) (length seg) (v * i_dim (info k) + c) = true /\
    lowerAt (info k) (v * i_dim (info k) + c) = lower_bound infos k c /\ upperAt (info k) (v * i_dim (info k) + c) = upper_bound infos k c.
Proof.
  intros L (K & C & V). destruct O as (O1 & O2 & O3 & O4). destruct (O2 k K) as (P & m & M).
  exists (nth k (segs sizes data) []).
  assert (LS : length (nth k (segs sizes data) []) = nth k sizes 0) by now apply length_seg.
  rewrite M, Nat.div_mul in V by lia.
  assert (B : v * i_dim (info k) + c < nth k sizes 0) by (rewrite M; nia).
  split; [apply nth_error_nth'; lia|]. split; [apply nth_error_nth'; rewrite length_segs; lia|]. split; [exact LS|].
  split.
  { rewrite nth_segs by assumption. unfold value, position. rewrite <- Nat.add_assoc. apply nth_error_nth'. rewrite L.
    now apply offset_lt. }
  split; [rewrite LS, M; now apply covered_at|]. unfold lowerAt, upperAt, lower_bound, upper_bound. rewrite mod_at by assumption. split; reflexivity.
Qed.
Lemma value_at data k d seg i x : length data = fold_right plus 0 sizes -> nth_error infos k = Some d -> nth_error (segs sizes data) k = Some seg ->
  nth_error seg i = Some x -> covered d (length seg) i = true ->
  exists v c, exists_value infos sizes k v c /\ i = v * i_dim d + c /\ x = value infos sizes data k v c /\
    lowerAt d i = lower_bound infos k c /\ upperAt d i = upper_bound infos k c.
Proof.
  intros L D S X C. destruct O as (O1 & O2 & O3 & O4).
  assert (K : k < length infos) by (apply nth_error_Some; congruence). destruct (O2 k K) as (P & m & M).
  assert (Dk : info k = d) by now apply nth_error_nth. rewrite Dk in *.
  assert (Sk : nth k (segs sizes data) [] = seg) by now apply nth_error_nth.
  assert (LS : length seg = nth k sizes 0) by (rewrite <- Sk; now apply length_seg).
  assert (Ei : i = i / i_dim d * i_dim d + i mod i_dim d) by (rewrite Nat.mul_comm; apply Nat.div_mod; lia).
  assert (Mi : i mod i_dim d < i_dim d) by (apply Nat.mod_upper_bound; lia).
  exists (i / i_dim d), (i mod i_dim d).
  assert (EV : exists_value infos sizes k (i / i_dim d) (i mod i_dim d)).
  { split; [exact K|]. rewrite Dk. split; [exact Mi|]. rewrite M, Nat.div_mul by lia.
    rewrite Ei, LS, M in C. now apply covered_at in C. }
  split; [exact EV|]. split; [exact Ei|].
  destruct (at_value data k _ _ L EV) as (seg' & _ & S' & _ & V & _ & Lo & Up). rewrite Dk, <- Ei in *.
  rewrite S in S'. injection S' as <-. rewrite X in V. injection V as <-. now repeat split.
Qed.
Lemma admissible_entry d k i c x : lowerAt d i = lower_bound infos k c -> upperAt d i = upper_bound infos k c ->
  (admissible infos k c x <-> entryViolates d i x = false).
Proof. intros A B. rewrite entryViolates_false, A, B. reflexivity. Qed.
Lemma admissible_Qeq k c x y : (x == y)%Q -> admissible infos k c x -> admissible infos k c y.
Proof. intros E [A B]. split; intros b F; [specialize (A b F)|specialize (B b F)]; lra. Qed.

Lemma within_everywhere data upd : length data = fold_right plus 0 sizes ->
  within_bounds infos sizes data -> everywhere infos (segs sizes data) (segs sizes upd) (fun d i x y => entryViolates d i x = false).
Proof.
  intros L W. apply at_everywhere. intros k d vs us i x y D V U X Y C.
  destruct (value_at data k d vs i x L D V X C) as (v & c & E & Ei & -> & A & B).
  apply (admissible_entry d k i c _ A B). now apply W.
Qed.
Lemma flags_false_within data : length data = fold_right plus 0 sizes ->
  existsb (fun v => v) (map2 flag infos (segs sizes data)) = false <-> within_bounds infos sizes data.
Proof.
  intro L. split.
  - intros H k v c E. destruct (at_value data k v c L E) as (seg & D & S & _ & V & C & A & B).
    apply (admissible_entry _ k _ c _ A B). destruct (entryViolates _ _ _) eqn:X; [|reflexivity].
    assert (F : flag (info k) seg = true) by (apply flag_iff; eauto).
    assert (T : existsb (fun v => v) (map2 flag infos (segs sizes data)) = true); [|congruence].
    apply existsb_exists. exists true. split; [|reflexivity]. rewrite <- F. apply (nth_error_In _ k). now apply nth_map2.
  - intro W. destruct (existsb _ _) eqn:E; [|reflexivity]. apply existsb_exists in E as (b & I & ->).
    exfalso. apply In_nth_error in I as (k & I).
    assert (K : k < length infos).
    { rewrite <- (length_map2 flag infos (segs sizes data)); [apply nth_error_Some; congruence|]. rewrite length_segs. apply O. }
    assert (D : nth_error infos k = Some (info k)) by (apply nth_error_nth'; lia).
    assert (S : nth_error (segs sizes data) k = Some (nth k (segs sizes data) [])).
    { apply nth_error_nth'. rewrite length_segs. destruct O as [-> _]. exact K. }
    rewrite (nth_map2 flag _ _ k _ _ D S) in I. injection I as F. apply flag_iff in F as (i & x & X & C & V).
    destruct (value_at data k _ _ i x L D S X C) as (v & c & E & _ & -> & A & B).
    pose proof (proj1 (admissible_entry _ k i c _ A B) (W k v c E)). congruence.
Qed.
Lemma length_updated f : length (zipWith f (r_values r) (r_update r)) = fold_right plus 0 sizes.
Proof. destruct O as (_ & _ & A & B). rewrite length_zipWith; congruence. Qed.
Lemma value_zip f k v c : exists_value infos sizes k v c ->
  value infos sizes (zipWith f (r_values r) (r_update r)) k v c = f (value infos sizes (r_values r) k v c) (value infos sizes (r_update r) k v c).
Proof.
  intro E. destruct O as (A1 & A2 & A3 & A4). unfold value. apply nth_zip; [lia|].
  destruct (at_value (r_values r) k v c A3 E) as (seg & _ & S & LS & V & _). unfold position.
  destruct E as (K & C & D). destruct (A2 k K) as (P & m & M). rewrite M, Nat.div_mul in D by lia.
  assert (B : v * i_dim (info k) + c < nth k sizes 0) by (rewrite M; nia). rewrite A3, <- Nat.add_assoc.
  now apply offset_lt.
Qed.
End Values.

(** concatenating the clamped segments *)
Lemma concat_clamp infos : forall sizes data, length sizes = length infos -> length data = fold_right plus 0 sizes ->
  length (concat (map2 clampSeg infos (segs sizes data))) = length data /\
  segs sizes (concat (map2 clampSeg infos (segs sizes data))) = map2 clampSeg infos (segs sizes data).
Proof.
  induction infos as [|d r IH]; intros [|n sizes] data E L; cbn in *; try lia; [now split|].
  destruct (IH sizes (skipn n data)) as [A B]; [lia|rewrite skipn_length; lia|].
  assert (LC : length (clampSeg d (firstn n data)) = n) by (rewrite length_clampSeg, firstn_length; lia).
  rewrite app_length, LC, A, skipn_length. split; [lia|].
  rewrite firstn_app, skipn_app, LC, Nat.sub_diag. cbn. rewrite app_nil_r. rewrite firstn_all2 by lia. rewrite skipn_all2 by lia.
  cbn. now rewrite B.
Qed.
Lemma clampSeg_none infos : forall l, length l = length infos -> existsb (fun v => v) (map2 flag infos l) = false -> map2 clampSeg infos l = l.
Proof.
  induction infos as [|d r IH]; intros [|s l] E X; cbn in *; try lia; [reflexivity|].
  apply orb_false_iff in X as [X1 X2]. rewrite IH by (assumption || lia). unfold clampSeg. now rewrite X1.
Qed.
