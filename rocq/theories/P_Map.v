(** Mappings: proofs. *)
From Coq Require Import ZArith QArith Bool List Arith Lia Lqa Qfield Permutation.
From Verif Require Import M_Mesh M_Prep M_Box M_Quad M_Map S_Mesh S_Map P_Bary.
Import ListNotations.
Open Scope nat_scope.

(** * Absolute values, sums *)
Lemma absQ_le x b : (absQ x <= b <-> - b <= x /\ x <= b)%Q.
Proof.
  unfold absQ. destruct (Qle_bool 0 x) eqn:E.
  - apply Qle_bool_iff in E. split; intro; lra.
  - assert (~ (0 <= x)%Q) by (intro H; apply Qle_bool_iff in H; congruence). split; intro; lra.
Qed.
Lemma absQ_nonneg x : (0 <= absQ x)%Q.
Proof.
  unfold absQ. destruct (Qle_bool 0 x) eqn:E.
  - apply Qle_bool_iff in E. lra.
  - assert (~ (0 <= x)%Q) by (intro H; apply Qle_bool_iff in H; congruence). lra.
Qed.
Lemma absQ_self x : (- absQ x <= x /\ x <= absQ x)%Q.
Proof. apply absQ_le. lra. Qed.
Lemma absQ_mult_le x y a b : (absQ x <= a -> absQ y <= b -> absQ (x * y) <= a * b)%Q.
Proof.
  intros X Y. assert (AX := absQ_nonneg x). assert (AY := absQ_nonneg y).
  assert (SX := absQ_self x). assert (SY := absQ_self y).
  apply absQ_le in X. apply absQ_le in Y. apply absQ_le.
  assert (0 <= (a - x) * (b - y))%Q by (apply Qmult_le_0_compat; lra).
  assert (0 <= (a + x) * (b + y))%Q by (apply Qmult_le_0_compat; lra).
  assert (0 <= (a - x) * (b + y))%Q by (apply Qmult_le_0_compat; lra).
  assert (0 <= (a + x) * (b - y))%Q by (apply Qmult_le_0_compat; lra).
  split; lra.
Qed.
Lemma absQ_comp x y : (x == y -> absQ x <= absQ y)%Q.
Proof. intro E. apply absQ_le. assert (H := absQ_self y). lra. Qed.

Lemma qsum_plus n f g : (qsum n (fun k => f k + g k) == qsum n f + qsum n g)%Q.
Proof. induction n as [|n IH]; cbn [qsum]; [ring|]. rewrite IH. ring. Qed.
Lemma qsum_scale n c f : (qsum n (fun k => c * f k) == c * qsum n f)%Q.
Proof. induction n as [|n IH]; cbn [qsum]; [ring|]. rewrite IH. ring. Qed.
Lemma qsum_zero n : (qsum n (fun _ => 0) == 0)%Q.
Proof. induction n as [|n IH]; cbn [qsum]; [ring|]. rewrite IH. ring. Qed.
Lemma qsum_le n f g : (forall k, k < n -> (f k <= g k)%Q) -> (qsum n f <= qsum n g)%Q.
Proof.
  induction n as [|n IH]; intro H; cbn [qsum]; [lra|].
  assert (A := IH (fun k L => H k (Nat.lt_lt_succ_r _ _ L))). assert (B := H n (Nat.lt_succ_diag_r n)). lra.
Qed.
Lemma qsum_pick n j (x : Q) : j < n -> (qsum n (fun i => if Nat.eqb i j then x else 0) == x)%Q.
Proof.
  induction n as [|n IH]; intro H; [lia|]. cbn [qsum]. destruct (Nat.eq_dec n j) as [->|N].
  - rewrite Nat.eqb_refl. rewrite (qsum_ext j _ (fun _ => 0)%Q).
    + rewrite qsum_zero. ring.
    + intros k K. replace (k =? j) with false by (symmetry; apply Nat.eqb_neq; lia). reflexivity.
  - rewrite IH by lia. replace (n =? j) with false by (symmetry; apply Nat.eqb_neq; lia). ring.
Qed.
Lemma total_app l r : (total (l ++ r) == total l + total r)%Q.
Proof. induction l as [|x l IH]; cbn [app total fold_right]; [unfold total; ring|]. fold (total (l ++ r)). fold (total l). rewrite IH. ring. Qed.
Lemma total_cons x l : (total (x :: l) == x + total l)%Q.
Proof. reflexivity. Qed.
Lemma total_perm l r : Permutation l r -> (total l == total r)%Q.
Proof.
  induction 1 as [|x l r P IH|x y l|a b c P IH P' IH']; rewrite ?total_cons.
  - reflexivity.
  - rewrite IH. reflexivity.
  - ring.
  - rewrite IH. exact IH'.
Qed.
Lemma total_map_ext {A} (f g : A -> Q) l : (forall x, In x l -> (f x == g x)%Q) -> (total (map f l) == total (map g l))%Q.
Proof.
  induction l as [|x l IH]; intro H; cbn [map]; [reflexivity|]. rewrite !total_cons.
  rewrite (H x) by (left; reflexivity). rewrite IH; [reflexivity|]. intros y Y. apply H. right; exact Y.
Qed.
Lemma total_map_scale {A} (f : A -> Q) c l : (total (map (fun x => c * f x) l) == c * total (map f l))%Q.
Proof. induction l as [|x l IH]; cbn [map]; [unfold total; cbn; ring|]. rewrite !total_cons, IH. ring. Qed.
Lemma total_map_plus {A} (f g : A -> Q) l : (total (map (fun x => f x + g x) l) == total (map f l) + total (map g l))%Q.
Proof. induction l as [|x l IH]; cbn [map]; [unfold total; cbn; ring|]. rewrite !total_cons, IH. ring. Qed.

(** * Segments *)
Lemma addSeg_spec : forall k c v v', addSeg k c v = Some v' ->
  length v' = length v /\
  forall n, (nth n v' 0 == nth n v 0 + (if (k <=? n) && (n <? k + length c) then nth (n - k) c 0 else 0))%Q.
Proof.
  induction k as [|k IHk].
  - induction c as [|y c IHc]; intros v v' H.
    + assert (v' = v) as -> by (destruct v; cbn in H; congruence). split; [reflexivity|]. intro n.
      replace ((0 <=? n) && (n <? 0 + length (@nil Q))) with false by (symmetry; apply andb_false_intro2; apply Nat.ltb_ge; cbn; lia). ring.
    + destruct v as [|x v]; [discriminate|]. cbn [addSeg] in H.
      destruct (addSeg 0 c v) as [r|] eqn:E; [|discriminate]. injection H as <-.
      destruct (IHc v r E) as (L & N). split; [cbn; lia|]. intros [|n]; cbn [nth length].
      * cbn. reflexivity.
      * rewrite N. replace ((0 <=? S n) && (S n <? 0 + S (length c))) with ((0 <=? n) && (n <? 0 + length c)).
        2:{ reflexivity. }
        rewrite !Nat.sub_0_r. reflexivity.
  - intros c [|x v] v' H; [discriminate|]. cbn [addSeg] in H.
    destruct (addSeg k c v) as [r|] eqn:E; [|discriminate]. injection H as <-.
    destruct (IHk c v r E) as (L & N). split; [cbn; lia|]. intros [|n]; cbn [nth].
    + cbn [Nat.leb andb]. ring.
    + rewrite N. cbn [Nat.leb Nat.sub]. replace (S n <? S k + length c) with (n <? k + length c).
      2:{ reflexivity. }
      reflexivity.
Qed.
Lemma addSeg_some : forall k c v, k + length c <= length v -> exists v', addSeg k c v = Some v'.
Proof.
  induction k as [|k IHk].
  - induction c as [|y c IHc]; intros v H.
    + destruct v; cbn; eauto.
    + destruct v as [|x v]; cbn [length] in H; [lia|]. destruct (IHc v) as (r & E); [cbn in *; lia|].
      cbn [addSeg]. rewrite E. cbn. eauto.
  - intros c [|x v] H; cbn [length] in H; [lia|]. destruct (IHk c v) as (r & E); [lia|].
    cbn [addSeg]. rewrite E. cbn. eauto.
Qed.
Lemma putSeg_spec : forall k c v v', putSeg k c v = Some v' ->
  length v' = length v /\
  forall n, nth n v' 0%Q = if (k <=? n) && (n <? k + length c) then nth (n - k) c 0%Q else nth n v 0%Q.
Proof.
  induction k as [|k IHk].
  - induction c as [|y c IHc]; intros v v' H.
    + assert (v' = v) as -> by (destruct v; cbn in H; congruence). split; [reflexivity|]. intro n.
      replace ((0 <=? n) && (n <? 0 + length (@nil Q))) with false by (symmetry; apply andb_false_intro2; apply Nat.ltb_ge; cbn; lia). reflexivity.
    + destruct v as [|x v]; [discriminate|]. cbn [putSeg] in H.
      destruct (putSeg 0 c v) as [r|] eqn:E; [|discriminate]. injection H as <-.
      destruct (IHc v r E) as (L & N). split; [cbn; lia|]. intros [|n]; cbn [nth length].
      * reflexivity.
      * rewrite N. replace ((0 <=? S n) && (S n <? 0 + S (length c))) with ((0 <=? n) && (n <? 0 + length c)).
        2:{ reflexivity. }
        rewrite !Nat.sub_0_r. reflexivity.
  - intros c [|x v] v' H; [discriminate|]. cbn [putSeg] in H.
    destruct (putSeg k c v) as [r|] eqn:E; [|discriminate]. injection H as <-.
    destruct (IHk c v r E) as (L & N). split; [cbn; lia|]. intros [|n]; cbn [nth].
    + reflexivity.
    + rewrite N. cbn [Nat.leb Nat.sub]. replace (S n <? S k + length c) with (n <? k + length c).
      2:{ reflexivity. }
      reflexivity.
Qed.
Lemma putSeg_some : forall k c v, k + length c <= length v -> exists v', putSeg k c v = Some v'.
Proof.
  induction k as [|k IHk].
  - induction c as [|y c IHc]; intros v H.
    + destruct v; cbn; eauto.
    + destruct v as [|x v]; cbn [length] in H; [lia|]. destruct (IHc v) as (r & E); [cbn in *; lia|].
      cbn [putSeg]. rewrite E. cbn. eauto.
  - intros c [|x v] H; cbn [length] in H; [lia|]. destruct (IHk c v) as (r & E); [lia|].
    cbn [putSeg]. rewrite E. cbn. eauto.
Qed.

Lemma nth_firstn_skipn {A} (d : A) : forall k n v i, i < n -> nth i (firstn n (skipn k v)) d = nth (k + i) v d.
Proof.
  induction k as [|k IH]; intros n v i L.
  - cbn [skipn]. revert n v L. induction i as [|i IHi]; intros [|n] [|x v] L; try lia; cbn; auto.
    apply (IHi n v). lia.
  - destruct v as [|x v]; cbn [skipn].
    + destruct n; cbn; destruct i; reflexivity.
    + cbn [Nat.add nth]. apply IH; auto.
Qed.
Lemma segment_some dims i v : i * dims + dims <= length v ->
  exists c, segment dims i v = Some c /\ length c = dims /\ forall d, d < dims -> nth d c 0%Q = val dims v i d.
Proof.
  intro H. unfold segment. rewrite (proj2 (Nat.leb_le _ _) H). eexists. split; [reflexivity|]. split.
  - rewrite firstn_length, skipn_length. lia.
  - intros d D. rewrite nth_firstn_skipn by auto. reflexivity.
Qed.
Lemma seg_room n dims i (v : list Q) : length v = n * dims -> i < n -> i * dims + dims <= length v.
Proof. intros -> H. nia. Qed.
Lemma inSeg dims i j d : d < dims -> (j * dims <=? i * dims + d) && (i * dims + d <? j * dims + dims) = (i =? j).
Proof.
  intro D. destruct (Nat.eqb_spec i j) as [->|N].
  - apply andb_true_intro. split; [apply Nat.leb_le; lia|apply Nat.ltb_lt; lia].
  - destruct (j * dims <=? i * dims + d) eqn:E1; cbn [andb]; auto. apply Nat.leb_le in E1. apply Nat.ltb_ge.
    assert (j < i \/ i < j) as [L|L] by lia; nia.
Qed.
Lemma addCol_spec dims j c v v' : addCol dims j c v = Some v' -> length c = dims ->
  length v' = length v /\ forall i d, d < dims ->
  (val dims v' i d == val dims v i d + (if i =? j then nth d c 0 else 0))%Q.
Proof.
  intros H L. destruct (addSeg_spec _ _ _ _ H) as (L' & N). split; auto. intros i d D. unfold val.
  rewrite N, L, inSeg by auto. destruct (Nat.eqb_spec i j) as [->|]; [|reflexivity].
  replace (j * dims + d - j * dims) with d by lia. reflexivity.
Qed.
Lemma putCol_spec dims j c v v' : putSeg (j * dims) c v = Some v' -> length c = dims ->
  length v' = length v /\ forall i d, d < dims -> val dims v' i d = if i =? j then nth d c 0%Q else val dims v i d.
Proof.
  intros H L. destruct (putSeg_spec _ _ _ _ H) as (L' & N). split; auto. intros i d D. unfold val.
  rewrite N, L, inSeg by auto. destruct (Nat.eqb_spec i j) as [->|]; [|reflexivity].
  replace (j * dims + d - j * dims) with d by lia. reflexivity.
Qed.

Lemma val_zeros dims m i d : val dims (zeros dims m) i d = 0%Q.
Proof.
  unfold val, zeros. generalize (i * dims + d). generalize (nVertices m * dims). clear.
  induction n as [|n IH]; intros [|k]; cbn; auto.
Qed.
Lemma sized_zeros dims m : sized dims m (zeros dims m).
Proof. unfold sized, zeros. apply repeat_length. Qed.

(** * Nearest neighbour *)
Lemma vertexIndices_spec closest : forall origins l, vertexIndices closest origins = Some l ->
  length l = length origins /\
  forall k v, nth_error origins k = Some v -> exists j, nth_error l k = Some j /\ closest (v_coords v) = Some j.
Proof.
  induction origins as [|v r IH]; intros l H; cbn in H.
  - injection H as <-. split; auto. intros [|k] v E; discriminate.
  - destruct (closest (v_coords v)) as [j|] eqn:E; [|discriminate].
    destruct (vertexIndices closest r) as [l'|] eqn:E'; [|discriminate]. injection H as <-.
    destruct (IH l' eq_refl) as (L & N). split; [cbn; lia|]. intros [|k] w W; cbn in W.
    + injection W as <-. exists j. auto.
    + apply N. exact W.
Qed.
Lemma vertexIndices_some closest : forall origins, (forall v, In v origins -> closest (v_coords v) <> None) ->
  exists l, vertexIndices closest origins = Some l.
Proof.
  induction origins as [|v r IH]; intro H; cbn; eauto.
  destruct (closest (v_coords v)) as [j|] eqn:E; [|exfalso; eapply H; eauto; left; reflexivity].
  destruct IH as (l & ->); eauto. intros w W. apply H. right; auto.
Qed.

Lemma nnConsistent_spec dims n inp : forall indices i out,
  Forall (fun j => j * dims + dims <= length inp) indices -> length out = n * dims -> i + length indices <= n ->
  exists out', nnConsistent dims i indices inp out = Some out' /\ length out' = length out /\
  forall k d, d < dims -> val dims out' k d =
    if k <? i then val dims out k d else
    match nth_error indices (k - i) with Some j => val dims inp j d | None => val dims out k d end.
Proof.
  induction indices as [|j r IH]; intros i out F LO LI; cbn [nnConsistent].
  - exists out. split; [reflexivity|]. split; [reflexivity|]. intros k d D. destruct (k <? i); auto. destruct (k - i); reflexivity.
  - inversion F as [|j' r' Hj Hr]; subst. cbn [length] in LI.
    destruct (segment_some dims j inp Hj) as (c & -> & LC & VC).
    destruct (putSeg_some (i * dims) c out) as (out1 & E1); [rewrite LO, LC; nia|]. rewrite E1.
    destruct (putCol_spec _ _ _ _ _ E1 LC) as (L1 & V1).
    destruct (IH (S i) out1 Hr) as (out' & E & L & V); [lia|lia|].
    exists out'. split; auto. split; [lia|]. intros k d D. rewrite (V k d D).
    destruct (k <? S i) eqn:K1; destruct (k <? i) eqn:K2; repeat rewrite ?Nat.ltb_lt, ?Nat.ltb_ge in *; try lia.
    + rewrite V1 by auto. replace (k =? i) with false by (symmetry; apply Nat.eqb_neq; lia). reflexivity.
    + assert (k = i) as -> by lia. rewrite V1, Nat.eqb_refl by auto. replace (i - i) with 0 by lia. cbn. auto.
    + replace (k - i) with (S (k - S i)) by lia. cbn [nth_error].
      destruct (nth_error r (k - S i)); auto.
      rewrite V1 by auto. replace (k =? i) with false by (symmetry; apply Nat.eqb_neq; lia). reflexivity.
Qed.

Lemma nnConservative_spec dims n inp : forall indices i out,
  Forall (fun j => j < n) indices -> length out = n * dims -> (i + length indices) * dims <= length inp ->
  exists out', nnConservative dims i indices inp out = Some out' /\ length out' = length out /\
  forall j d, d < dims -> (val dims out' j d == val dims out j d +
     qsum (length indices) (fun k => if nth k indices 0%nat =? j then val dims inp (i + k) d else 0))%Q.
Proof.
  induction indices as [|j r IH]; intros i out F LO LI; cbn [nnConservative].
  - exists out. split; [reflexivity|]. split; [reflexivity|]. intros j d D. cbn [length qsum]. ring.
  - inversion F as [|j' r' Hj Hr]; subst. cbn [length] in LI.
    destruct (segment_some dims i inp) as (c & -> & LC & VC); [nia|].
    destruct (addSeg_some (j * dims) c out) as (out1 & E1); [rewrite LO, LC; nia|].
    unfold addCol at 1. rewrite E1.
    destruct (addCol_spec _ _ _ _ _ E1 LC) as (L1 & V1).
    destruct (IH (S i) out1 Hr) as (out' & E & L & V); [lia|nia|].
    exists out'. split; auto. split; [lia|]. intros j0 d D. rewrite (V j0 d D), (V1 j0 d D), VC by auto.
    cbn [length]. rewrite qsum_S. cbn [nth]. rewrite Nat.add_0_r, (Nat.eqb_sym j0 j).
    rewrite (qsum_ext _ (fun k => if nth k r 0%nat =? j0 then val dims inp (S i + k) d else 0)%Q
               (fun k => if nth k r 0%nat =? j0 then val dims inp (i + S k) d else 0)%Q).
    + ring.
    + intros k K. replace (S i + k) with (i + S k) by lia. reflexivity.
Qed.

(** * Barycentric operations *)
Lemma applyOps_spec from to dims n inp : forall ops out,
  length out = n * dims ->
  Forall (fun o => from o * dims + dims <= length inp /\ to o < n) ops ->
  exists out', applyOps from to dims ops inp out = Some out' /\ length out' = length out /\
  forall d g, d < dims ->
  (qsum n (fun j => g j * val dims out' j d) ==
   qsum n (fun j => g j * val dims out j d) + total (map (fun o => g (to o) * (o_weight o * val dims inp (from o) d)) ops))%Q.
Proof.
  induction ops as [|o r IH]; intros out LO F; cbn [applyOps].
  - exists out. split; [reflexivity|]. split; [reflexivity|]. intros d g D. cbn. ring.
  - inversion F as [|o' r' (Hf & Ht) Hr]; subst.
    destruct (segment_some dims (from o) inp Hf) as (c & -> & LC & VC).
    assert (LS : length (scaleSeg (o_weight o) c) = dims) by (unfold scaleSeg; rewrite map_length; exact LC).
    destruct (addSeg_some (to o * dims) (scaleSeg (o_weight o) c) out) as (out1 & E1); [rewrite LO, LS; nia|].
    unfold addCol at 1. rewrite E1.
    destruct (addCol_spec _ _ _ _ _ E1 LS) as (L1 & V1).
    destruct (IH out1) as (out' & E & L & V); [lia|auto|].
    exists out'. split; auto. split; [lia|]. intros d g D. rewrite (V d g D). cbn [map]. rewrite total_cons.
    rewrite (qsum_ext n (fun j => g j * val dims out1 j d)%Q
       (fun j => g j * val dims out j d + (if j =? to o then g (to o) * (o_weight o * val dims inp (from o) d) else 0))%Q).
    + rewrite qsum_plus, qsum_pick by auto. ring.
    + intros j J. rewrite (V1 j d D). destruct (Nat.eqb_spec j (to o)) as [->|].
      * unfold scaleSeg. rewrite (nth_indep _ 0%Q ((fun x => o_weight o * x)%Q 0%Q)) by (fold (scaleSeg (o_weight o) c); lia).
        rewrite (map_nth (fun x => (o_weight o * x)%Q)). rewrite VC by auto. ring.
      * ring.
Qed.

Section Tol.
Variable eps : Q.
Hypothesis Heps : (0 <= eps)%Q.

(** the weighted vertices of a polation that are not dropped *)
Definition kept (p : polation) : list (nat * Q) := filter (fun we => negb (isZero eps (snd we))) (p_elems p).
Definition rowsum (p : polation) (f : nat -> Q) : Q := total (map (fun we => snd we * f (fst we))%Q (kept p)).
Definition fullsum (p : polation) (f : nat -> Q) : Q := total (map (fun we => snd we * f (fst we))%Q (p_elems p)).
Definition dflt : polation := MkPol [] 0.

Lemma addPolation_kept out p : addPolation eps out p = map (fun we => MkOp out (fst we) (snd we)) (kept p).
Proof.
  unfold addPolation, kept. induction (p_elems p) as [|we l IH]; cbn; auto.
  destruct (negb (isZero eps (snd we))); cbn; rewrite IH; reflexivity.
Qed.

Lemma collect_spec find : forall origins i ops, collect eps find i origins = Some ops ->
  exists pols, length pols = length origins /\
  (forall k v, nth_error origins k = Some v -> find (v_coords v) = Some (nth k pols dflt)) /\
  ops = concat (map (fun kp => addPolation eps (fst kp) (snd kp)) (combine (seq i (length origins)) pols)).
Proof.
  induction origins as [|v r IH]; intros i ops H; cbn in H.
  - injection H as <-. exists []. repeat split. intros [|k] v E; discriminate.
  - destruct (find (v_coords v)) as [p|] eqn:E; [|discriminate].
    destruct (collect eps find (S i) r) as [o|] eqn:E'; [|discriminate]. injection H as <-.
    destruct (IH (S i) o E') as (pols & L & N & ->). exists (p :: pols). split; [cbn; lia|]. split.
    + intros [|k] w W; cbn in W; [injection W as <-; exact E|]. apply N. exact W.
    + reflexivity.
Qed.
Lemma collect_some find : forall origins i, (forall v, In v origins -> find (v_coords v) <> None) ->
  exists ops, collect eps find i origins = Some ops.
Proof.
  induction origins as [|v r IH]; intros i H; cbn; eauto.
  destruct (find (v_coords v)) as [p|] eqn:E; [|exfalso; eapply H; eauto; left; reflexivity].
  destruct (IH (S i)) as (o & ->); eauto. intros w W. apply H. right; auto.
Qed.

Lemma concat_ops_total (F : operation -> Q) : forall pols i,
  (total (map F (concat (map (fun kp => addPolation eps (fst kp) (snd kp)) (combine (seq i (length pols)) pols)))) ==
   qsum (length pols) (fun k => total (map (fun we => F (MkOp (i + k) (fst we) (snd we))) (kept (nth k pols dflt)))))%Q.
Proof.
  induction pols as [|p r IH]; intro i; [reflexivity|].
  cbn [length seq combine map concat fst snd]. rewrite map_app, total_app, (IH (S i)), qsum_S. cbn [nth].
  rewrite addPolation_kept, map_map, Nat.add_0_r.
  rewrite (qsum_ext _ (fun k => total (map (fun we => F (MkOp (S i + k) (fst we) (snd we))) (kept (nth k r dflt))))
     (fun k => total (map (fun we => F (MkOp (i + S k) (fst we) (snd we))) (kept (nth k r dflt))))).
  - reflexivity.
  - intros k K. replace (S i + k) with (i + S k) by lia. reflexivity.
Qed.
Lemma concat_ops_forall (P : operation -> Prop) : forall pols i,
  (forall k we, k < length pols -> In we (p_elems (nth k pols dflt)) -> P (MkOp (i + k) (fst we) (snd we))) ->
  Forall P (concat (map (fun kp => addPolation eps (fst kp) (snd kp)) (combine (seq i (length pols)) pols))).
Proof.
  induction pols as [|p r IH]; intros i H; [constructor|].
  cbn [length seq combine map concat fst snd]. apply Forall_app. split.
  - rewrite addPolation_kept. apply Forall_map. apply Forall_forall. intros we W.
    assert (A := H 0%nat we). cbn [nth length] in A. rewrite Nat.add_0_r in A. apply A; [lia|].
    unfold kept in W. apply filter_In in W. apply W.
  - apply IH. intros k we K W. replace (S i + k) with (i + S k) by lia. apply H; [cbn; lia|exact W].
Qed.

Lemma insertOp_perm o : forall l, Permutation (o :: l) (insertOp o l).
Proof.
  induction l as [|p r IH]; cbn; auto. destruct (opLess p o); auto.
  apply perm_trans with (p :: o :: r); [apply perm_swap|]. constructor. exact IH.
Qed.
Lemma sortOps_perm : forall l, Permutation l (sortOps l).
Proof.
  induction l as [|o r IH]; cbn; auto. eapply perm_trans; [|apply insertOp_perm]. constructor. exact IH.
Qed.

(** what a mapping with polations [pols] does *)
Section Rows.
Variables (inN outN dims : nat).
Hypothesis KD : knownDims dims = true.

Lemma consistent_rows pols inp out :
  length inp = inN * dims -> length out = outN * dims -> length pols = outN ->
  (forall k we, k < outN -> In we (p_elems (nth k pols dflt)) -> fst we < inN) ->
  exists out', baryConsistent dims (concat (map (fun kp => addPolation eps (fst kp) (snd kp)) (combine (seq 0 (length pols)) pols))) inp out = Some out' /\
  length out' = length out /\
  forall k d, k < outN -> d < dims -> (val dims out' k d == val dims out k d + rowsum (nth k pols dflt) (fun v => val dims inp v d))%Q.
Proof.
  intros LI LO LP R. unfold baryConsistent. rewrite KD.
  destruct (applyOps_spec o_in o_out dims outN inp
    (concat (map (fun kp => addPolation eps (fst kp) (snd kp)) (combine (seq 0 (length pols)) pols))) out LO) as (out' & E & L & V).
  { apply concat_ops_forall. intros k we K W. cbn [o_in o_out Nat.add]. split; [|lia].
    apply (seg_room inN); auto. apply (R k); auto. lia. }
  exists out'. split; auto. split; auto. intros k d K D.
  assert (A := V d (fun j => if j =? k then 1 else 0)%Q D).
  rewrite (qsum_ext outN (fun j => (if j =? k then 1 else 0) * val dims out' j d)%Q (fun j => if j =? k then val dims out' k d else 0)%Q) in A.
  2:{ intros j J. destruct (Nat.eqb_spec j k) as [->|]; ring. }
  rewrite (qsum_ext outN (fun j => (if j =? k then 1 else 0) * val dims out j d)%Q (fun j => if j =? k then val dims out k d else 0)%Q) in A.
  2:{ intros j J. destruct (Nat.eqb_spec j k) as [->|]; ring. }
  rewrite !qsum_pick in A by auto. rewrite concat_ops_total in A. rewrite LP in A. cbn [o_in o_out o_weight Nat.add] in A.
  rewrite A. rewrite (qsum_ext outN _ (fun j => if j =? k then rowsum (nth k pols dflt) (fun v => val dims inp v d) else 0)%Q).
  - rewrite qsum_pick by auto. reflexivity.
  - intros j J. destruct (Nat.eqb_spec j k) as [->|].
    + unfold rowsum. apply total_map_ext. intros we W. ring.
    + rewrite (total_map_ext _ (fun _ => 0 * 0)%Q) by (intros; ring).
      rewrite (total_map_scale (fun _ => 0)%Q 0). ring.
Qed.

Lemma conservative_rows pols inp out :
  length inp = inN * dims -> length out = outN * dims -> length pols = inN ->
  (forall k we, k < inN -> In we (p_elems (nth k pols dflt)) -> fst we < outN) ->
  exists out', baryConservative dims (sortOps (concat (map (fun kp => addPolation eps (fst kp) (snd kp)) (combine (seq 0 (length pols)) pols)))) inp out = Some out' /\
  length out' = length out /\
  forall g d, d < dims -> (qsum outN (fun j => g j * val dims out' j d) ==
    qsum outN (fun j => g j * val dims out j d) + qsum inN (fun k => rowsum (nth k pols dflt) g * val dims inp k d))%Q.
Proof.
  intros LI LO LP R. unfold baryConservative. rewrite KD.
  set (ops := concat (map (fun kp => addPolation eps (fst kp) (snd kp)) (combine (seq 0 (length pols)) pols))).
  destruct (applyOps_spec o_out o_in dims outN inp (sortOps ops) out LO) as (out' & E & L & V).
  { eapply Permutation_Forall; [apply sortOps_perm|].
    apply concat_ops_forall. intros k we K W. cbn [o_in o_out Nat.add]. split.
    - apply (seg_room inN); auto. lia.
    - apply (R k); auto. lia. }
  exists out'. split; auto. split; auto. intros g d D. rewrite (V d g D).
  rewrite (total_perm (map _ (sortOps ops)) (map (fun o => g (o_in o) * (o_weight o * val dims inp (o_out o) d))%Q ops)).
  2:{ apply Permutation_map, Permutation_sym, sortOps_perm. }
  unfold ops. rewrite concat_ops_total. rewrite LP. cbn [o_in o_out o_weight Nat.add].
  rewrite (qsum_ext inN _ (fun k => rowsum (nth k pols dflt) g * val dims inp k d)%Q); [reflexivity|].
  intros k K. unfold rowsum. rewrite (Qmult_comm (total _)). rewrite <- total_map_scale.
  apply total_map_ext. intros we W. ring.
Qed.
End Rows.

(** what dropping costs *)
Lemma isZero_bound w : isZero eps w = true -> (absQ w <= eps)%Q.
Proof.
  unfold isZero. intro H. apply Qle_bool_iff in H. change (absQ (w - 0) <= eps)%Q in H.
  eapply Qle_trans; [|exact H]. apply absQ_comp. ring.
Qed.
Lemma rowsum_full p f b : (0 <= b)%Q -> (forall we, In we (p_elems p) -> (absQ (f (fst we)) <= b)%Q) ->
  (absQ (rowsum p f - fullsum p f) <= inject_Z (Z.of_nat (length (p_elems p))) * (eps * b))%Q.
Proof.
  unfold rowsum, fullsum, kept. intro B. induction (p_elems p) as [|we l IH]; intro H.
  - cbn [length map filter]. apply absQ_le. change (inject_Z (Z.of_nat 0)) with 0%Q. change (total []) with 0%Q. lra.
  - assert (IH' := IH (fun x X => H x (or_intror X))). apply absQ_le in IH'.
    cbn [length map filter]. rewrite Nat2Z.inj_succ. unfold Z.succ. rewrite inject_Z_plus.
    change (inject_Z 1) with 1%Q. set (n := inject_Z (Z.of_nat (length l))) in *.
    assert (EB : (0 <= eps * b)%Q) by (apply Qmult_le_0_compat; auto).
    apply absQ_le. destruct (isZero eps (snd we)) eqn:Z; cbn [negb map]; rewrite ?total_cons.
    + apply isZero_bound in Z. assert (M := absQ_mult_le _ _ _ _ Z (H we (or_introl eq_refl))). apply absQ_le in M. lra.
    + lra.
Qed.
Lemma rowsum_ext p f g : (forall we, In we (p_elems p) -> (f (fst we) == g (fst we))%Q) -> (rowsum p f == rowsum p g)%Q.
Proof.
  intro H. unfold rowsum. apply total_map_ext. intros we W. unfold kept in W. apply filter_In in W.
  rewrite (H we) by apply W. reflexivity.
Qed.
Lemma rowsum_const p c : (total (map snd (p_elems p)) == 1)%Q -> length (p_elems p) <= 4 ->
  (absQ (rowsum p (fun _ => c) - c) <= 4 * eps * absQ c)%Q.
Proof.
  intros S L. assert (A := rowsum_full p (fun _ => c) (absQ c) (absQ_nonneg c) (fun _ _ => Qle_refl _)).
  assert (F : (fullsum p (fun _ => c) == c)%Q).
  { unfold fullsum. rewrite (total_map_ext _ (fun we => c * snd we)%Q) by (intros; ring).
    rewrite total_map_scale. change (map (fun x => snd x) (p_elems p)) with (map snd (p_elems p)). rewrite S. ring. }
  apply absQ_le in A. apply absQ_le. rewrite F in A.
  assert (N : (inject_Z (Z.of_nat (length (p_elems p))) * (eps * absQ c) <= 4 * (eps * absQ c))%Q).
  { apply Qmult_le_compat_r; [|apply Qmult_le_0_compat; auto; apply absQ_nonneg].
    change 4%Q with (inject_Z 4). rewrite <- Zle_Qle. lia. }
  lra.
Qed.
End Tol.
