(** The clusters together. *)
From Coq Require Import List Arith Bool QArith Lia Setoid Morphisms.
From Verif Require Import M_Rbf S_Rbf P_Rbf P_RbfPar P_RbfLin M_Pum S_Pum P_PumLocal.
Import ListNotations.
Open Scope Q_scope.

Lemma addAt_length i x l : length (addAt i x l) = length l.
Proof. revert i. induction l as [|y l IH]; intros [|i]; cbn; auto. Qed.
Lemma at_addAt i x l g : (i < length l)%nat -> at_ (addAt i x l) g == at_ l g + (if (g =? i)%nat then x else 0).
Proof.
  revert i g. induction l as [|y l IH]; intros [|i] [|g] H; cbn [length] in H; try lia; cbn [addAt at_ nth Nat.eqb]; try ring.
  apply (IH i g). lia.
Qed.
Lemma addAt_sum f i x l : (i < length l)%nat -> sumn (length l) (fun g => f g * at_ (addAt i x l) g) == sumn (length l) (fun g => f g * at_ l g) + f i * x.
Proof.
  intros H. transitivity (sumn (length l) (fun g => f g * at_ l g + (if (g =? i)%nat then f g * x else 0))).
  - apply sumn_ext. intros g _. rewrite at_addAt by exact H. destruct (g =? i)%nat; ring.
  - rewrite sumn_plus. apply Qplus_comp; [reflexivity|]. rewrite (sumn_single _ i); [rewrite Nat.eqb_refl; reflexivity|exact H|].
    intros g _ NE. rewrite (proj2 (Nat.eqb_neq g i) NE). reflexivity.
Qed.
Lemma accumulate_length ids : forall vals out, length (accumulate out ids vals) = length out.
Proof. unfold accumulate. induction ids as [|i ids IH]; intros [|x vals] out; cbn; auto. rewrite IH. apply addAt_length. Qed.
Lemma accumulate_sum f ids : forall vals out, (forall i, In i ids -> (i < length out)%nat) -> length vals = length ids ->
  sumn (length out) (fun g => f g * at_ (accumulate out ids vals) g) == sumn (length out) (fun g => f g * at_ out g) + sumn (length ids) (fun i => f (nth i ids 0%nat) * at_ vals i).
Proof.
  unfold accumulate. induction ids as [|i ids IH]; intros [|x vals] out H L; try discriminate L.
  - cbn [combine fold_left length sumn]. ring.
  - cbn [combine fold_left fst snd]. assert (i < length out)%nat as Hi by (apply H; left; reflexivity).
    rewrite <- (addAt_length i x out) at 1. rewrite IH; [|intros j Hj; rewrite addAt_length; apply H; right; exact Hj|cbn in L; lia].
    rewrite addAt_length, addAt_sum by exact Hi. cbn [length]. rewrite (sumn_shift (length ids)). cbn [nth at_]. unfold at_. ring.
Qed.
Lemma indexOf_nth id l pos : indexOf id l = Some pos -> nth_error l pos = Some id.
Proof.
  revert pos. induction l as [|j l IH]; intros pos; cbn; [discriminate|]. destruct (Nat.eqb_spec j id) as [->|NE]; [intros [= <-]; reflexivity|].
  destruct (indexOf id l) as [k|]; [|discriminate]. intros [= <-]. cbn. apply IH. reflexivity.
Qed.
Lemma indexOf_in id l : In id l -> exists pos, indexOf id l = Some pos.
Proof.
  induction l as [|j l IH]; cbn; [tauto|]. intros H. destruct (Nat.eqb_spec j id) as [->|NE]; [eexists; reflexivity|].
  destruct IH as (pos & E); [tauto|]. rewrite E. eexists; reflexivity.
Qed.
Lemma insideBox_in m c r i : In i (insideBox m c r) <-> (i < length m)%nat /\ closer c (vtx m i) r = true.
Proof. unfold insideBox. rewrite filter_In, in_seq. intuition lia. Qed.
Lemma insideBox_NoDup m c r : NoDup (insideBox m c r).
Proof. apply NoDup_filter, seq_NoDup. Qed.
Lemma closer_iff u v r : closer u v r = true <-> distance2 u v < r * r.
Proof.
  unfold closer. rewrite negb_true_iff. rewrite <- sqdiff_distance. destruct (Qle_bool (r * r) (sqdiff all3 u v)) eqn:E.
  - apply Qle_bool_iff in E. split; [discriminate|]. intros H. exfalso. apply (Qlt_not_le _ _ H E).
  - split; [intros _|reflexivity]. apply Qnot_le_lt. intros H. apply Qle_bool_iff in H. congruence.
Qed.
Lemma distance2_sym u v : distance2 u v == distance2 v u.
Proof. unfold distance2. ring. Qed.
Lemma closer_sym u v r : closer u v r = closer v u r.
Proof. apply eq_true_iff_eq. rewrite !closer_iff, distance2_sym. reflexivity. Qed.
Lemma sq_mono a b : 0 <= a -> a <= b -> a * a <= b * b.
Proof.
  intros A B. apply Qle_trans with (b * a); [apply Qmult_le_compat_r; assumption|]. setoid_replace (b * a) with (a * b) by ring. apply Qmult_le_compat_r; [assumption|].
  apply Qle_trans with a; assumption.
Qed.

Lemma fold_plus (A : Type) (f : A -> Q) l : forall a, fold_left (fun r p => r + f p) l a == a + lsum f l.
Proof. induction l as [|x l IH]; intros a; cbn; [ring|]. rewrite IH. ring. Qed.
Lemma lsum_ext {A} (f g : A -> Q) l : (forall x, In x l -> f x == g x) -> lsum f l == lsum g l.
Proof. induction l as [|x l IH]; intros H; cbn; [reflexivity|]. rewrite (H x) by (left; reflexivity). rewrite IH; [reflexivity|]. intros y Hy. apply H. right. exact Hy. Qed.
Lemma lsum_mul_r {A} (f : A -> Q) c l : lsum (fun x => f x * c) l == lsum f l * c.
Proof. induction l as [|x l IH]; cbn; [ring|]. rewrite IH. ring. Qed.
Lemma lsum_map {A B} (g : A -> B) (f : B -> Q) l : lsum f (map g l) = lsum (fun x => f (g x)) l.
Proof. induction l as [|x l IH]; cbn; [reflexivity|]. rewrite IH. reflexivity. Qed.

(** a sum over a list of ids as a sum over all ids *)
Fixpoint lookup (k : nat) (ws : list (nat * Q)) : option Q :=
  match ws with [] => None | (j, w) :: r => if (j =? k)%nat then Some w else lookup k r end.
Lemma lookup_some k ws w : lookup k ws = Some w -> In (k, w) ws.
Proof. induction ws as [|(j, x) ws IH]; cbn; [discriminate|]. destruct (Nat.eqb_spec j k) as [->|NE]; [intros [= ->]; left; reflexivity|]. intros H. right. apply IH, H. Qed.
Lemma lookup_in k ws w : NoDup (map fst ws) -> In (k, w) ws -> lookup k ws = Some w.
Proof.
  induction ws as [|(j, x) ws IH]; cbn; [tauto|]. intros ND [E|I].
  - injection E as -> ->. rewrite Nat.eqb_refl. reflexivity.
  - inversion ND as [|? ? NI ND']; subst. destruct (Nat.eqb_spec j k) as [->|NE]; [|apply IH; assumption]. exfalso. apply NI. apply in_map_iff. exists (k, w). auto.
Qed.
Lemma lookup_none k ws : lookup k ws = None -> forall w, ~ In (k, w) ws.
Proof.
  induction ws as [|(j, x) ws IH]; cbn; [tauto|]. destruct (Nat.eqb_spec j k) as [->|NE]; [discriminate|]. intros H w [E|I]; [congruence|]. exact (IH H w I).
Qed.
Lemma lookup_sum n F ws : NoDup (map fst ws) -> (forall k, In k (map fst ws) -> (k < n)%nat) ->
  lsum (fun p => snd p * F (fst p)) ws == sumn n (fun k => match lookup k ws with Some w => w * F k | None => 0 end).
Proof.
  induction ws as [|(j, x) ws IH]; intros ND H; cbn [lsum fst snd].
  - symmetry. apply sumn_0. reflexivity.
  - inversion ND as [|? ? NI ND']; subst. cbn [map fst] in *. rewrite IH; [|exact ND'|intros k Hk; apply H; right; exact Hk].
    transitivity (sumn n (fun k => (if (k =? j)%nat then x * F j else 0) + match lookup k ws with Some w => w * F k | None => 0 end)).
    + rewrite sumn_plus. apply Qplus_comp; [symmetry|reflexivity]. rewrite (sumn_single n j (fun k => if (k =? j)%nat then x * F j else 0)); [rewrite Nat.eqb_refl; reflexivity|apply H; left; reflexivity|]. intros i _ NE. rewrite (proj2 (Nat.eqb_neq i j) NE). reflexivity.
    + apply sumn_ext. intros k _. cbn [lookup]. rewrite (Nat.eqb_sym j k). destruct (Nat.eqb_spec k j) as [->|NE]; [|ring].
      destruct (lookup j ws) as [w|] eqn:E; [|ring]. exfalso. apply NI. apply in_map_iff. exists (j, w). split; [reflexivity|apply lookup_some; exact E].
Qed.

Section P.
Variable phi omega : Q -> Q.
Hypothesis phi_ext : forall x y, x == y -> phi x == phi y.
Variable ax : axes.
Variable pol : polynomial.
Variable radius margin : Q.
Variable dec : list vertex -> decomposition.
Notation nw := (computeNormalizedWeight omega radius).
Notation ctr cl k := (c_center (nth k cl noCluster)).

Lemma nw_spec cl y ws : nw cl y = Some ws ->
  NoDup (map fst ws) /\ (forall k, In k (map fst ws) <-> (k < length cl)%nat /\ closer y (ctr cl k) radius = true) /\ lsum snd ws == 1.
Proof.
  unfold computeNormalizedWeight. set (ids := filter _ _). set (weights := map _ ids). intros E.
  assert (exists qs, ws = combine ids qs /\ length qs = length ids /\ lsum (fun q => q) qs == 1) as (qs & -> & Lq & Sq).
  { assert (length weights = length ids) as Lw by apply map_length.
    destruct ids as [|i0 ir] eqn:EI; [discriminate|]. rewrite <- EI in *. assert (ids <> []) as NE by congruence.
    destruct (Qle_bool (fold_left Qplus weights 0) 0) eqn:ES.
    - assert (ws = combine ids (map (fun _ => 1 / inject_Z (Z.of_nat (length weights)) / 1) weights)) as -> by congruence. eexists. split; [reflexivity|]. split; [rewrite map_length; exact Lw|].
      assert (length weights <> 0%nat) as N0 by (rewrite Lw, EI; cbn; lia).
      set (c := 1 / inject_Z (Z.of_nat (length weights)) / 1).
      assert (forall l : list Q, lsum (fun q => q) (map (fun _ => c) l) == inject_Z (Z.of_nat (length l)) * c) as SM.
      { induction l as [|a l IH]; [cbn; ring|]. cbn [map lsum length]. rewrite IH, Nat2Z.inj_succ. unfold Z.succ. rewrite inject_Z_plus. ring. }
      rewrite SM. unfold c. field. intros Z. apply N0. assert (inject_Z (Z.of_nat (length weights)) == inject_Z 0) as Z' by exact Z. pose proof (proj1 (inject_Z_injective _ _) Z') as Z2. lia.
    - assert (ws = combine ids (map (fun w => w / fold_left Qplus weights 0) weights)) as -> by congruence. eexists. split; [reflexivity|]. split; [rewrite map_length; exact Lw|].
      assert (fold_left Qplus weights 0 == lsum (fun q => q) weights) as FS.
      { pose proof (fold_plus Q (fun q => q) weights 0) as FP. rewrite Qplus_0_l in FP. exact FP. }
      assert (~ fold_left Qplus weights 0 == 0) as NZ. { intros Z. assert (Qle_bool (fold_left Qplus weights 0) 0 = true) as T by (apply Qle_bool_iff; rewrite Z; apply Qle_refl). congruence. }
      rewrite lsum_map. rewrite (lsum_ext _ (fun x => x * / fold_left Qplus weights 0)) by reflexivity. rewrite lsum_mul_r, <- FS. field. exact NZ. }
  assert (map fst (combine ids qs) = ids) as M1 by (apply map_fst_combine; exact Lq).
  rewrite M1. split; [apply NoDup_filter, seq_NoDup|]. split.
  - intros k. unfold ids. rewrite filter_In, in_seq. intuition lia.
  - rewrite <- (map_snd_combine ids qs Lq) in Sq. rewrite lsum_map in Sq. exact Sq.
Qed.
Lemma nw_some cl y : (exists k, (k < length cl)%nat /\ closer y (ctr cl k) radius = true) -> exists ws, nw cl y = Some ws.
Proof.
  intros (k & Hk & C). unfold computeNormalizedWeight. set (ids := filter _ _). assert (In k ids) as I by (unfold ids; rewrite filter_In, in_seq; split; [lia|exact C]).
  destruct ids; [destruct I|]. destruct (Qle_bool _ 0); eexists; reflexivity.
Qed.

Section M.
Variable inM outM centers : list vertex.
Notation mk := (makeClusters ax pol radius margin dec inM outM centers).
Lemma mk_in c : In c mk -> c = makeCluster ax pol radius margin dec inM outM (c_center c).
Proof. unfold makeClusters. intros H. apply filter_In in H. destruct H as (H & _). apply in_map_iff in H. destruct H as (x & <- & _). reflexivity. Qed.

Lemma setWeights_ok cl id ws : forall st st', setWeights cl id ws st = Some st' -> NoDup (map fst ws) ->
  (forall k w, In (k, w) ws -> exists pos, indexOf id (c_out (nth k cl noCluster)) = Some pos /\ st' k pos = Some w) /\
  (forall k pos, indexOf id (c_out (nth k cl noCluster)) <> Some pos -> st' k pos = st k pos) /\
  (forall k pos, ~ In k (map fst ws) -> st' k pos = st k pos).
Proof.
  induction ws as [|(k0, w0) ws IH]; intros st st' E ND; cbn [setWeights] in E.
  - injection E as <-. split; [intros k w []|]. split; reflexivity.
  - unfold setNormalizedWeight in E. destruct (indexOf id (c_out (nth k0 cl noCluster))) as [i|] eqn:EI; [|discriminate]. destruct (Qle_bool w0 0); [discriminate|].
    cbn [map fst] in ND. inversion ND as [|? ? NI ND']; subst. destruct (IH _ _ E ND') as (A & B & C). split; [|split].
    + intros k w [Eq|I]; [|exact (A k w I)]. injection Eq as -> ->. exists i. split; [exact EI|]. rewrite C by exact NI. rewrite !Nat.eqb_refl. reflexivity.
    + intros k pos NE. rewrite B by exact NE. destruct (Nat.eqb_spec k k0) as [->|NK]; [|reflexivity]. destruct (Nat.eqb_spec pos i) as [->|NP]; [|reflexivity]. congruence.
    + intros k pos NK. cbn [map fst] in NK. rewrite C by (intros I; apply NK; right; exact I). destruct (Nat.eqb_spec k k0) as [->|NE]; [exfalso; apply NK; left; reflexivity|]. reflexivity.
Qed.
Lemma computeWeights_ok cl ids : forall st st', computeWeights omega radius cl outM ids st = Some st' -> NoDup ids ->
  (forall id, In id ids -> exists ws, nw cl (vtx outM id) = Some ws /\ forall k w, In (k, w) ws -> exists pos, indexOf id (c_out (nth k cl noCluster)) = Some pos /\ st' k pos = Some w) /\
  (forall k pos, (forall id, In id ids -> nth_error (c_out (nth k cl noCluster)) pos <> Some id) -> st' k pos = st k pos).
Proof.
  induction ids as [|i0 ids IH]; intros st st' E ND; cbn [computeWeights] in E.
  - injection E as <-. split; [intros id []|reflexivity].
  - destruct (nw cl (vtx outM i0)) as [ws|] eqn:EW; [|discriminate]. destruct (setWeights cl i0 ws st) as [st1|] eqn:ES; [|discriminate].
    inversion ND as [|? ? NI ND']; subst. destruct (IH _ _ E ND') as (A & B). destruct (setWeights_ok cl i0 ws st st1 ES (proj1 (nw_spec _ _ _ EW))) as (A1 & B1 & _). split.
    + intros id [<-|I]; [|exact (A id I)]. exists ws. split; [exact EW|]. intros k w Hw. destruct (A1 k w Hw) as (pos & P1 & P2). exists pos. split; [exact P1|].
      rewrite B; [exact P2|]. intros id I N. rewrite (indexOf_nth _ _ _ P1) in N. injection N as ->. exact (NI I).
    + intros k pos H. rewrite B by (intros id I; apply H; right; exact I). apply B1. intros N. apply (H i0 (or_introl eq_refl)). apply indexOf_nth. exact N.
Qed.

Variable m : pum.
Hypothesis computed : computeMapping omega ax pol radius margin dec inM outM centers = Some m.
Hypothesis margin_ok : 0 <= margin /\ margin < radius.
Lemma m_clusters : p_clusters m = mk.
Proof. unfold computeMapping in computed. destruct (computeWeights _ _ _ _ _ _); [|discriminate]. injection computed as <-. reflexivity. Qed.
Notation cl := (p_clusters m).
Notation cls k := (nth k (p_clusters m) noCluster).
Lemma cls_eq k : (k < length cl)%nat -> cls k = makeCluster ax pol radius margin dec inM outM (c_center (cls k)).
Proof. intros H. apply mk_in. rewrite <- m_clusters. apply nth_In. exact H. Qed.
Lemma cls_out k i : (k < length cl)%nat -> (In i (c_out (cls k)) <-> (i < length outM)%nat /\ closer (c_center (cls k)) (vtx outM i) (radius - margin) = true).
Proof. intros H. rewrite (cls_eq k H) at 1. cbn [makeCluster c_out]. apply insideBox_in. Qed.
Lemma cls_in k i : (k < length cl)%nat -> (In i (c_in (cls k)) <-> (i < length inM)%nat /\ closer (c_center (cls k)) (vtx inM i) radius = true).
Proof. intros H. rewrite (cls_eq k H) at 1. cbn [makeCluster c_in]. apply insideBox_in. Qed.
Lemma cls_nodup k : (k < length cl)%nat -> NoDup (c_out (cls k)) /\ NoDup (c_in (cls k)).
Proof. intros H. rewrite (cls_eq k H). cbn. split; apply insideBox_NoDup. Qed.
Lemma cls_s_in k : (k < length cl)%nat -> s_in (c_solver (cls k)) = map (vtx inM) (c_in (cls k)) /\ s_out (c_solver (cls k)) = map (vtx outM) (c_out (cls k)) /\ s_axes (c_solver (cls k)) = ax /\ s_poly (c_solver (cls k)) = pol.
Proof. intros H. rewrite (cls_eq k H). cbn. auto. Qed.

(** the weights a vertex finds are exactly those stored in the clusters *)
Lemma weights_stored g : (g < length outM)%nat -> exists ws, nw cl (vtx outM g) = Some ws /\
  (forall k, (k < length cl)%nat -> match lookup k ws with
     | Some w => exists i, nth_error (c_out (cls k)) i = Some g /\ weightAt (p_weights m) k i = w
     | None => ~ In g (c_out (cls k)) end).
Proof.
  intros Hg. assert (computeWeights omega radius cl outM (seq 0 (length outM)) (fun _ _ => None) = Some (p_weights m)) as CW.
  { pose proof m_clusters as MC. unfold computeMapping in computed. destruct (computeWeights omega radius mk outM _ _) as [st|] eqn:E; [|discriminate].
    rewrite MC, E. injection computed as <-. reflexivity. }
  destruct (computeWeights_ok cl _ _ _ CW (seq_NoDup _ _)) as (A & _). destruct (A g) as (ws & EW & W); [apply in_seq; lia|].
  exists ws. split; [exact EW|]. intros k Hk. destruct (nw_spec _ _ _ EW) as (ND & MEM & _). destruct (lookup k ws) as [w|] eqn:EL.
  - destruct (W k w (lookup_some _ _ _ EL)) as (pos & P1 & P2). exists pos. split; [apply indexOf_nth; exact P1|]. unfold weightAt. rewrite P2. reflexivity.
  - intros I. apply cls_out in I; [|exact Hk]. destruct I as (_ & C). assert (In k (map fst ws)) as IK.
    { apply MEM. split; [exact Hk|]. rewrite closer_sym. apply closer_iff. apply closer_iff in C. apply Qlt_le_trans with (1 := C).
      apply sq_mono; destruct margin_ok as (M1 & M2).
      - apply Qlt_le_weak. apply (Qplus_lt_l _ _ margin). ring_simplify. exact M2.
      - apply (Qplus_le_l _ _ margin). ring_simplify. rewrite <- (Qplus_0_r radius) at 1. apply Qplus_le_compat; [apply Qle_refl|exact M1]. }
    apply in_map_iff in IK. destruct IK as ((k', w) & E & I). cbn in E. subst k'. exact (lookup_none _ _ EL w I).
Qed.

Hypothesis pol_ok : pol <> ON.
Hypothesis good : forall c, In c mk -> good_solver phi (c_solver c).
Lemma cls_good k : (k < length cl)%nat -> good_solver phi (c_solver (cls k)).
Proof. intros H. apply good. rewrite <- m_clusters. apply nth_In. exact H. Qed.

(** sums over the values of a mapping *)
Lemma sel_length (v : vec) k : (k < length cl)%nat -> length (map (at_ v) (c_in (cls k))) = sizeN (c_solver (cls k)).
Proof. intros H. unfold sizeN. rewrite (proj1 (cls_s_in k H)), !map_length. reflexivity. Qed.
Lemma consistent_length v k : (k < length cl)%nat -> length (solveConsistent phi (c_solver (cls k)) (map (at_ v) (c_in (cls k)))) = length (c_out (cls k)).
Proof.
  intros H. rewrite <- solve_map by (rewrite (proj2 (proj2 (proj2 (cls_s_in k H)))); exact pol_ok).
  rewrite consistent_len; [rewrite (proj1 (proj2 (cls_s_in k H))), map_length; reflexivity|apply cls_good; exact H|apply sel_length; exact H].
Qed.
Lemma weights_length k : length (clusterWeights m k) = length (c_out (cls k)).
Proof. unfold clusterWeights. rewrite map_length, seq_length. reflexivity. Qed.
Lemma at_weights k i : (i < length (c_out (cls k)))%nat -> at_ (clusterWeights m k) i == weightAt (p_weights m) k i.
Proof. intros H. unfold clusterWeights. rewrite at_map, (proj2 (Nat.ltb_lt i _) H). reflexivity. Qed.
Lemma consistent_sum f v : 
  sumn (length outM) (fun g => f g * at_ (pumConsistent phi m v (length outM)) g) ==
  sumn (length cl) (fun k => sumn (length (c_out (cls k))) (fun i => f (nth i (c_out (cls k)) 0%nat) *
    (at_ (solveConsistent phi (c_solver (cls k)) (map (at_ v) (c_in (cls k)))) i * weightAt (p_weights m) k i))).
Proof.
  unfold pumConsistent. set (n := length outM).
  assert (forall K, (K <= length cl)%nat -> length (fold_left (clusterConsistent phi m v) (seq 0 K) (repeat 0 n)) = n /\
    sumn n (fun g => f g * at_ (fold_left (clusterConsistent phi m v) (seq 0 K) (repeat 0 n)) g) ==
    sumn K (fun k => sumn (length (c_out (cls k))) (fun i => f (nth i (c_out (cls k)) 0%nat) *
    (at_ (solveConsistent phi (c_solver (cls k)) (map (at_ v) (c_in (cls k)))) i * weightAt (p_weights m) k i)))) as K.
  { induction K as [|K IH]; intros HK.
    - cbn [seq fold_left sumn]. split; [apply repeat_length|]. apply sumn_0. intros g _. rewrite at_repeat. ring.
    - destruct (IH (Nat.lt_le_incl _ _ HK)) as (L & S). rewrite seq_S, fold_left_app. cbn [fold_left sumn plus]. unfold clusterConsistent at 1 3. split; [rewrite accumulate_length; exact L|].
      set (o := fold_left _ _ _) in *. rewrite <- L at 1. rewrite accumulate_sum.
      + rewrite L, S. apply Qplus_comp; [reflexivity|]. apply sumn_ext. intros i Hi. rewrite at_zip; [|rewrite consistent_length, weights_length by exact HK; reflexivity|ring]. rewrite at_weights by exact Hi. reflexivity.
      + intros i I. rewrite L. apply cls_out in I; [apply I|exact HK].
      + rewrite zip_length, consistent_length, weights_length by exact HK. apply Nat.min_id. }
  apply K. lia.
Qed.

Hypothesis flat_in : forall w, In w inM -> flat ax w.
Hypothesis flat_out : forall w, In w outM -> flat ax w.
Definition value (v : vec) (y : vertex) (k : nat) : Q := interpolateAt phi (c_solver (cls k)) y (computeCacheData (c_solver (cls k)) (map (at_ v) (c_in (cls k)))).
Lemma vtx_flat ids k : (k < length cl)%nat -> ids = c_in (cls k) -> forall w, In w (map (vtx inM) ids) -> flat ax w.
Proof. intros H -> w I. apply in_map_iff in I. destruct I as (i & <- & I). apply cls_in in I; [|exact H]. apply flat_in, nth_In, I. Qed.
Lemma at_local v k i : (k < length cl)%nat -> (i < length (c_out (cls k)))%nat ->
  at_ (solveConsistent phi (c_solver (cls k)) (map (at_ v) (c_in (cls k)))) i == value v (vtx outM (nth i (c_out (cls k)) 0%nat)) k.
Proof.
  intros H Hi. destruct (cls_s_in k H) as (E1 & E2 & E3 & E4).
  assert (vtx (s_out (c_solver (cls k))) i = vtx outM (nth i (c_out (cls k)) 0%nat)) as EV.
  { rewrite E2. unfold vtx at 1. rewrite (nth_indep _ origin (vtx outM 0)) by (rewrite map_length; exact Hi). apply map_nth. }
  unfold value. rewrite <- EV. apply local_value; try assumption.
  - apply cls_good. exact H.
  - congruence.
  - apply sel_length. exact H.
  - rewrite E2, map_length. exact Hi.
  - rewrite E3, EV. apply flat_out, nth_In. assert (In (nth i (c_out (cls k)) 0%nat) (c_out (cls k))) as I by (apply nth_In; exact Hi). apply cls_out in I; [apply I|exact H].
  - intros w. rewrite E1, E3. apply (vtx_flat _ k H eq_refl).
Qed.

(** the value at an output vertex is the weighted mean of the values of the clusters *)
Lemma consistent_value v g : (g < length outM)%nat -> exists ws, nw cl (vtx outM g) = Some ws /\
  at_ (pumConsistent phi m v (length outM)) g == lsum (fun p => snd p * value v (vtx outM g) (fst p)) ws.
Proof.
  intros Hg. destruct (weights_stored g Hg) as (ws & EW & W). exists ws. split; [exact EW|]. destruct (nw_spec _ _ _ EW) as (ND & MEM & _).
  rewrite (lookup_sum (length cl)) by (try exact ND; intros k Hk; apply MEM; exact Hk).
  pose proof (consistent_sum (fun j => if (j =? g)%nat then 1 else 0) v) as CS.
  rewrite (sumn_single _ g) in CS; [|exact Hg|intros i _ NE; rewrite (proj2 (Nat.eqb_neq i g) NE); ring]. rewrite Nat.eqb_refl, Qmult_1_l in CS. rewrite CS.
  apply sumn_ext. intros k Hk. specialize (W k Hk). destruct (lookup k ws) as [w|].
  - destruct W as (i & Ei & Ew). assert (i < length (c_out (cls k)))%nat as Hi by (apply nth_error_Some; congruence).
    rewrite (sumn_single _ i); [|exact Hi|].
    + rewrite at_local by assumption. rewrite (nth_error_nth _ _ 0%nat Ei), Nat.eqb_refl, Ew. ring.
    + intros j Hj NE. destruct (Nat.eqb_spec (nth j (c_out (cls k)) 0%nat) g) as [E|N]; [|ring]. exfalso. apply NE.
      apply (NoDup_nth (c_out (cls k)) 0%nat); [apply cls_nodup; exact Hk|exact Hj|exact Hi|]. rewrite (nth_error_nth _ _ 0%nat Ei). exact E.
  - apply sumn_0. intros i Hi. destruct (Nat.eqb_spec (nth i (c_out (cls k)) 0%nat) g) as [E|N]; [|ring]. exfalso. apply W. rewrite <- E. apply nth_In. exact Hi.
Qed.

(** conservative *)
Lemma conservative_length' u k : (k < length cl)%nat -> length (solveConservative phi (c_solver (cls k)) (zipWith Qmult (map (at_ u) (c_out (cls k))) (clusterWeights m k))) = length (c_in (cls k)).
Proof.
  intros H. destruct (cls_s_in k H) as (E1 & E2 & E3 & E4). rewrite (conservative_length phi _ (cls_good k H)).
  - rewrite sizeC_N by congruence. unfold sizeN. rewrite E1, map_length. reflexivity.
  - rewrite zip_length, map_length, weights_length, E2, map_length. apply Nat.min_id.
Qed.
Lemma conservative_sum f u :
  sumn (length inM) (fun g => f g * at_ (pumConservative phi m u (length inM)) g) ==
  sumn (length cl) (fun k => sumn (length (c_in (cls k))) (fun i => f (nth i (c_in (cls k)) 0%nat) *
    at_ (solveConservative phi (c_solver (cls k)) (zipWith Qmult (map (at_ u) (c_out (cls k))) (clusterWeights m k))) i)) /\
  length (pumConservative phi m u (length inM)) = length inM.
Proof.
  unfold pumConservative. set (n := length inM).
  assert (forall K, (K <= length cl)%nat -> length (fold_left (clusterConservative phi m u) (seq 0 K) (repeat 0 n)) = n /\
    sumn n (fun g => f g * at_ (fold_left (clusterConservative phi m u) (seq 0 K) (repeat 0 n)) g) ==
    sumn K (fun k => sumn (length (c_in (cls k))) (fun i => f (nth i (c_in (cls k)) 0%nat) *
    at_ (solveConservative phi (c_solver (cls k)) (zipWith Qmult (map (at_ u) (c_out (cls k))) (clusterWeights m k))) i))) as K.
  { induction K as [|K IH]; intros HK.
    - cbn [seq fold_left sumn]. split; [apply repeat_length|]. apply sumn_0. intros g _. rewrite at_repeat. ring.
    - destruct (IH (Nat.lt_le_incl _ _ HK)) as (L & S). rewrite seq_S, fold_left_app. cbn [fold_left sumn plus]. unfold clusterConservative at 1 3. split; [rewrite accumulate_length; exact L|].
      set (o := fold_left _ _ _) in *. rewrite <- L at 1. rewrite accumulate_sum.
      + rewrite L, S. reflexivity.
      + intros i I. rewrite L. apply cls_in in I; [apply I|exact HK].
      + apply conservative_length'. exact HK. }
  split; apply K; lia.
Qed.
Lemma consistent_length_all v : length (pumConsistent phi m v (length outM)) = length outM.
Proof.
  unfold pumConsistent. assert (forall ks o, length (fold_left (clusterConsistent phi m v) ks o) = length o) as K.
  { induction ks as [|k ks IH]; intros o; cbn; [reflexivity|]. rewrite IH. unfold clusterConsistent. apply accumulate_length. }
  rewrite K. apply repeat_length.
Qed.
Lemma at_sel (v : vec) ids i : (i < length ids)%nat -> at_ (map (at_ v) ids) i = at_ v (nth i ids 0%nat).
Proof. intros H. unfold at_ at 1. rewrite (nth_indep _ 0 (at_ v 0)) by (rewrite map_length; exact H). apply map_nth. Qed.
Lemma pum_transposed v u : 
  sumn (length inM) (fun g => at_ v g * at_ (pumConservative phi m u (length inM)) g) ==
  sumn (length outM) (fun g => at_ u g * at_ (pumConsistent phi m v (length outM)) g).
Proof.
  rewrite (proj1 (conservative_sum (at_ v) u)), consistent_sum. apply sumn_ext. intros k Hk. destruct (cls_s_in k Hk) as (E1 & E2 & E3 & E4).
  assert (length (zipWith Qmult (map (at_ u) (c_out (cls k))) (clusterWeights m k)) = length (s_out (c_solver (cls k)))) as Lz.
  { rewrite zip_length, map_length, weights_length, E2, map_length. apply Nat.min_id. }
  pose proof (transposed phi _ (cls_good k Hk) (map (at_ v) (c_in (cls k))) _ (sel_length v k Hk) Lz) as T.
  rewrite solve_cons in T; [|apply cls_good; exact Hk|congruence|exact Lz]. rewrite solve_map in T by congruence.
  unfold sizeN in T. rewrite E1, E2, !map_length in T.
  transitivity (sumn (length (c_in (cls k))) (fun i => at_ (map (at_ v) (c_in (cls k))) i * at_ (solveConservative phi (c_solver (cls k)) (zipWith Qmult (map (at_ u) (c_out (cls k))) (clusterWeights m k))) i)).
  - apply sumn_ext. intros i Hi. rewrite at_sel by exact Hi. reflexivity.
  - rewrite T. apply sumn_ext. intros i Hi. rewrite at_zip; [|rewrite map_length, weights_length; reflexivity|ring]. rewrite at_weights, at_sel by exact Hi. ring.
Qed.
End M.
End P.
