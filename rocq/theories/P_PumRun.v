(** When the computation of a partition-of-unity mapping succeeds. *)
From Coq Require Import List Arith Bool QArith Lia Setoid Morphisms.
From Verif Require Import M_Rbf S_Rbf P_Rbf P_RbfPar P_RbfLin M_Pum S_Pum P_PumLocal P_Pum P_PumJit.
Import ListNotations.
Open Scope Q_scope.

Lemma lsum_pos {A} (f : A -> Q) l : l <> [] -> (forall x, In x l -> 0 < f x) -> 0 < lsum f l.
Proof.
  induction l as [|x l IH]; [congruence|]. intros _ H. cbn [lsum]. destruct l as [|y l].
  - cbn [lsum]. rewrite Qplus_0_r. apply H. left. reflexivity.
  - apply Qlt_le_trans with (0 + lsum f (y :: l)).
    + rewrite Qplus_0_l. apply IH; [discriminate|]. intros z Z. apply H. right. exact Z.
    + apply Qplus_le_compat; [apply Qlt_le_weak, H; left; reflexivity|apply Qle_refl].
Qed.
Section R.
Variable omega : Q -> Q.
Variable ax : axes.
Variable pol : polynomial.
Variable radius margin : Q.
Variable dec : list vertex -> decomposition.
Variable inM outM centers : list vertex.
Hypothesis omega_pos : forall d, 0 <= d -> d < radius * radius -> 0 < omega d.
Notation nw := (computeNormalizedWeight omega radius).
Notation cl := (makeClusters ax pol radius margin dec inM outM centers).
Lemma distance2_nonneg u v : 0 <= distance2 u v.
Proof.
  assert (forall a, 0 <= a * a) as SQ. { intros a. destruct (Qlt_le_dec a 0) as [N|P]; [|apply Qmult_le_0_compat; assumption]. setoid_replace (a * a) with ((- a) * (- a)) by ring. apply Qlt_le_weak in N. apply Qopp_le_compat in N. apply Qmult_le_0_compat; exact N. }
  unfold distance2. apply Qle_trans with (0 + 0 + 0); [discriminate|]. apply Qplus_le_compat; [apply Qplus_le_compat|]; apply SQ.
Qed.
Lemma nw_pos (omega_ext : forall x y, x == y -> omega x == omega y) cs y ws : nw cs y = Some ws -> forall k w, In (k, w) ws -> 0 < w.
Proof.
  unfold computeNormalizedWeight. set (ids := filter _ _). set (weights := map _ ids). intros E.
  assert (forall x, In x weights -> 0 < x) as WP.
  { intros x I. apply in_map_iff in I. destruct I as (k & <- & I). apply filter_In in I. destruct I as (_ & C). apply closer_iff in C. rewrite distance2_sym in C.
    unfold computeWeight. rewrite (omega_ext _ _ (sqdiff_distance _ _)). apply omega_pos; [apply distance2_nonneg|exact C]. }
  assert (fold_left Qplus weights 0 == lsum (fun q => q) weights) as FS.
  { pose proof (fold_plus Q (fun q => q) weights 0) as FP. rewrite Qplus_0_l in FP. exact FP. }
  assert (ids <> [] -> weights <> []) as NE by (intros N Z; apply N; exact (map_eq_nil _ _ Z)).
  destruct ids as [|i0 ir] eqn:EI; [discriminate|]. rewrite <- EI in *.
  assert (0 < fold_left Qplus weights 0) as SP. { rewrite FS. apply lsum_pos; [apply NE; rewrite EI; discriminate|exact WP]. }
  destruct (Qle_bool (fold_left Qplus weights 0) 0) eqn:ES; [apply Qle_bool_iff in ES; exfalso; exact (Qlt_not_le _ _ SP ES)|].
  assert (ws = combine ids (map (fun w => w / fold_left Qplus weights 0) weights)) as -> by congruence.
  intros k w I. apply in_combine_r in I. apply in_map_iff in I. destruct I as (x & <- & I). apply Qlt_shift_div_l; [exact SP|]. rewrite Qmult_0_l. apply WP; exact I.
Qed.
Lemma computes : (forall x y, x == y -> omega x == omega y) ->
  (forall g, (g < length outM)%nat -> (exists c, In c cl /\ distance2 (c_center c) (vtx outM g) < radius * radius) /\
     forall c, In c cl -> distance2 (c_center c) (vtx outM g) < radius * radius -> distance2 (c_center c) (vtx outM g) < (radius - margin) * (radius - margin)) ->
  exists m, computeMapping omega ax pol radius margin dec inM outM centers = Some m.
Proof.
  intros omega_ext H. unfold computeMapping.
  assert (forall ids st, (forall g, In g ids -> (g < length outM)%nat) -> exists st', computeWeights omega radius cl outM ids st = Some st') as K.
  { induction ids as [|g ids IH]; intros st L; [eexists; reflexivity|]. cbn [computeWeights]. destruct (H g (L g (or_introl eq_refl))) as ((c & IC & DC) & NM).
    destruct (nw_some omega radius cl (vtx outM g)) as (ws & EW).
    { destruct (In_nth _ _ noCluster IC) as (k & Hk & EK). exists k. split; [exact Hk|]. rewrite EK, closer_sym. apply closer_iff. exact DC. }
    rewrite EW. assert (exists st1, setWeights cl g ws st = Some st1) as (st1 & ES).
    { destruct (nw_spec omega radius cl _ ws EW) as (_ & MEM & _). pose proof (nw_pos omega_ext _ _ _ EW) as POS.
      assert (forall k w, In (k, w) ws -> exists i, indexOf g (c_out (nth k cl noCluster)) = Some i) as IX.
      { intros k w I. apply indexOf_in. destruct (MEM k) as (M1 & _). destruct M1 as (Hk & C); [apply in_map_iff; exists (k, w); auto|].
        assert (In (nth k cl noCluster) cl) as IN by (apply nth_In; exact Hk). rewrite (mk_in ax pol radius margin dec inM outM centers _ IN). cbn [makeCluster c_out].
        apply insideBox_in. split; [apply L; left; reflexivity|]. apply closer_iff. apply NM; [exact IN|]. rewrite closer_sym in C. apply closer_iff in C. exact C. }
      clear EW MEM. revert st. induction ws as [|(k, w) ws IHw]; intros st; [eexists; reflexivity|]. cbn [setWeights]. unfold setNormalizedWeight.
      destruct (IX k w (or_introl eq_refl)) as (i & Ei). rewrite Ei. destruct (Qle_bool w 0) eqn:EQ; [apply Qle_bool_iff in EQ; exfalso; exact (Qlt_not_le _ _ (POS k w (or_introl eq_refl)) EQ)|].
      apply IHw; intros k' w' I; [apply (POS k')|apply (IX k' w')]; right; exact I. }
    rewrite ES. apply IH. intros g' I. apply L. right. exact I. }
  destruct (K (seq 0 (length outM)) (fun _ _ => None)) as (st & E); [intros g I; apply in_seq in I; lia|]. rewrite E. eexists. reflexivity.
Qed.
Lemma margin_fails : 0 <= margin /\ margin < radius -> forall g c, (g < length outM)%nat -> In c cl -> distance2 (c_center c) (vtx outM g) < radius * radius ->
  ~ distance2 (c_center c) (vtx outM g) < (radius - margin) * (radius - margin) -> computeMapping omega ax pol radius margin dec inM outM centers = None.
Proof.
  intros MO g c Hg IC D ND. destruct (computeMapping omega ax pol radius margin dec inM outM centers) as [m|] eqn:E; [|reflexivity]. exfalso.
  destruct (weights_stored omega ax pol radius margin dec inM outM centers m E MO g Hg) as (ws & EW & W).
  destruct (In_nth _ _ noCluster IC) as (k & Hk & EK). pose proof (m_clusters omega ax pol radius margin dec inM outM centers m E) as MC. rewrite <- MC in Hk, EK, IC.
  specialize (W k Hk). destruct (nw_spec omega radius _ _ _ EW) as (_ & MEM & _).
  assert (In k (map fst ws)) as IK. { apply MEM. split; [exact Hk|]. rewrite EK, closer_sym. apply closer_iff. exact D. }
  destruct (lookup k ws) as [w|] eqn:EL.
  - destruct W as (i & Ei & _). apply nth_error_In in Ei. apply (cls_out omega ax pol radius margin dec inM outM centers m E k g Hk) in Ei. rewrite EK in Ei. apply ND. apply closer_iff. apply Ei.
  - apply in_map_iff in IK. destruct IK as ((k', w) & EE & I). cbn in EE. subst k'. exact (lookup_none _ _ EL w I).
Qed.
End R.
