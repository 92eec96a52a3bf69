From Coq Require Import ZArith QArith Bool List Arith Lia Lqa.
From Verif Require Import M_Mesh M_Prep M_Box S_Mesh S_Box.
Import ListNotations.
Open Scope nat_scope.

Lemma qlt_iff a b : qlt a b = true <-> (a < b)%Q.
Proof.
  unfold qlt. rewrite negb_true_iff. split.
  - intros H. destruct (Qlt_le_dec a b) as [L|L]; [exact L|]. apply Qle_bool_iff in L. congruence.
  - intros H. destruct (Qle_bool b a) eqn:E; [|reflexivity]. apply Qle_bool_iff in E. lra.
Qed.
Lemma qlt_false a b : qlt a b = false <-> (b <= a)%Q.
Proof. unfold qlt. rewrite negb_false_iff. apply Qle_bool_iff. Qed.
Lemma qmin_spec a b : (qmin a b <= a)%Q /\ (qmin a b <= b)%Q /\ (qmin a b = a \/ qmin a b = b).
Proof.
  unfold qmin. destruct (Qle_bool a b) eqn:E.
  - apply Qle_bool_iff in E. repeat split; auto; lra.
  - assert (b < a)%Q by (apply qlt_iff; unfold qlt; rewrite E; reflexivity). repeat split; auto; lra.
Qed.
Lemma qmax_spec a b : (a <= qmax a b)%Q /\ (b <= qmax a b)%Q /\ (qmax a b = a \/ qmax a b = b).
Proof.
  unfold qmax. destruct (Qle_bool a b) eqn:E.
  - apply Qle_bool_iff in E. repeat split; auto; lra.
  - assert (b < a)%Q by (apply qlt_iff; unfold qlt; rewrite E; reflexivity). repeat split; auto; lra.
Qed.
Lemma F2_len {A B} (R : A -> B -> Prop) l r : Forall2 R l r -> length l = length r.
Proof. induction 1; cbn; congruence. Qed.
Lemma F2_trans l m r : Forall2 Qle l m -> Forall2 Qle m r -> Forall2 Qle l r.
Proof.
  intros H. revert r. induction H; intros r H'; inversion H'; subst; constructor; auto. eapply Qle_trans; eauto.
Qed.
Lemma F2_refl l : Forall2 Qle l l.
Proof. induction l; constructor; auto. apply Qle_refl. Qed.
Lemma map2_length {A B C} (f : A -> B -> C) l r : length l = length r -> length (map2 f l r) = length l.
Proof. intros H. unfold map2. rewrite map_length, combine_length. lia. Qed.

Lemma inside_len p b : inside p b -> length p = b_dim b /\ length (b_max b) = b_dim b.
Proof. intros [H1 H2]. apply F2_len in H1, H2. unfold b_dim. lia. Qed.
Lemma within_ok : forall c lo hi, length c = length lo -> length c = length hi ->
  (forallb (fun x => negb (qlt (fst x) (fst (snd x)) || qlt (snd (snd x)) (fst x))) (combine c (combine lo hi)) = true
   <-> Forall2 Qle lo c /\ Forall2 Qle c hi).
Proof.
  induction c as [|x c IH]; intros [|l lo] [|h hi] L1 L2; try discriminate; cbn [combine forallb fst snd].
  - split; [intros _; split; constructor|reflexivity].
  - rewrite andb_true_iff, negb_true_iff, orb_false_iff, !qlt_false, IH by (cbn in *; lia). split.
    + intros [[H1 H2] [H3 H4]]. split; constructor; auto.
    + intros [H1 H2]. inversion H1; subst. inversion H2; subst. auto.
Qed.
Lemma contains_ok b c : length (b_max b) = b_dim b -> length c = b_dim b -> (contains b c = Some true <-> inside c b).
Proof.
  intros L1 L2. unfold contains. rewrite L2, Nat.eqb_refl. unfold b_dim in *. rewrite <- (within_ok c (b_min b) (b_max b)) by lia.
  split; [intros H; injection H as H; exact H|intros ->; reflexivity].
Qed.

(** component-wise minimum and maximum *)
Lemma map2_min : forall l r, length l = length r ->
  Forall2 Qle (map2 qmin l r) l /\ Forall2 Qle (map2 qmin l r) r /\
  forall o, Forall2 Qle o l -> Forall2 Qle o r -> Forall2 Qle o (map2 qmin l r).
Proof.
  induction l as [|x l IH]; intros [|y r] L; try discriminate; [cbn; repeat split; auto; constructor|].
  destruct (IH r) as (A & B & C); [cbn in L; lia|]. destruct (qmin_spec x y) as (P1 & P2 & P3).
  split; [|split].
  - constructor; [exact P1|exact A].
  - constructor; [exact P2|exact B].
  - intros o H1 H2. inversion H1; subst. inversion H2; subst. constructor; [|auto]. cbn. destruct P3 as [->| ->]; assumption.
Qed.
Lemma map2_max : forall l r, length l = length r ->
  Forall2 Qle l (map2 qmax l r) /\ Forall2 Qle r (map2 qmax l r) /\
  forall o, Forall2 Qle l o -> Forall2 Qle r o -> Forall2 Qle (map2 qmax l r) o.
Proof.
  induction l as [|x l IH]; intros [|y r] L; try discriminate; [cbn; repeat split; auto; constructor|].
  destruct (IH r) as (A & B & C); [cbn in L; lia|]. destruct (qmax_spec x y) as (P1 & P2 & P3).
  split; [|split].
  - constructor; [exact P1|exact A].
  - constructor; [exact P2|exact B].
  - intros o H1 H2. inversion H1; subst. inversion H2; subst. constructor; [|auto]. cbn. destruct P3 as [->| ->]; assumption.
Qed.

(** ** the box of a mesh *)
Lemma expandVs_ok : forall (vs : list vertex) b, length (b_max b) = b_dim b ->
  (forall v, In v vs -> length (v_coords v) = b_dim b) ->
  exists bb, fold_left (fun o v => match o with None => None | Some b => expandByVertex b (v_coords v) end) vs (Some b) = Some bb /\
    length (b_max bb) = b_dim bb /\ b_dim bb = b_dim b /\
    Forall2 Qle (b_min bb) (b_min b) /\ Forall2 Qle (b_max b) (b_max bb) /\
    (forall v, In v vs -> inside (v_coords v) bb) /\
    forall lo hi, Forall2 Qle lo (b_min b) -> Forall2 Qle (b_max b) hi ->
      (forall v, In v vs -> Forall2 Qle lo (v_coords v) /\ Forall2 Qle (v_coords v) hi) ->
      Forall2 Qle lo (b_min bb) /\ Forall2 Qle (b_max bb) hi.
Proof.
  induction vs as [|v r IH]; intros b Lb Hd; cbn [fold_left].
  - exists b. repeat split; auto using F2_refl; contradiction.
  - unfold expandByVertex at 2. rewrite (Hd v) by (left; reflexivity). rewrite Nat.eqb_refl.
    assert (Lv : length (v_coords v) = b_dim b) by (apply Hd; left; reflexivity).
    destruct (map2_min (b_min b) (v_coords v)) as (A & B & C); [unfold b_dim in *; lia|].
    destruct (map2_max (b_max b) (v_coords v)) as (A' & B' & C'); [unfold b_dim in *; lia|].
    set (b1 := MkBox _ _). 
    assert (D1 : b_dim b1 = b_dim b) by (unfold b1, b_dim; cbn; apply map2_length; unfold b_dim in *; lia).
    destruct (IH b1) as (bb & E & L & D & Mi & Ma & In_ & Sm).
    { rewrite D1. unfold b1. cbn. rewrite map2_length by lia. exact Lb. }
    { intros w Hw. rewrite D1. apply Hd. right. exact Hw. }
    exists bb. split; [exact E|]. split; [exact L|]. split; [congruence|].
    split; [eapply F2_trans; [exact Mi|exact A]|]. split; [eapply F2_trans; [exact A'|exact Ma]|].
    split.
    + intros w [<-|Hw]; [|apply In_, Hw]. split; [eapply F2_trans; [exact Mi|exact B]|eapply F2_trans; [exact B'|exact Ma]].
    + intros lo hi H1 H2 Hv. destruct (Hv v (or_introl eq_refl)) as [V1 V2]. apply Sm.
      * apply C; assumption.
      * apply C'; assumption.
      * intros w Hw. apply Hv. right. exact Hw.
Qed.
Lemma repeat_hi (big : Q) : forall c, Forall (fun x => (x <= big)%Q) c -> Forall2 Qle c (repeat big (length c)).
Proof. induction 1; cbn; constructor; auto. Qed.
Lemma repeat_lo (big : Q) : forall c, Forall (fun x => (- big <= x)%Q) c -> Forall2 Qle (repeat (- big)%Q (length c)) c.
Proof. induction 1; cbn; constructor; auto. Qed.

Lemma meshBox_ok big prec m b : wf_mesh m -> (forall v, In v (m_verts m) -> finite big (v_coords v)) -> isDefault big prec b = true ->
  exists bb, computeBoundingBox big prec m b = Some bb /\ (forall v, In v (m_verts m) -> inside (v_coords v) bb) /\
    (m_verts m <> [] -> forall o, (forall v, In v (m_verts m) -> inside (v_coords v) o) ->
       inside (b_min bb) o /\ inside (b_max bb) o).
Proof.
  intros W Fi Db. unfold computeBoundingBox. rewrite Db.
  destruct (expandVs_ok (m_verts m) (defaultBox big (m_dim m))) as (bb & E & L & D & Mi & Ma & In_ & Sm).
  { unfold defaultBox, b_dim. cbn. rewrite !repeat_length. reflexivity. }
  { intros v Hv. unfold defaultBox, b_dim. cbn. rewrite repeat_length. apply (wm_coords m W), Hv. }
  exists bb. split; [exact E|]. split; [exact In_|].
  intros Ne o Ho. destruct (m_verts m) as [|v0 r] eqn:Ev; [congruence|].
  assert (Hv0 : In v0 (v0 :: r)) by (left; reflexivity).
  assert (Lv : length (v_coords v0) = m_dim m) by (apply (wm_coords m W); rewrite Ev; exact Hv0).
  pose proof (Fi v0 Hv0) as F0. destruct (Ho v0 Hv0) as [O1 O2]. destruct (In_ v0 Hv0) as [I1 I2].
  assert (B1 : Forall2 Qle (b_min o) (b_min bb) /\ Forall2 Qle (b_max bb) (b_max o)).
  { apply Sm.
    - eapply F2_trans; [exact O1|]. cbn. rewrite <- Lv. apply repeat_hi. eapply Forall_impl; [|exact F0]. cbn. tauto.
    - eapply F2_trans; [|exact O2]. cbn. rewrite <- Lv. apply repeat_lo. eapply Forall_impl; [|exact F0]. cbn. tauto.
    - intros v Hv. destruct (Ho v Hv). auto. }
  destruct B1 as [B1 B2].
  assert (M : Forall2 Qle (b_min bb) (b_max bb)) by (eapply F2_trans; eassumption).
  split; split; auto; [exact (F2_trans _ _ _ M B2)|exact (F2_trans _ _ _ B1 M)].
Qed.
Lemma meshBox_keeps big prec m b : wf_mesh m -> legal (m_dim m) b -> isDefault big prec b = false ->
  exists bb, computeBoundingBox big prec m b = Some bb /\ (forall v, In v (m_verts m) -> inside (v_coords v) bb) /\
    (forall p, inside p b -> inside p bb).
Proof.
  intros W [L1 [L2 Le]] Db. unfold computeBoundingBox. rewrite Db.
  destruct (expandVs_ok (m_verts m) b) as (bb & E & L & D & Mi & Ma & In_ & Sm).
  { unfold b_dim. lia. }
  { intros v Hv. unfold b_dim. rewrite L1. apply (wm_coords m W), Hv. }
  exists bb. split; [exact E|]. split; [exact In_|]. intros p [P1 P2]. split; [exact (F2_trans _ _ _ Mi P1)|exact (F2_trans _ _ _ P2 Ma)].
Qed.

(** ** merging *)
Lemma merge_ok d a b : legal d a -> legal d b -> exists c, expandByBox a b = Some c /\ legal d c /\
  (forall p, inside p a \/ inside p b -> inside p c) /\
  (forall o, inside (b_min a) o -> inside (b_max a) o -> inside (b_min b) o -> inside (b_max b) o -> inside (b_min c) o /\ inside (b_max c) o).
Proof.
  intros [A1 [A2 A3]] [B1 [B2 B3]]. unfold expandByBox, b_dim. rewrite A1, B1, Nat.eqb_refl.
  destruct (map2_min (b_min a) (b_min b)) as (M1 & M2 & M3); [lia|].
  destruct (map2_max (b_max a) (b_max b)) as (N1 & N2 & N3); [lia|].
  assert (Mid : Forall2 Qle (map2 qmin (b_min a) (b_min b)) (map2 qmax (b_max a) (b_max b))).
  { eapply F2_trans; [exact M1|]. eapply F2_trans; [exact A3|exact N1]. }
  eexists. split; [reflexivity|]. split; [|split].
  - split; [|split]; cbn; rewrite ?map2_length by lia; auto.
  - intros p [[P1 P2]|[P1 P2]]; (split; [exact (F2_trans _ _ _ M1 P1)|exact (F2_trans _ _ _ P2 N1)]) || (split; [exact (F2_trans _ _ _ M2 P1)|exact (F2_trans _ _ _ P2 N2)]).
  - intros o [Oa1 Oa2] [Ob1 Ob2] [Oc1 Oc2] [Od1 Od2]. cbn.
    assert (X : Forall2 Qle (b_min o) (map2 qmin (b_min a) (b_min b))) by (apply M3; assumption).
    assert (Y : Forall2 Qle (map2 qmax (b_max a) (b_max b)) (b_max o)) by (apply N3; assumption).
    split; split; cbn; auto; [exact (F2_trans _ _ _ Mid Y)|exact (F2_trans _ _ _ X Mid)].
Qed.

(** ** enlarging *)
Lemma shift_lo v : (0 <= v)%Q -> forall l p, Forall2 Qle l p -> Forall2 Qle (map (fun x => (x - v)%Q) l) p.
Proof. intros Hv. induction 1; cbn; constructor; auto. lra. Qed.
Lemma shift_hi v : (0 <= v)%Q -> forall l p, Forall2 Qle p l -> Forall2 Qle p (map (fun x => (x + v)%Q) l).
Proof. intros Hv. induction 1; cbn; constructor; auto. lra. Qed.
Lemma expandByValue_ok big prec b v p : (0 <= v)%Q -> inside p b -> inside p (expandByValue big prec b v).
Proof. intros Hv [H1 H2]. unfold expandByValue. destruct (isDefault big prec b); [split; assumption|]. split; cbn; [apply shift_lo|apply shift_hi]; assumption. Qed.
Lemma fold_max_ge : forall l x, (x <= fold_left qmax l x)%Q.
Proof.
  induction l as [|y l IH]; intros x; cbn; [apply Qle_refl|]. eapply Qle_trans; [|apply IH]. apply qmax_spec.
Qed.
Lemma longest_nonneg b p : inside p b -> (0 <= longestEdgeLength b)%Q.
Proof.
  intros [H1 H2]. unfold longestEdgeLength. pose proof (F2_trans _ _ _ H1 H2) as H. inversion H as [E1 E2|x y l r Hxy Hr E1 E2].
  - cbn. apply Qle_refl.
  - cbn. eapply Qle_trans; [|apply fold_max_ge]. lra.
Qed.
Lemma scaleBy_ok big prec b s p : (0 <= s)%Q -> inside p b -> inside p (scaleBy big prec b s).
Proof.
  intros Hs H. unfold scaleBy. destruct (isDefault big prec b); [exact H|]. cbn zeta.
  pose proof (longest_nonneg b p H) as L. destruct H as [H1 H2].
  assert (0 <= s * longestEdgeLength b)%Q by (apply Qmult_le_0_compat; assumption).
  split; cbn; [apply (shift_lo (s * longestEdgeLength b))|apply (shift_hi (s * longestEdgeLength b))]; assumption.
Qed.

(** ** overlap *)
Lemma overlap_point amin : forall amax bmin bmax, Forall2 Qle amin amax -> Forall2 Qle bmin bmax -> length amin = length bmin ->
  (forallb (fun x => let '((amin, amax), (bmin, bmax)) := x in
             negb ((qlt amin bmin && qlt amax bmin) || (qlt bmin amin && qlt bmax amin)))
          (combine (combine amin amax) (combine bmin bmax)) = true <->
   exists p, (Forall2 Qle amin p /\ Forall2 Qle p amax) /\ (Forall2 Qle bmin p /\ Forall2 Qle p bmax)).
Proof.
  induction amin as [|a amin IH]; intros amax bmin bmax Ha Hb L.
  - destruct bmin; [|discriminate]. inversion Ha; subst. inversion Hb; subst. cbn. split; [|reflexivity]. intros _. exists []. repeat split; constructor.
  - destruct bmin as [|b bmin]; [discriminate|]. inversion Ha as [|? a' ? amax' Ha1 Ha2]; subst. inversion Hb as [|? b' ? bmax' Hb1 Hb2]; subst.
    cbn [combine forallb]. rewrite andb_true_iff, IH by (auto; cbn in L; lia).
    assert (C : negb (qlt a b && qlt a' b || qlt b a && qlt b' a) = true <-> (b <= a' /\ a <= b')%Q).
    { rewrite negb_true_iff, orb_false_iff, !andb_false_iff, !qlt_false. split.
      - intros [[H1|H1] [H2|H2]]; split; lra.
      - intros [H1 H2]. split; right; assumption. }
    rewrite C. split.
    + intros [[C1 C2] (p & (P1 & P2) & (P3 & P4))]. exists (qmax a b :: p). destruct (qmax_spec a b) as (Q1 & Q2 & Q3).
      repeat split; constructor; auto; destruct Q3 as [->| ->]; lra.
    + intros (p & (P1 & P2) & (P3 & P4)). inversion P1; subst. inversion P2; subst. inversion P3; subst. inversion P4; subst.
      split; [split; lra|]. eexists. repeat split; eassumption.
Qed.
Lemma overlapping_ok d a b : legal d a -> legal d b ->
  (overlapping a b = true <-> exists p, inside p a /\ inside p b).
Proof. intros [A1 [A2 A3]] [B1 [B2 B3]]. unfold overlapping, inside. apply overlap_point; [assumption|assumption|congruence]. Qed.
Lemma overlapping_sym a b : overlapping a b = overlapping b a.
Proof.
  unfold overlapping. destruct a as [amin amax], b as [bmin bmax]. cbn.
  generalize (combine amin amax) (combine bmin bmax). clear. induction l as [|[a a'] l IH]; intros [|[b b'] r]; cbn; try reflexivity.
  rewrite IH. f_equal. f_equal. apply orb_comm.
Qed.
(** a box that has not been set overlaps with nothing *)
Lemma default_apart big d b : 0 < d -> length (b_min b) = d -> length (b_max b) = d -> Forall (fun x => (x < big)%Q) (b_min b) ->
  Forall (fun x => (x < big)%Q) (b_max b) -> overlapping (defaultBox big d) b = false.
Proof.
  intros Hd L1 L2 F1 F2. unfold overlapping, defaultBox. cbn. destruct b as [bmin bmax]. cbn in *.
  destruct d as [|d]; [lia|]. destruct bmin as [|x bmin]; [discriminate|]. destruct bmax as [|y bmax]; [discriminate|].
  inversion F1; subst. inversion F2; subst. cbn.
  assert (E1 : qlt x big = true) by (apply qlt_iff; assumption). assert (E2 : qlt y big = true) by (apply qlt_iff; assumption).
  rewrite E1, E2, orb_true_r. reflexivity.
Qed.
(** ** default boxes *)
Lemma qabs_nonneg x : (0 <= x)%Q -> qabs x = x.
Proof. intros H. unfold qabs. apply Qle_bool_iff in H. rewrite H. reflexivity. Qed.
Lemma qabs_neg x : (x < 0)%Q -> qabs x = (- x)%Q.
Proof. intros H. unfold qabs. destruct (Qle_bool 0 x) eqn:E; [apply Qle_bool_iff in E; lra|reflexivity]. Qed.
Lemma qabs_spec x : ((0 <= x)%Q /\ qabs x = x) \/ ((x < 0)%Q /\ qabs x = (- x)%Q).
Proof. destruct (Qlt_le_dec x 0); [right|left]; split; auto using qabs_nonneg, qabs_neg. Qed.
Lemma default_isDefault big prec d : (0 <= prec)%Q -> isDefault big prec (defaultBox big d) = true.
Proof.
  intros Hp. assert (A : forall c, Qle_bool (qabs (c - c)) (qmin (qabs c) (qabs c) * prec) = true).
  { intros c. apply Qle_bool_iff.
    assert (N : (0 <= qabs c)%Q) by (destruct (qabs_spec c) as [[? ->]|[? ->]]; lra).
    assert (E : (qabs (c - c) == 0)%Q) by (destruct (qabs_spec (c - c)) as [[? ->]|[? ->]]; lra).
    rewrite E. apply Qmult_le_0_compat; [|exact Hp]. destruct (qmin_spec (qabs c) (qabs c)) as (_ & _ & [->| ->]); exact N. }
  unfold isDefault, approxTo, defaultBox. cbn. apply andb_true_intro. split; apply forallb_forall; intros x Hx; apply repeat_spec in Hx; subst x; apply A.
Qed.
Lemma legal_not_default big prec d b : (0 < big)%Q -> (0 <= prec < 1)%Q -> 0 < d -> legal d b -> isDefault big prec b = false.
Proof.
  intros Hb [Hp0 Hp] Hd (L1 & L2 & L3). unfold isDefault. destruct b as [[|x lo] [|y hi]]; cbn in *; try lia.
  inversion L3 as [|? ? ? ? Hxy _]; subst.
  destruct (Qle_bool (qabs (x - big)) _) eqn:E1; [|reflexivity]. cbn.
  destruct (Qle_bool (qabs (y - - big)) _) eqn:E2; [|rewrite andb_false_r; reflexivity]. exfalso.
  apply Qle_bool_iff in E1, E2.
  assert (X : (0 < x)%Q).
  { destruct (qmin_spec (qabs x) (qabs big)) as (_ & M2 & _).
    assert (qmin (qabs x) (qabs big) * prec <= qabs big * prec)%Q by (apply Qmult_le_compat_r; assumption).
    rewrite (qabs_nonneg big) in * by lra. assert (big * prec < big)%Q by nra.
    destruct (qabs_spec (x - big)) as [[? Q]|[? Q]]; rewrite Q in E1; lra. }
  assert (Y : (y < 0)%Q).
  { destruct (qmin_spec (qabs y) (qabs (- big))) as (_ & M2 & _).
    assert (qmin (qabs y) (qabs (- big)) * prec <= qabs (- big) * prec)%Q by (apply Qmult_le_compat_r; assumption).
    rewrite (qabs_neg (- big)) in * by lra. assert (- - big * prec < big)%Q by nra.
    destruct (qabs_spec (y - - big)) as [[? Q]|[? Q]]; rewrite Q in E2; lra. }
  lra.
Qed.
Lemma dataVector_ok d b : (d = 2 \/ d = 3) -> length (b_min b) = d -> length (b_max b) = d -> boxOfBounds (dataVector b) = Some b.
Proof.
  intros Hd L1 L2. destruct b as [lo hi]. cbn in *. destruct Hd as [->| ->].
  - destruct lo as [|? [|? [|? ?]]]; try discriminate. destruct hi as [|? [|? [|? ?]]]; try discriminate. reflexivity.
  - destruct lo as [|? [|? [|? [|? ?]]]]; try discriminate. destruct hi as [|? [|? [|? [|? ?]]]]; try discriminate. reflexivity.
Qed.
