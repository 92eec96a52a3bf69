(** Proofs about the tags and the partition of a rank. *)
From Coq Require Import ZArith QArith List Arith Bool Lia.
From Verif Require Import M_Net M_Mesh M_Box M_Map M_Repart S_Mesh S_Filter S_Map S_Box S_Repart M_M2N M_Part S_Term S_M2N S_Part P_Filter P_Box P_MapTop P_Repart.
Import ListNotations.
Open Scope nat_scope.

(** equal up to owners and tags *)
Record alike (a b : mesh) : Prop := {
  al_elements : same_elements a b;
  al_number : length (m_verts b) = length (m_verts a);
  al_vertices : forall i v, nth_error (m_verts a) i = Some v -> exists w, nth_error (m_verts b) i = Some w /\ v_coords w = v_coords v /\ v_glob w = v_glob v
}.
Lemma alike_back a b : alike a b -> forall i w, nth_error (m_verts b) i = Some w -> exists v, nth_error (m_verts a) i = Some v /\ v_coords w = v_coords v /\ v_glob w = v_glob v.
Proof.
  intros A i w E. destruct (nth_error (m_verts a) i) as [v|] eqn:Ev.
  - exists v. split; [reflexivity|]. destruct (al_vertices _ _ A i v Ev) as (w' & Ew & C). rewrite E in Ew. injection Ew as <-. exact C.
  - apply nth_error_None in Ev. rewrite <- (al_number _ _ A) in Ev. apply nth_error_None in Ev. congruence.
Qed.
Lemma alike_refl a : alike a a.
Proof. constructor; [repeat split|reflexivity|eauto]. Qed.
Lemma alike_trans a b c : alike a b -> alike b c -> alike a c.
Proof.
  intros [(D & E & T & TT) N V] [(D' & E' & T' & TT') N' V']. constructor.
  - repeat split; congruence.
  - congruence.
  - intros i v Ev. destruct (V i v Ev) as (w & Ew & C & G). destruct (V' i w Ew) as (x & Ex & C' & G'). exists x. repeat split; congruence.
Qed.
Lemma alike_wf a b : wf_mesh a -> alike a b -> wf_mesh b.
Proof.
  intros W A. pose proof (al_elements _ _ A) as (D & E & T & TT). constructor; unfold nVertices; rewrite <- ?D, <- ?E, <- ?T, <- ?TT, ?(al_number _ _ A); try apply W.
  intros w I. apply In_nth_error in I. destruct I as (i & Ei). destruct (alike_back _ _ A i w Ei) as (v & Ev & C & _). rewrite C. apply (wm_coords a W), (nth_error_In _ _ Ev).
Qed.
Lemma alike_globs a b : alike a b -> map v_glob (m_verts b) = map v_glob (m_verts a).
Proof.
  intros A. apply nth_ext with (d := 0%Z) (d' := 0%Z); [rewrite !map_length; apply (al_number _ _ A)|]. intros n Hn. rewrite map_length in Hn.
  destruct (nth_error (m_verts b) n) as [w|] eqn:Ew; [|apply nth_error_None in Ew; lia]. destruct (alike_back _ _ A n w Ew) as (v & Ev & _ & G).
  rewrite (nth_error_nth _ _ 0%Z (map_nth_error v_glob _ _ Ew)), (nth_error_nth _ _ 0%Z (map_nth_error v_glob _ _ Ev)). exact G.
Qed.
Lemma alike_part g a b : part_of g a -> alike a b -> part_of g b.
Proof.
  intros P A. constructor.
  - apply (alike_wf a); [apply (po_wf _ _ P)|exact A].
  - rewrite <- (po_dim _ _ P). symmetry. apply (al_elements _ _ A).
  - intros w I. apply In_nth_error in I. destruct I as (i & Ei). destruct (alike_back _ _ A i w Ei) as (v & Ev & C & G). rewrite C, G. apply (po_verts _ _ P), (nth_error_In _ _ Ev).
  - rewrite (alike_globs _ _ A). apply (po_once _ _ P).
Qed.
Lemma alike_gid a b j : alike a b -> gid b j = gid a j.
Proof.
  intros A. unfold gid. destruct (nth_error (m_verts a) j) as [v|] eqn:E.
  - destruct (al_vertices _ _ A j v E) as (w & -> & _ & ->). reflexivity.
  - apply nth_error_None in E. rewrite <- (al_number _ _ A) in E. apply nth_error_None in E. rewrite E. reflexivity.
Qed.
Lemma alike_holds g a b u : alike a b -> holds g a u -> holds g b u.
Proof. intros A (j & Hj & N). exists j. split; [unfold nVertices; rewrite (al_number _ _ A); exact Hj|]. rewrite (alike_gid _ _ j A). exact N. Qed.

(** ** tags *)
Lemma tagAt_nth ids : forall vs k i, nth_error (tagAt ids k vs) i =
  match nth_error vs i with Some v => Some (if existsb (Nat.eqb (k + i)) ids then MkVertex (v_coords v) (v_glob v) (v_owner v) true else v) | None => None end.
Proof.
  induction vs as [|v vs IH]; intros k i; cbn [tagAt]; [destruct i; reflexivity|]. destruct i as [|i]; cbn [nth_error].
  - rewrite Nat.add_0_r. reflexivity.
  - rewrite IH. replace (S k + i) with (k + S i) by lia. reflexivity.
Qed.
Lemma tagAt_length ids : forall vs k, length (tagAt ids k vs) = length vs.
Proof. induction vs as [|v vs IH]; intros k; cbn; congruence. Qed.
Definition more_tags (a b : mesh) : Prop := forall i v w, nth_error (m_verts a) i = Some v -> nth_error (m_verts b) i = Some w -> v_tag v = true -> v_tag w = true.
Section T.
Variable closestV : mesh -> list Q -> nat.
Hypothesis closest_ok : forall s u, wf_mesh s -> length u = m_dim s -> m_verts s <> [] -> nearest s u (closestV s u).

Lemma tagNN_ok g h o : part_of g h -> wf_mesh o -> m_dim o = m_dim g -> (forall i, i < nVertices o -> holds g h (position o i)) ->
  exists t, tagNN closestV h o = Some t /\ alike h t /\ more_tags h t /\
  forall i, i < nVertices o -> exists j v, nth_error (m_verts t) j = Some v /\ v_tag v = true /\ nearest g (position o i) (gid t j).
Proof.
  intros P W D H. unfold tagNN.
  destruct (indices_ok h o (closestV h) W) as (ids & E & L & K).
  - rewrite D. symmetry. apply (po_dim _ _ P).
  - destruct (Nat.eq_dec (nVertices o) 0) as [Z|NZ]; [right; exact Z|left]. destruct (H 0 ltac:(lia)) as (j & Hj & _). lia.
  - intros u Lu NE. apply closest_ok; [apply (po_wf _ _ P)|exact Lu|exact NE].
  - rewrite E. set (t := setVerts h (tagAt ids 0 (m_verts h))). exists t. split; [reflexivity|].
    assert (alike h t) as A.
    { constructor; [repeat split|apply tagAt_length|]. intros i v Ev. cbn [m_verts setVerts t]. rewrite tagAt_nth, Ev. eexists. split; [reflexivity|]. destruct (existsb _ ids); cbn; auto. }
    split; [exact A|]. split.
    + intros i v w Ev Ew T. cbn [m_verts setVerts t] in Ew. rewrite tagAt_nth, Ev in Ew. injection Ew as <-. destruct (existsb _ ids); [reflexivity|exact T].
    + intros i Hi. destruct (K i Hi) as (j & Ej & N). pose proof N as (Hj & _). unfold nVertices in Hj. destruct (nth_error (m_verts h) j) as [v|] eqn:Ev; [|apply nth_error_None in Ev; lia].
      exists j, (MkVertex (v_coords v) (v_glob v) (v_owner v) true). split.
      * cbn [m_verts setVerts t]. rewrite tagAt_nth, Ev. assert (existsb (Nat.eqb (0 + j)) ids = true) as ->; [|reflexivity]. apply existsb_exists. exists j. split; [apply (nth_error_In _ _ Ej)|apply Nat.eqb_refl].
      * split; [reflexivity|]. rewrite (alike_gid _ _ j A). apply nearest_part; [exact P|apply H, Hi|exact N].
Qed.
Lemma tags_ok g : forall locals h, part_of g h -> (forall o, In o locals -> wf_mesh o /\ m_dim o = m_dim g /\ forall i, i < nVertices o -> holds g h (position o i)) ->
  exists t, tagMeshFirstRound closestV locals h = Some t /\ alike h t /\ more_tags h t /\
  forall o i, In o locals -> i < nVertices o -> exists j v, nth_error (m_verts t) j = Some v /\ v_tag v = true /\ nearest g (position o i) (gid t j).
Proof.
  induction locals as [|o r IH]; intros h P H; cbn [tagMeshFirstRound].
  - exists h. split; [reflexivity|]. split; [apply alike_refl|]. split; [intros i v w Ev Ew; congruence|]. intros o i [].
  - destruct (H o (or_introl eq_refl)) as (W & D & HO). destruct (tagNN_ok g h o P W D HO) as (t1 & E1 & A1 & M1 & K1). rewrite E1.
    destruct (IH t1 (alike_part _ _ _ P A1)) as (t & E & A & M & K).
    + intros o' I. destruct (H o' (or_intror I)) as (W' & D' & HO'). split; [exact W'|]. split; [exact D'|]. intros i Hi. apply (alike_holds g h); [exact A1|apply HO', Hi].
    + exists t. split; [exact E|]. split; [apply (alike_trans h t1 t A1 A)|]. split.
      * intros i v w Ev Ew T. destruct (al_vertices _ _ A1 i v Ev) as (x & Ex & _). apply (M i x w Ex Ew), (M1 i v x Ev Ex T).
      * intros o' i [<-|I] Hi; [|apply (K o' i I Hi)]. destruct (K1 i Hi) as (j & v & Ev & T & N). destruct (al_vertices _ _ A j v Ev) as (w & Ew & _). exists j, w.
        split; [exact Ew|]. split; [apply (M j v w Ev Ew T)|]. rewrite (alike_gid _ _ j A). exact N.
Qed.
End T.

(** ** the partition of the rank *)
Lemma tagged_alike extra a b : tagged_again extra a b -> alike a b.
Proof. intros [E N V]. constructor; [exact E|exact N|]. intros i v Ev. destruct (V i v Ev) as (w & Ew & C & G & _). eauto. Qed.
Lemma partition_ok g t m2 f u : part_of g t -> tagged_again [] t m2 -> filtered v_tag (emptyMesh (m_dim t)) m2 f ->
  part_of g f /\ ((exists j v, nth_error (m_verts t) j = Some v /\ v_tag v = true /\ nearest g u (gid t j)) -> holds g f u).
Proof.
  intros P TA F. pose proof (tagged_alike _ _ _ TA) as A. pose proof (alike_part _ _ _ P A) as P2.
  assert (m_dim t = m_dim m2) as D by apply (al_elements _ _ A). rewrite D in F.
  pose proof (filtered_wf v_tag m2 f (po_wf _ _ P2) F) as W. pose proof (fl_dim _ _ _ _ F) as FD. pose proof (fl_verts _ _ _ _ F) as FV. cbn [emptyMesh m_dim m_verts app] in FD, FV.
  split; [apply (part_filter g m2 v_tag f P2 W FD FV)|]. intros (j & v & Ev & T & N).
  destruct (ta_vertices _ _ _ TA j v Ev) as (w & Ew & C & G & T2).
  assert (In w (m_verts f)) as I. { rewrite FV. apply filter_In. split; [apply (nth_error_In _ _ Ew)|]. rewrite T2, T. reflexivity. }
  apply In_nth_error in I. destruct I as (k & Ek). exists k. split; [apply nth_error_Some; congruence|]. unfold gid. rewrite Ek, G. unfold gid in N. rewrite Ev in N. exact N.
Qed.

(** ** two-level initialization *)
Section Two.
Variables big prec safety : Q.
Hypothesis big_pos : (0 < big)%Q.
Hypothesis prec_ok : (0 <= prec < 1)%Q.
Hypothesis safety_ok : (0 <= safety)%Q.

Lemma both_overlap d p a b : length (b_min a) = d -> length (b_min b) = d -> S_Box.inside p a -> S_Box.inside p b -> overlapping a b = true.
Proof.
  intros La Lb Ia Ib. assert (forall c, length (b_min c) = d -> S_Box.inside p c -> legal d c) as LG.
  { intros c Lc (I1 & I2). split; [exact Lc|]. split; [pose proof (F2_len _ _ _ I1); pose proof (F2_len _ _ _ I2); congruence|exact (F2_trans _ _ _ I1 I2)]. }
  apply (overlapping_ok d a b (LG a La Ia) (LG b Lb Ib)). exists p. auto.
Qed.
Lemma boxOf_ok d o : fits big d o -> exists b, boxOf big prec o = Some b /\ forall v, In v (m_verts o) -> S_Box.inside (v_coords v) b.
Proof.
  intros (W & D & F). destruct (meshBox_ok big prec o (defaultBox big (m_dim o)) W F) as (b & E & K & _).
  - apply default_isDefault, prec_ok.
  - exists b. split; [exact E|exact K].
Qed.
Lemma filter_none {A} (p : A -> bool) l : (forall x, In x l -> p x = false) -> filter p l = [].
Proof. induction l as [|x l IH]; intros H; cbn; [reflexivity|]. rewrite (H x (or_introl eq_refl)). apply IH. intros y I. apply H. right. exact I. Qed.
Lemma connected_ok d bb : length (b_min bb) = d -> length (b_max bb) = d -> forall parts, (forall o, In o parts -> fits big d o) ->
  exists l, connectedParts big prec bb parts = Some l /\ incl l parts /\
  filter (inBox bb) (flat_map m_verts l) = filter (inBox bb) (flat_map m_verts parts).
Proof.
  intros L1 L2. induction parts as [|p r IH]; intros F; cbn [connectedParts].
  - exists []. split; [reflexivity|]. split; [apply incl_refl|reflexivity].
  - pose proof (F p (or_introl eq_refl)) as Fp. destruct (boxOf_ok d p Fp) as (b & E & K). destruct IH as (l & El & I & EQ); [intros o Io; apply F; right; exact Io|].
    rewrite E, El. destruct (overlapping bb b) eqn:OV.
    + exists (p :: l). split; [reflexivity|]. split; [intros x [<-|Ix]; [left; reflexivity|right; apply I, Ix]|]. cbn [flat_map]. rewrite !filter_app, EQ. reflexivity.
    + exists l. split; [reflexivity|]. split; [intros x Ix; right; apply I, Ix|]. cbn [flat_map]. rewrite filter_app, EQ, (filter_none (inBox bb) (m_verts p)); [reflexivity|].
      intros v Iv. destruct (inBox bb v) eqn:B; [|reflexivity]. exfalso. destruct Fp as (W & D & _).
      assert (length (v_coords v) = d) as Lv by (rewrite <- D; apply (wm_coords p W v Iv)).
      apply (inBox_iff d bb v L1 L2 Lv) in B. rewrite (both_overlap d (v_coords v) bb b L1) in OV; [discriminate| |exact B|apply K, Iv].
      destruct (K v Iv) as (I1 & _). rewrite (F2_len _ _ _ I1). exact Lv.
Qed.
Lemma appended_wf a m b : wf_mesh a -> wf_mesh m -> m_dim a = m_dim m -> appended eq a m b -> wf_mesh b /\ m_verts b = m_verts a ++ m_verts m.
Proof.
  intros WA WM DM [AD (vs & AV & F) AE AT ATT].
  assert (vs = m_verts m) as -> by (clear - F; induction F; cbn; congruence).
  assert (nVertices b = nVertices a + nVertices m) as NB by (unfold nVertices; rewrite AV, app_length; reflexivity).
  split; [|exact AV]. constructor.
  - rewrite AD. apply (wm_dim a WA).
  - intros v I. rewrite AV in I. apply in_app_or in I. rewrite AD. destruct I as [I|I]; [apply (wm_coords a WA v I)|rewrite DM; apply (wm_coords m WM v I)].
  - intros x y I. rewrite AE in I. apply in_app_or in I. rewrite NB. destruct I as [I|I]; [destruct (wm_edges a WA x y I); lia|].
    apply in_map_iff in I. destruct I as ((x', y') & E & I). cbn in E. injection E as <- <-. destruct (wm_edges m WM x' y' I). lia.
  - intros x y z I. rewrite AT in I. apply in_app_or in I. rewrite NB. destruct I as [I|I]; [destruct (wm_tris a WA x y z I); lia|].
    apply in_map_iff in I. destruct I as (((x', y'), z') & E & I). cbn in E. injection E as <- <- <-. destruct (wm_tris m WM x' y' z' I). lia.
  - intros x y z t I. rewrite ATT in I. apply in_app_or in I. rewrite NB. destruct I as [I|I]; [destruct (wm_tets a WA x y z t I); lia|].
    apply in_map_iff in I. destruct I as ((((x', y'), z'), t') & E & I). cbn in E. injection E as <- <- <- <-. destruct (wm_tets m WM x' y' z' t' I). lia.
Qed.
Lemma receiveParts_ok d : forall parts m, wf_mesh m -> m_dim m = d -> (forall o, In o parts -> fits big d o) ->
  exists g, receiveParts parts m = Some g /\ wf_mesh g /\ m_dim g = d /\ m_verts g = m_verts m ++ flat_map m_verts parts.
Proof.
  induction parts as [|p r IH]; intros m W D F; cbn [receiveParts flat_map].
  - exists m. rewrite app_nil_r. auto.
  - destruct (F p (or_introl eq_refl)) as (Wp & Dp & _). destruct (addMesh_ok m p Wp) as (m' & E & A); [congruence|]. rewrite E.
    destruct (appended_wf m p m' W Wp ltac:(congruence) A) as (W' & V'). destruct (IH m' W') as (g & Eg & Wg & Dg & Vg).
    + rewrite (ap_dim _ _ _ _ A). exact D.
    + intros o I. apply F. right. exact I.
    + exists g. split; [exact Eg|]. split; [exact Wg|]. split; [exact Dg|]. rewrite Vg, V', <- app_assoc. reflexivity.
Qed.
Lemma emptyMesh_wf d : (d = 2 \/ d = 3) -> wf_mesh (emptyMesh d).
Proof. intros H. constructor; cbn; try contradiction; auto. Qed.
Lemma two_level_same d locals parts : (d = 2 \/ d = 3) -> (forall o, In o locals -> fits big d o) -> (forall o, In o parts -> fits big d o) ->
  exists all connected, receiveParts parts (emptyMesh d) = Some all /\ receiveConnected big prec safety d locals parts = Some connected /\
  match filterByBoundingBox big prec safety ON_SECONDARY_RANKS locals all, filterByBoundingBox big prec safety ON_SECONDARY_RANKS locals connected with
  | Some a, Some b => m_verts a = m_verts b
  | None, None => True
  | _, _ => False
  end.
Proof.
  intros Hd FL FP. destruct (receiveParts_ok d parts (emptyMesh d) (emptyMesh_wf d Hd) eq_refl FP) as (all & E & W & D & V).
  destruct (mergeBoxes_ok big prec safety big_pos prec_ok safety_ok d locals (defaultBox big d) FL) as (bb & EB & L1 & L2 & _); [cbn; apply repeat_length|cbn; apply repeat_length|].
  destruct (connected_ok d bb L1 L2 parts FP) as (l & El & I & EQ).
  destruct (receiveParts_ok d l (emptyMesh d) (emptyMesh_wf d Hd) eq_refl) as (con & E' & W' & D' & V'); [intros o Io; apply FP, I, Io|].
  exists all, con. split; [exact E|]. split; [unfold receiveConnected, prepareBoundingBox; rewrite EB, El; exact E'|].
  unfold filterByBoundingBox, prepareBoundingBox. rewrite D, D', EB.
  destruct (filter_add (inBox bb) all W) as (a & A1 & A2 & _ & _ & AV). destruct (filter_add (inBox bb) con W') as (b & B1 & B2 & _ & _ & BV). rewrite D in A1, A2. rewrite D' in B1, B2.
  rewrite A1, A2, B1, B2. cbn [emptyMesh m_verts app] in V, V'. assert (m_verts a = m_verts b) as EV by (rewrite AV, BV, V, V', EQ; reflexivity).
  unfold filteredOut. rewrite EV. destruct (existsb _ locals && negb _); auto.
Qed.
End Two.
