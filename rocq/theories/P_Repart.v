(** Proofs about what a rank keeps of a received mesh. *)
From Coq Require Import ZArith QArith Qminmax List Arith Bool Lia.
From Verif Require Import M_Mesh M_Box M_Map M_Repart S_Mesh S_Filter S_Map S_Box S_Repart M_Part S_Part P_Filter P_Box P_MapTop.
Import ListNotations.
Open Scope nat_scope.

Lemma filtered_wf p m m' : wf_mesh m -> filtered p (emptyMesh (m_dim m)) m m' -> wf_mesh m'.
Proof.
  intros W F. destruct F as [FD FV FE FT FTT]. cbn [emptyMesh m_dim m_verts m_edges m_tris m_tets app] in *.
  assert (forall a, selected p m a = true -> new_id p m 0 a < nVertices m') as LT.
  { intros a Sa. unfold nVertices. rewrite FV. pose proof (nw_lt p (emptyMesh (m_dim m)) m a (nVertices m)) as K. cbn [nVertices emptyMesh m_verts length] in K.
    assert (a < nVertices m) as Ha. { unfold selected in Sa. apply nth_error_Some. destruct (nth_error (m_verts m) a); congruence. }
    specialize (K Ha Sa). unfold new_id at 2 in K. unfold nVertices in K. rewrite firstn_all in K. lia. }
  assert (forall a b, a <= b -> new_id p m 0 a <= new_id p m 0 b) as LE by (intros a b H; apply (nw_le p (emptyMesh (m_dim m)) m a b H)).
  assert (forall a b, a < b -> selected p m a = true -> new_id p m 0 a < new_id p m 0 b) as LS by (intros a b H S; apply (nw_lt p (emptyMesh (m_dim m)) m a b H S)).
  constructor.
  - rewrite FD. apply (wm_dim m W).
  - intros v I. rewrite FV in I. apply filter_In in I. rewrite FD. apply (wm_coords m W), I.
  - intros a b I. rewrite FE in I. apply in_map_iff in I. destruct I as ((x, y) & E & I). apply filter_In in I. destruct I as (I & S). cbn [fst snd] in *. apply andb_true_iff in S. destruct S as (S1 & S2).
    injection E as <- <-. apply (wm_edges m W) in I. split; [apply LE; lia|apply LT, S2].
  - intros a b c I. rewrite FT in I. apply in_map_iff in I. destruct I as (((x, y), z) & E & I). apply filter_In in I. destruct I as (I & S). rewrite !andb_true_iff in S. destruct S as ((S1 & S2) & S3).
    injection E as <- <- <-. apply (wm_tris m W) in I. split; [apply LE; lia|]. split; [apply LE; lia|apply LT, S3].
  - intros a b c d I. rewrite FTT in I. apply in_map_iff in I. destruct I as ((((x, y), z), t) & E & I). apply filter_In in I. destruct I as (I & S). rewrite !andb_true_iff in S. destruct S as (((S1 & S2) & S3) & S4).
    injection E as <- <- <- <-. apply (wm_tets m W) in I. split; [apply LS; [lia|exact S1]|]. split; [apply LS; [lia|exact S2]|]. split; [apply LS; [lia|exact S3]|]. split; [apply LT, S4|]. rewrite FD. lia.
Qed.
(** the copy of a mesh into an empty one *)
Lemma appended_same m m' : appended eq (emptyMesh (m_dim m)) m m' -> m' = m.
Proof.
  intros [AD (vs & AV & F) AE AT ATT]. cbn [emptyMesh m_dim m_verts m_edges m_tris m_tets nVertices length app] in *.
  assert (vs = m_verts m) as ->. { clear - F. induction F; cbn; congruence. }
  destruct m' as [d v e t tt], m as [d' v' e' t' tt']. cbn in *. f_equal; try congruence.
  - rewrite AE. clear. induction e' as [|(a, b) l IH]; cbn; [reflexivity|]. rewrite IH. reflexivity.
  - rewrite AT. clear. induction t' as [|((a, b), c) l IH]; cbn; [reflexivity|]. rewrite IH. reflexivity.
  - rewrite ATT. clear. induction tt' as [|(((a, b), c), d) l IH]; cbn; [reflexivity|]. rewrite IH. reflexivity.
Qed.
Lemma filter_add p m : wf_mesh m -> exists m', filterMesh (emptyMesh (m_dim m)) m p = Some m' /\ addMesh (emptyMesh (m_dim m)) m' = Some m' /\
  wf_mesh m' /\ m_dim m' = m_dim m /\ m_verts m' = filter p (m_verts m).
Proof.
  intros W. destruct (filterMesh_ok (emptyMesh (m_dim m)) m p W eq_refl) as (m' & E & F). exists m'. split; [exact E|].
  pose proof (filtered_wf p m m' W F) as W'. pose proof (fl_dim _ _ _ _ F) as D. cbn in D.
  destruct (addMesh_ok (emptyMesh (m_dim m)) m' W') as (m'' & E2 & A); [symmetry; exact D|]. rewrite <- D in A. apply appended_same in A. subst m''.
  split; [exact E2|]. split; [exact W'|]. split; [exact D|]. exact (fl_verts _ _ _ _ F).
Qed.

(** ** parts of the global mesh *)
Lemma part_self g : global_mesh g -> part_of g g.
Proof.
  intros (W & N). constructor; [exact W|reflexivity| |].
  - intros v I. apply In_nth_error in I. destruct I as (i & E). destruct (N _ _ E) as (GE & _). exists v. rewrite GE, Nat2Z.id. auto.
  - assert (map v_glob (m_verts g) = map Z.of_nat (seq 0 (length (m_verts g)))) as ->.
    { clear W. assert (forall l k, (forall i v, nth_error l i = Some v -> v_glob v = Z.of_nat (k + i)) -> map v_glob l = map Z.of_nat (seq k (length l))) as K.
      { induction l as [|v l IH]; intros k H; cbn; [reflexivity|]. f_equal.
        - rewrite (H 0 v eq_refl). f_equal. lia.
        - apply IH. intros i w E. rewrite (H (S i) w E). f_equal. lia. }
      apply K. intros i v E. apply (N i v E). }
    apply FinFun.Injective_map_NoDup; [intros a b H; lia|apply seq_NoDup].
Qed.
Lemma part_filter g h p h' : part_of g h -> wf_mesh h' -> m_dim h' = m_dim h -> m_verts h' = filter p (m_verts h) -> part_of g h'.
Proof.
  intros [W D V O] W' D' E. constructor; [exact W'|congruence| |].
  - intros v I. rewrite E in I. apply filter_In in I. apply V, I.
  - rewrite E. clear - O. induction (m_verts h) as [|v l IH]; cbn in *; [constructor|]. inversion O; subst. destruct (p v); [|auto]. cbn. constructor; [|auto].
    intros I. apply H1. apply in_map_iff in I. destruct I as (w & Ew & I). apply filter_In in I. rewrite <- Ew. apply in_map, I.
Qed.
Lemma part_position g h j : part_of g h -> j < nVertices h -> gid h j < nVertices g /\ position g (gid h j) = position h j.
Proof.
  intros P H. unfold gid, position. destruct (nth_error (m_verts h) j) as [v|] eqn:E; [|apply nth_error_None in E; unfold nVertices in H; lia].
  destruct (po_verts _ _ P v (nth_error_In _ _ E)) as (w & Ew & C & _). split; [apply nth_error_Some; congruence|]. rewrite Ew. exact C.
Qed.
(** the part has a vertex that is nearest in the whole mesh *)
Lemma nearest_part g h u j : part_of g h -> holds g h u -> nearest h u j -> nearest g u (gid h j).
Proof.
  intros P (k & Hk & NK) (Hj & NJ). destruct (part_position g h j P Hj) as (L & EP). split; [exact L|]. intros i Hi. rewrite EP.
  eapply Qle_trans; [|apply NK; exact Hi]. rewrite (proj2 (part_position g h k P Hk)). rewrite <- (po_dim _ _ P). apply NJ. exact Hk.
Qed.
Lemma gid_inj g h i j : part_of g h -> i < nVertices h -> j < nVertices h -> gid h i = gid h j -> i = j.
Proof.
  intros P Hi Hj E. unfold gid in E. pose proof (po_verts _ _ P) as V. pose proof (po_once _ _ P) as O.
  destruct (nth_error (m_verts h) i) as [v|] eqn:Ei; [|apply nth_error_None in Ei; unfold nVertices in Hi; lia].
  destruct (nth_error (m_verts h) j) as [w|] eqn:Ej; [|apply nth_error_None in Ej; unfold nVertices in Hj; lia].
  destruct (V v (nth_error_In _ _ Ei)) as (v' & Ev & _ & Gv). destruct (V w (nth_error_In _ _ Ej)) as (w' & Ew & _ & Gw).
  rewrite E, Ew in Ev. injection Ev as <-. apply (proj1 (NoDup_nth_error _) O); [rewrite map_length; exact Hi|].
  rewrite !nth_error_map, Ei, Ej. cbn. congruence.
Qed.

(** ** the bounding box *)
Section B.
Variables big prec safety : Q.
Hypothesis big_pos : (0 < big)%Q.
Hypothesis prec_ok : (0 <= prec < 1)%Q.
Hypothesis safety_pos : (0 <= safety)%Q.
Local Notation fits := (fits big).

Lemma fold_max_in l x y : In y l -> (y <= fold_left qmax l x)%Q.
Proof.
  revert x. induction l as [|z l IH]; intros x I; [destruct I|]. cbn. destruct I as [->|I]; [|apply IH, I].
  eapply Qle_trans; [apply (proj1 (proj2 (qmax_spec x y)))|apply fold_max_ge].
Qed.
Lemma longest_ge b k : length (b_max b) = length (b_min b) -> k < length (b_min b) -> (nth k (b_max b) 0 - nth k (b_min b) 0 <= longestEdgeLength b)%Q.
Proof.
  intros L H. unfold longestEdgeLength.
  assert (In (nth k (b_max b) 0 - nth k (b_min b) 0)%Q (map2 (fun x y => (y - x)%Q) (b_min b) (b_max b))) as I.
  { unfold map2. apply in_map_iff. exists (nth k (b_min b) 0%Q, nth k (b_max b) 0%Q). split; [reflexivity|]. rewrite <- combine_nth by congruence. apply nth_In. rewrite combine_length. lia. }
  destruct (map2 _ _ _) as [|x r]; [destruct I|]. destruct I as [->|I]; [apply fold_max_ge|apply fold_max_in, I].
Qed.
Lemma F2_nth : forall a b, Forall2 Qle a b -> forall k, k < length a -> (nth k a 0 <= nth k b 0)%Q.
Proof. induction 1; intros k Hk; [cbn in Hk; lia|]. destruct k; [assumption|]. cbn in *. apply IHForall2. lia. Qed.
Lemma nth_F2 : forall a b, length a = length b -> (forall k, k < length a -> (nth k a 0 <= nth k b 0)%Q) -> Forall2 Qle a b.
Proof.
  induction a as [|x a IH]; intros [|y b] L H; cbn in *; try lia; constructor.
  - apply (H 0). lia.
  - apply IH; [lia|]. intros k Hk. apply (H (S k)). lia.
Qed.
(** a point within the safety distance of a vertex is in the scaled box of its mesh *)
Lemma scaled_inside d o : fits d o -> exists b, boxOf big prec o = Some b /\ length (b_min b) = d /\ length (b_max b) = d /\
  forall v q, In v (m_verts o) -> length q = d -> within safety o q (v_coords v) -> inside q (scaleBy big prec b safety).
Proof.
  intros (W & D & Fi). unfold boxOf. destruct (meshBox_ok big prec o (defaultBox big (m_dim o)) W Fi (default_isDefault big prec _ (proj1 prec_ok))) as (b & E & IN & _).
  assert (length (b_min b) = m_dim o /\ length (b_max b) = m_dim o) as (L1 & L2).
  { unfold computeBoundingBox in E. rewrite (default_isDefault big prec _ (proj1 prec_ok)) in E.
    destruct (expandVs_ok (m_verts o) (defaultBox big (m_dim o))) as (bb & E2 & L & DD & _).
    { unfold defaultBox, b_dim. cbn. rewrite !repeat_length. reflexivity. }
    { intros v Hv. unfold defaultBox, b_dim. cbn. rewrite repeat_length. apply (wm_coords o W), Hv. }
    rewrite E2 in E. injection E as <-. unfold b_dim in *. rewrite DD in L. cbn in DD, L. rewrite repeat_length in DD, L. split; congruence. }
  exists b. split; [exact E|]. split; [congruence|]. split; [congruence|].
  intros v q Iv Lq (a & c & k & Ia & Ic & Hk & WI). pose proof (IN _ Iv) as (Iv1 & Iv2).
  assert (legal d b) as LB. { split; [congruence|]. split; [congruence|]. eapply F2_trans; eassumption. }
  unfold scaleBy. rewrite (legal_not_default big prec d b big_pos prec_ok); [|destruct (wm_dim o W); lia|exact LB].
  assert (nth k (v_coords a) 0 - nth k (v_coords c) 0 <= longestEdgeLength b)%Q as LO.
  { eapply Qle_trans; [|apply (longest_ge b k); lia]. pose proof (IN _ Ia) as (_ & A2). pose proof (IN _ Ic) as (C1 & _).
    unfold Qminus. apply Qplus_le_compat; [apply F2_nth; [exact A2|rewrite (wm_coords o W _ Ia); exact Hk]|]. apply Qopp_le_compat. apply F2_nth; [exact C1|lia]. }
  assert (safety * (nth k (v_coords a) 0 - nth k (v_coords c) 0) <= safety * longestEdgeLength b)%Q as LS.
  { rewrite !(Qmult_comm safety). apply Qmult_le_compat_r; assumption. }
  set (e := (safety * (nth k (v_coords a) 0 - nth k (v_coords c) 0))%Q) in *. set (l := (safety * longestEdgeLength b)%Q) in *.
  split; cbn [b_min b_max].
  - apply nth_F2; [rewrite map_length; congruence|]. intros i Hi. rewrite map_length in Hi.
    rewrite (nth_indep _ 0%Q (0 - l)%Q) by (rewrite map_length; exact Hi). rewrite (map_nth (fun x => (x - l)%Q)).
    destruct (WI i ltac:(lia)) as (W1 & _). pose proof (F2_nth _ _ Iv1 i Hi) as M. eapply Qle_trans; [|exact W1]. unfold Qminus. apply Qplus_le_compat; [exact M|]. apply Qopp_le_compat. exact LS.
  - apply nth_F2; [rewrite map_length; congruence|]. intros i Hi.
    rewrite (nth_indep (map _ _) 0%Q (0 + l)%Q) by (rewrite map_length; lia). rewrite (map_nth (fun x => (x + l)%Q)).
    destruct (WI i ltac:(lia)) as (_ & W2). pose proof (F2_nth _ _ Iv2 i) as M. rewrite (wm_coords o W _ Iv) in M. specialize (M ltac:(lia)). eapply Qle_trans; [exact W2|]. apply Qplus_le_compat; [exact M|exact LS].
Qed.
Lemma scale_sizes b : length (b_min (scaleBy big prec b safety)) = length (b_min b) /\ length (b_max (scaleBy big prec b safety)) = length (b_max b).
Proof. unfold scaleBy. destruct (isDefault big prec b); cbn; rewrite ?map_length; auto. Qed.
Lemma mergeBoxes_ok d : forall locals bb, (forall o, In o locals -> fits d o) -> length (b_min bb) = d -> length (b_max bb) = d ->
  exists b, mergeBoxes big prec safety locals bb = Some b /\ length (b_min b) = d /\ length (b_max b) = d /\
  (forall q, inside q bb -> inside q b) /\
  forall o v q, In o locals -> In v (m_verts o) -> length q = d -> within safety o q (v_coords v) -> inside q b.
Proof.
  induction locals as [|o r IH]; intros bb F L1 L2; cbn [mergeBoxes].
  - exists bb. split; [reflexivity|]. split; [exact L1|]. split; [exact L2|]. split; [auto|]. intros o v q [].
  - destruct (scaled_inside d o (F o (or_introl eq_refl))) as (b & EB & M1 & M2 & IN). rewrite EB. set (s := scaleBy big prec b safety) in *. destruct (scale_sizes b) as (N1 & N2). fold s in N1, N2.
    unfold expandByBox, b_dim. rewrite L1, N1, M1, Nat.eqb_refl.
    destruct (IH (MkBox (map2 M_Prep.qmin (b_min bb) (b_min s)) (map2 qmax (b_max bb) (b_max s)))) as (b' & E & B1 & B2 & UP & K).
    + intros o' I. apply F. right. exact I.
    + cbn. rewrite map2_length; congruence.
    + cbn. rewrite map2_length; congruence.
    + exists b'. split; [exact E|]. split; [exact B1|]. split; [exact B2|].
      destruct (map2_min (b_min bb) (b_min s) (eq_trans L1 (eq_sym (eq_trans N1 M1)))) as (A & B & _). destruct (map2_max (b_max bb) (b_max s) (eq_trans L2 (eq_sym (eq_trans N2 M2)))) as (A' & B' & _). split.
      * intros q (I1 & I2). apply UP. split; cbn [b_min b_max]; [exact (F2_trans _ _ _ A I1)|exact (F2_trans _ _ _ I2 A')].
      * intros o' v q [<-|I] Iv Lq Wq; [|apply (K o' v q I Iv Lq Wq)]. destruct (IN v q Iv Lq Wq) as (I1 & I2). apply UP. split; cbn [b_min b_max]; [exact (F2_trans _ _ _ B I1)|exact (F2_trans _ _ _ I2 B')].
Qed.
Lemma inBox_iff d bb v : length (b_min bb) = d -> length (b_max bb) = d -> length (v_coords v) = d -> (inBox bb v = true <-> inside (v_coords v) bb).
Proof.
  intros L1 L2 Lv. unfold inBox. rewrite <- (contains_ok bb (v_coords v)); [|unfold b_dim; congruence|unfold b_dim; congruence]. destruct (contains bb (v_coords v)) as [[|]|]; split; congruence.
Qed.

(** the filter keeps a nearest vertex for every vertex of the local meshes *)
Lemma filter_keeps g f locals : global_mesh g -> (forall o, In o locals -> fits (m_dim g) o) ->
  (f <> NO_FILTER -> forall o, In o locals -> covered safety g o) ->
  exists h, filterByBoundingBox big prec safety f locals g = Some h /\ part_of g h /\ (forall v, In v (m_verts h) -> v_tag v = false) /\
  (f = NO_FILTER -> h = g) /\ (f <> NO_FILTER -> forall o i, In o locals -> i < nVertices o -> holds g h (position o i)).
Proof.
  intros G F CO. unfold filterByBoundingBox, prepareBoundingBox.
  destruct (mergeBoxes_ok (m_dim g) locals (defaultBox big (m_dim g)) F) as (bb & E & L1 & L2 & _ & K); [cbn; apply repeat_length|cbn; apply repeat_length|]. rewrite E.
  assert (forall v, In v (m_verts g) -> v_tag v = false) as TG. { intros v I. apply In_nth_error in I. destruct I as (i & Ei). apply (proj2 G _ _ Ei). }
  assert (forall f', f' <> NO_FILTER -> f = f' -> exists h, (match filterMesh (emptyMesh (m_dim g)) g (inBox bb) with
             | None => None
             | Some filtered => match addMesh (emptyMesh (m_dim g)) filtered with None => None | Some m' => if filteredOut locals m' then None else Some m' end end) = Some h /\ part_of g h /\ (forall v, In v (m_verts h) -> v_tag v = false) /\
     (f = NO_FILTER -> h = g) /\ (f <> NO_FILTER -> forall o i, In o locals -> i < nVertices o -> holds g h (position o i))) as FI.
  { intros f' NF <-. destruct (filter_add (inBox bb) g (proj1 G)) as (h & E1 & E2 & W & D & V). rewrite E1, E2.
    pose proof (part_filter g g (inBox bb) h (part_self g G) W D V) as P.
    assert (forall o i, In o locals -> i < nVertices o -> holds g h (position o i)) as H.
    { intros o i Io Hi. destruct (CO NF o Io i Hi) as (j & NJ & WI). pose proof NJ as (Hj & _). unfold nVertices in Hj, Hi. destruct (nth_error (m_verts g) j) as [w|] eqn:Ew; [|apply nth_error_None in Ew; lia].
      destruct (nth_error (m_verts o) i) as [u|] eqn:Eu; [|apply nth_error_None in Eu; lia]. unfold position in WI at 1. unfold position in WI. rewrite Ew, Eu in WI.
      assert (length (v_coords w) = m_dim g) as Lw by (apply (wm_coords g (proj1 G)), (nth_error_In _ _ Ew)).
      pose proof (K o u (v_coords w) Io (nth_error_In _ _ Eu) Lw WI) as INS. apply (inBox_iff (m_dim g) bb w L1 L2 Lw) in INS.
      assert (In w (m_verts h)) as Iw by (rewrite V; apply filter_In; split; [apply (nth_error_In _ _ Ew)|exact INS]).
      apply In_nth_error in Iw. destruct Iw as (k & Ek). exists k. split; [apply nth_error_Some; congruence|]. unfold gid. rewrite Ek. rewrite (proj1 (proj2 G _ _ Ew)), Nat2Z.id. exact NJ. }
    assert (filteredOut locals h = false) as ->.
    { unfold filteredOut. destruct (existsb _ locals) eqn:EX; [|reflexivity]. apply existsb_exists in EX. destruct EX as (o & Io & No).
      destruct (m_verts o) as [|u r] eqn:Eo; [discriminate|]. destruct (H o 0 Io) as (k & Hk & _); [unfold nVertices; rewrite Eo; cbn; lia|]. unfold nVertices in Hk. destruct (m_verts h); [cbn in Hk; lia|reflexivity]. }
    exists h. split; [reflexivity|]. split; [exact P|]. split; [intros v I; rewrite V in I; apply filter_In in I; apply TG, I|]. split; [intros X; congruence|intros _; exact H]. }
  destruct f.
  - exists g. split; [reflexivity|]. split; [apply part_self, G|]. split; [exact TG|]. split; [reflexivity|]. intros X; congruence.
  - apply (FI ON_PRIMARY_RANK); congruence.
  - apply (FI ON_SECONDARY_RANKS); congruence.
Qed.
End B.
