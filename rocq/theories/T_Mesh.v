(** C51-C54: preprocessing and filtering of meshes, bounding boxes and quads. *)
From Coq Require Import ZArith QArith Bool List Arith Lia Lqa Permutation.
From Verif Require Import M_Mesh M_Prep M_Box M_Quad S_Mesh S_Prep S_Filter S_Box S_Quad.
From Verif Require Import P_Prep P_Filter P_Box P_Quad P_Quad2 P_Quad3.
Import ListNotations.
Open Scope nat_scope.

Definition vtx (c : list Q) : vertex := MkVertex c (-1) true false.

(** ** C51: preprocessing *)
(** For every order of the addresses of the vertices in memory. *)
Theorem C51_preprocess_closes_connectivity :
  forall (tol2 : Q) (addr : nat -> nat) (m : mesh),
    (0 <= tol2)%Q -> (forall i j, addr i = addr j -> i = j) -> wf_mesh m -> separated tol2 m ->
    prepared m (preprocess tol2 addr m) /\ wf_mesh (preprocess tol2 addr m).
Proof. exact preprocess_ok. Qed.
Print Assumptions C51_preprocess_closes_connectivity.

(** a tetrahedron, one of its triangles twice, another triangle and a free edge *)
Definition exTet : mesh :=
  MkMesh 3 [vtx [0; 0; 0]; vtx [1; 0; 0]; vtx [0; 1; 0]; vtx [0; 0; 1]; vtx [5; 5; 5]]%Q
    [(3, 4); (0, 1)] [(0, 1, 2); (2, 3, 4); (0, 1, 2)] [(0, 1, 2, 3)].
Lemma exTet_wf : wf_mesh exTet.
Proof.
  split; cbn.
  - lia.
  - intros v H. repeat (destruct H as [<-|H]; [reflexivity|]). destruct H.
  - intros a b H. repeat (destruct H as [H|H]; [injection H as <- <-; cbn; lia|]). destruct H.
  - intros a b c H. repeat (destruct H as [H|H]; [injection H as <- <- <-; cbn; lia|]). destruct H.
  - intros a b c d H. repeat (destruct H as [H|H]; [injection H as <- <- <- <-; cbn; lia|]). destruct H.
Qed.
Example C51_example :
  prepared exTet (preprocess (1#10000) (fun i => 10 * i) exTet) /\
  length (m_tris (preprocess (1#10000) (fun i => 10 * i) exTet)) = 5 /\
  length (m_edges (preprocess (1#10000) (fun i => 10 * i) exTet)) = 8.
Proof.
  split; [|split; reflexivity]. apply C51_preprocess_closes_connectivity; [discriminate|intros; lia|exact exTet_wf|].
  intros i j v w Hi Hj D. unfold far.
  destruct i as [|[|[|[|[|i]]]]]; cbn in Hi; [| | | | |destruct i; discriminate];
    destruct j as [|[|[|[|[|j]]]]]; cbn in Hj; try (destruct j; discriminate); try (exfalso; apply D; reflexivity);
    injection Hi as <-; injection Hj as <-; first [left; reflexivity|right; reflexivity].
Qed.

(** Without [separated] elements the user defined are lost: two of the vertices
    are at the same place, and elements are compared by place. *)
Theorem C51_coinciding_vertices_refuted :
  exists (tol2 : Q) (addr : nat -> nat) (m : mesh) (e : nat * nat),
    (0 <= tol2)%Q /\ (forall i j, addr i = addr j -> i = j) /\ wf_mesh m /\
    In e (m_edges m) /\ ~ In e (m_edges (preprocess tol2 addr m)).
Proof.
  exists 0%Q, (fun i => i), (MkMesh 2 [vtx [0; 1]; vtx [1; 1]; vtx [1; 1]]%Q [(0, 1); (0, 2)] [] []), (0, 2).
  split; [discriminate|]. split; [auto|]. split.
  - split; cbn; try tauto.
    + intros v H. repeat (destruct H as [<-|H]; [reflexivity|]). destruct H.
    + intros a b H. repeat (destruct H as [H|H]; [injection H as <- <-; lia|]). destruct H.
  - split; [cbn; auto|]. vm_compute. intros [H|[]]. discriminate.
Qed.
Print Assumptions C51_coinciding_vertices_refuted.

(** ** C52: filtering, and appending one mesh to another *)
Theorem C52_filter_keeps_exactly_the_selected :
  forall (m0 m : mesh) (p : vertex -> bool), wf_mesh m -> m_dim m0 = m_dim m ->
  exists m', filterMesh m0 m p = Some m' /\ filtered p m0 m m'.
Proof. exact filterMesh_ok. Qed.
Print Assumptions C52_filter_keeps_exactly_the_selected.

Theorem C52_add_mesh_appends :
  forall m0 m : mesh, wf_mesh m -> m_dim m0 = m_dim m ->
  exists m', addMesh m0 m = Some m' /\ appended eq m0 m m'.
Proof. exact addMesh_ok. Qed.
Print Assumptions C52_add_mesh_appends.

(** the tetrahedron goes, a triangle and an edge stay *)
Example C52_example :
  filterMesh (emptyMesh 3) exTet (fun v => qlt 0 (fold_right Qplus 0%Q (v_coords v))) =
  Some (MkMesh 3 [vtx [1; 0; 0]; vtx [0; 1; 0]; vtx [0; 0; 1]; vtx [5; 5; 5]]%Q [(2, 3)] [(1, 2, 3)] []) /\
  exists m', filterMesh (emptyMesh 3) exTet (fun v => qlt 0 (fold_right Qplus 0%Q (v_coords v))) = Some m' /\
    filtered (fun v => qlt 0 (fold_right Qplus 0%Q (v_coords v))) (emptyMesh 3) exTet m'.
Proof. split; [reflexivity|]. apply C52_filter_keeps_exactly_the_selected; [exact exTet_wf|reflexivity]. Qed.

(** ** C53: bounding boxes; [big] is the largest double *)
Theorem C53_mesh_box_encloses_and_is_smallest :
  forall (big prec : Q) (m : mesh), (0 <= prec)%Q -> wf_mesh m -> (forall v, In v (m_verts m) -> finite big (v_coords v)) ->
  exists b, computeBoundingBox big prec m (defaultBox big (m_dim m)) = Some b /\
    (forall v, In v (m_verts m) -> inside (v_coords v) b) /\
    (m_verts m <> [] -> forall o, (forall v, In v (m_verts m) -> inside (v_coords v) o) ->
       inside (b_min b) o /\ inside (b_max b) o).
Proof. intros. apply meshBox_ok; auto. apply default_isDefault. assumption. Qed.
Print Assumptions C53_mesh_box_encloses_and_is_smallest.

(** computing it again after more vertices were added *)
Theorem C53_mesh_box_again :
  forall (big prec : Q) (m : mesh) (b : box), (0 < big)%Q -> (0 <= prec < 1)%Q -> wf_mesh m -> legal (m_dim m) b ->
  exists b', computeBoundingBox big prec m b = Some b' /\
    (forall v, In v (m_verts m) -> inside (v_coords v) b') /\ (forall p, inside p b -> inside p b').
Proof.
  intros big prec m b Hb Hp W L. apply meshBox_keeps; auto. apply (legal_not_default big prec (m_dim m)); auto.
  destruct (wm_dim m W) as [->| ->]; lia.
Qed.
Print Assumptions C53_mesh_box_again.

Theorem C53_contains_iff_inside :
  forall (d : nat) (b : box) (p : list Q), legal d b -> length p = d -> (contains b p = Some true <-> inside p b).
Proof. intros d b p (L1 & L2 & _) Lp. apply contains_ok; unfold b_dim; congruence. Qed.
Print Assumptions C53_contains_iff_inside.

Theorem C53_merged_box_encloses_both :
  forall (d : nat) (a b : box), legal d a -> legal d b ->
  exists c, expandByBox a b = Some c /\ legal d c /\ (forall p, inside p a \/ inside p b -> inside p c) /\
    (forall o, inside (b_min a) o -> inside (b_max a) o -> inside (b_min b) o -> inside (b_max b) o ->
       inside (b_min c) o /\ inside (b_max c) o).
Proof. exact merge_ok. Qed.
Print Assumptions C53_merged_box_encloses_both.

Theorem C53_overlap_iff_common_point :
  forall (d : nat) (a b : box), legal d a -> legal d b ->
    (overlapping a b = true <-> exists p, inside p a /\ inside p b) /\ overlapping a b = overlapping b a.
Proof. intros d a b La Lb. split; [apply (overlapping_ok d); assumption|apply overlapping_sym]. Qed.
Print Assumptions C53_overlap_iff_common_point.

(** the box of an empty mesh overlaps with no box of finite coordinates *)
Theorem C53_empty_mesh_overlaps_nothing :
  forall (big : Q) (d : nat) (b : box), 0 < d -> legal d b ->
    Forall (fun x => (x < big)%Q) (b_min b) -> Forall (fun x => (x < big)%Q) (b_max b) ->
    overlapping (defaultBox big d) b = false.
Proof. intros big d b Hd (L1 & L2 & _) F1 F2. apply default_apart; assumption. Qed.
Print Assumptions C53_empty_mesh_overlaps_nothing.

Theorem C53_enlarging_keeps_points :
  forall (big prec v : Q) (b : box) (p : list Q), (0 <= v)%Q -> inside p b ->
    inside p (expandByValue big prec b v) /\ inside p (scaleBy big prec b v).
Proof. intros. split; [apply expandByValue_ok|apply scaleBy_ok]; assumption. Qed.
Print Assumptions C53_enlarging_keeps_points.

Theorem C53_bounds_round_trip :
  forall (d : nat) (b : box), (d = 2 \/ d = 3) -> legal d b -> boxOfBounds (dataVector b) = Some b.
Proof. intros d b Hd (L1 & L2 & _). apply (dataVector_ok d); assumption. Qed.
Print Assumptions C53_bounds_round_trip.

Definition exBox : box := MkBox [0; 0; 0]%Q [5; 5; 5]%Q.
Example C53_example :
  computeBoundingBox 1000 0 exTet (defaultBox 1000 3) = Some exBox /\
  legal 3 exBox /\ legal 3 (MkBox [5; 1; 1] [7; 2; 2])%Q /\
  overlapping exBox (MkBox [5; 1; 1] [7; 2; 2])%Q = true /\
  (forall v, In v (m_verts exTet) -> finite 1000 (v_coords v)).
Proof.
  split; [reflexivity|]. split; [repeat split; cbn; repeat constructor; discriminate|].
  split; [repeat split; cbn; repeat constructor; discriminate|]. split; [reflexivity|].
  intros v H. cbn in H. repeat (destruct H as [<-|H]; [repeat constructor; discriminate|]). destruct H.
Qed.
(** Mesh::clear does not reset the box: after remeshing it is not the smallest *)
Theorem C53_smallest_after_clear_refuted :
  exists (big prec : Q) (m m2 : mesh) (b b2 o : box), (0 <= prec < 1)%Q /\ wf_mesh m /\ wf_mesh m2 /\ m_verts m2 <> [] /\
    computeBoundingBox big prec m (defaultBox big (m_dim m)) = Some b /\
    computeBoundingBox big prec m2 b = Some b2 /\
    (forall v, In v (m_verts m2) -> inside (v_coords v) o) /\ ~ inside (b_min b2) o.
Proof.
  exists 1000%Q, 0%Q, exTet, (MkMesh 3 [vtx [5; 5; 5]]%Q [] [] []), exBox, exBox, (MkBox [5; 5; 5] [5; 5; 5])%Q.
  split; [split; [discriminate|reflexivity]|]. split; [exact exTet_wf|]. split.
  { split; cbn; try tauto. intros v [<-|[]]. reflexivity. }
  split; [discriminate|]. split; [reflexivity|]. split; [reflexivity|]. split.
  - intros v [<-|[]]. split; cbn; repeat constructor; discriminate.
  - intros [H _]. cbn in H. inversion H as [|? ? ? ? H1 _]; subst. apply H1. reflexivity.
Qed.
Print Assumptions C53_smallest_after_clear_refuted.

(** ** C54: quads; [tol] is the tolerance of the check that they are planar *)
(** The check always terminates and never leaves the bounds of its arrays. *)
Theorem C54_check_terminates_in_bounds :
  forall (tol : Q) (m : mesh) (a b c d : Z), wf_mesh m -> setMeshQuad tol m a b c d <> QUndefined.
Proof. exact quad_total. Qed.
Print Assumptions C54_check_terminates_in_bounds.

(** What is stored: two triangles that share a shortest diagonal (p-r) and use all
    four vertices.  The vertices are visited in the order of the convex hull,
    if the first three are not on one line and the four are in one plane. *)
Theorem C54_accepted_quad_is_split :
  forall (tol : Q) (m m' : mesh) (a b c d : Z), wf_mesh m -> setMeshQuad tol m a b c d = QDone m' ->
  exists p q r s, Permutation [p; q; r; s] (map Z.to_nat [a; b; c; d]) /\ NoDup [p; q; r; s] /\
    (forall i, In i [p; q; r; s] -> i < nVertices m) /\
    (sum_sq (minus (coordsAt m p) (coordsAt m r)) <= sum_sq (minus (coordsAt m q) (coordsAt m s)))%Q /\
    m_dim m' = m_dim m /\ m_verts m' = m_verts m /\ m_edges m' = m_edges m /\ m_tets m' = m_tets m /\
    exists t1 t2, m_tris m' = m_tris m ++ [t1; t2] /\ Permutation (ids3 t1) [p; q; r] /\ Permutation (ids3 t2) [p; r; s] /\
      (~ collinear (coordsAt m (Z.to_nat a)) (coordsAt m (Z.to_nat b)) (coordsAt m (Z.to_nat c)) ->
       (m_dim m = 2 \/ coplanar (coordsAt m (Z.to_nat a)) (coordsAt m (Z.to_nat b)) (coordsAt m (Z.to_nat c)) (coordsAt m (Z.to_nat d))) ->
       diagonals_meet (coordsAt m p) (coordsAt m q) (coordsAt m r) (coordsAt m s)).
Proof.
  assert (E : forall x y, sqdist x y = sum_sq (minus x y)) by (intros; unfold sqdist, sum_sq, minus; rewrite map_map; reflexivity).
  intros tol m m' a b c d W H. destruct (quad_ok tol m a b c d m' W H) as (p & q & r & s & R). rewrite !E in R. exists p, q, r, s. exact R.
Qed.
Print Assumptions C54_accepted_quad_is_split.

(** every proper convex quad is accepted, in whatever order its corners are given *)
Theorem C54_proper_quads_are_accepted :
  forall (tol : Q) (m : mesh) (a b c d : Z), (0 <= tol)%Q -> wf_mesh m ->
    (forall i, In i [a; b; c; d] -> (0 <= i < Z.of_nat (nVertices m))%Z) -> NoDup [a; b; c; d] ->
    (forall i j, In i [a; b; c; d] -> In j [a; b; c; d] -> i <> j ->
       ~ same_point (coordsAt m (Z.to_nat i)) (coordsAt m (Z.to_nat j))) ->
    (exists p q r s, Permutation [p; q; r; s] [a; b; c; d] /\
       diagonals_cross (coordsAt m (Z.to_nat p)) (coordsAt m (Z.to_nat q)) (coordsAt m (Z.to_nat r)) (coordsAt m (Z.to_nat s))) ->
    exists m', setMeshQuad tol m a b c d = QDone m'.
Proof. exact quad_proper. Qed.
Print Assumptions C54_proper_quads_are_accepted.

(** a kite in space given in a crossed order; the short diagonal is chosen *)
Definition exKite : mesh := MkMesh 3 [vtx [0; 0; 1]; vtx [6; 0; 1]; vtx [2; -1; 1]; vtx [2; 1; 1]]%Q [] [] [].
Lemma exKite_wf : wf_mesh exKite.
Proof. split; cbn; try tauto. intros v H. repeat (destruct H as [<-|H]; [reflexivity|]). destruct H. Qed.
Example C54_example :
  setMeshQuad 0 exKite 0 1 2 3 = QDone (setTris exKite [(0, 2, 3); (1, 2, 3)]) /\
  exists m', setMeshQuad 0 exKite 0 1 2 3 = QDone m'.
Proof.
  split; [reflexivity|].
  assert (F : forall x y, same_point x y -> nth 0 x 0%Q == nth 0 y 0%Q /\ nth 1 x 0%Q == nth 1 y 0%Q).
  { intros x y H. inversion H as [|? ? ? ? E1 H1]; subst; [split; reflexivity|]. inversion H1 as [|? ? ? ? E2 H2]; subst; cbn; auto. split; [assumption|reflexivity]. }
  apply C54_proper_quads_are_accepted; [discriminate|exact exKite_wf|cbn; lia| | |].
  - repeat constructor; cbn; lia.
  - intros i j Hi Hj D. cbn in Hi, Hj.
    destruct Hi as [<-|[<-|[<-|[<-|[]]]]]; destruct Hj as [<-|[<-|[<-|[<-|[]]]]]; try (exfalso; apply D; reflexivity);
      intros H; apply F in H; cbn in H; destruct H; discriminate.
  - exists 0%Z, 2%Z, 1%Z, 3%Z. split; [apply perm_skip, perm_swap|]. split.
    + intros [H|[t H]]; apply F in H; destruct H as [H1 H2]; [discriminate|].
      assert (K1 : (6 == 0 + t * (2 - 0))%Q) by exact H1. assert (K2 : (0 == 0 + t * (- (1) - 0))%Q) by exact H2. lra.
    + exists (1#3)%Q, (1#2)%Q. split; [split; reflexivity|]. split; [split; reflexivity|]. cbn. repeat constructor.
Qed.

(** Three corners on one line are accepted if they come first; one of the
    triangles is flat and the order is not that of the hull: the diagonals do
    not meet.  (The same corners in another order are rejected.) *)
Theorem C54_collinear_corners_refuted :
  exists (m m' : mesh) (a b c d : nat), wf_mesh m /\
    setMeshQuad 0 m (Z.of_nat a) (Z.of_nat b) (Z.of_nat c) (Z.of_nat d) = QDone m' /\
    (exists t, In t (m_tris m') /\ Permutation (ids3 t) [a; b; c]) /\
    collinear (coordsAt m a) (coordsAt m b) (coordsAt m c) /\
    setMeshQuad 0 m (Z.of_nat a) (Z.of_nat b) (Z.of_nat d) (Z.of_nat c) = QRejected.
Proof.
  exists (MkMesh 2 [vtx [0; 0]; vtx [2; 0]; vtx [1; 0]; vtx [1; 1]]%Q [] [] []),
    (MkMesh 2 [vtx [0; 0]; vtx [2; 0]; vtx [1; 0]; vtx [1; 1]]%Q [] [(0, 1, 2); (0, 2, 3)] []), 0, 1, 2, 3.
  split; [split; cbn; try tauto; intros v H; repeat (destruct H as [<-|H]; [reflexivity|]); destruct H|].
  split; [reflexivity|]. split; [exists (0, 1, 2); split; [left; reflexivity|reflexivity]|].
  split; [right; exists (1#2)%Q; cbn; repeat constructor|reflexivity].
Qed.
Print Assumptions C54_collinear_corners_refuted.
