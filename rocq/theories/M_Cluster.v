(** The clustering of the partition-of-unity mapping (mapping/impl/CreateClustering.hpp).
    Numbers are rationals: rounding is left out.  Distances are compared by their squares,
    so that no square root is taken; the radius is given by its square. *)
From Coq Require Import ZArith QArith Qminmax Qround Bool List Arith.
Import ListNotations.
Open Scope nat_scope.

(** coordinates of a vertex, two or three of them *)
Definition point := list Q.
(** mapping/RadialBasisFctSolver.hpp computeSquaredDifference, all axes active *)
Definition dist2 (a b : point) : Q := fold_right (fun p s => ((fst p - snd p) * (fst p - snd p) + s)%Q) 0%Q (combine a b).
(** distance < radius *)
Definition closerThan (r2 : Q) (a b : point) : bool := negb (Qle_bool r2 (dist2 a b)).
(** query/Index.cpp 240-253 *)
Definition isAnyVertexInside (m : list point) (c : point) (r2 : Q) : bool := existsb (closerThan r2 c) m.

(** query/Index.cpp 369-391 and mesh/BoundingBox.cpp 83-110: bounds of the vertices along
    an axis *)
Definition axis (d : nat) (m : list point) : list Q := map (fun p => nth d p 0%Q) m.
Definition lower (d : nat) (m : list point) : Q := match axis d m with [] => 0%Q | x :: r => fold_left Qmin r x end.
Definition upper (d : nat) (m : list point) : Q := match axis d m with [] => 0%Q | x :: r => fold_left Qmax r x end.
Definition edgeLength (d : nat) (m : list point) : Q := (upper d m - lower d m)%Q.
Definition boxCenter (dim : nat) (m : list point) : point := map (fun d => ((upper d m + lower d m) * (1 # 2))%Q) (seq 0 dim).
Definition longestEdge (dim : nat) (m : list point) : Q := fold_right (fun d x => Qmax (edgeLength d m) x) 0%Q (seq 0 dim).

(** std::nth_element at the middle *)
Fixpoint insertQ (x : Q) (l : list Q) : list Q :=
  match l with [] => [x] | y :: r => if Qle_bool x y then x :: l else y :: insertQ x r end.
Definition sortQ (l : list Q) : list Q := fold_right insertQ [] l.
Definition middle (l : list Q) : Q := nth (length l / 2) (sortQ l) 0%Q.
(** std::ceil(std::max(1., edge / distance)), with squares: the least n >= 1 with edge <= n distance *)
Definition divisions (edge2 distance2 : Q) : nat := Z.to_nat (Z.max 1 (Z.sqrt_up (Qceiling (edge2 / distance2)))).

(** NUMERICAL_ZERO_DIFFERENCE *)
Definition clusterEps : Q := (1 # 100000000000000)%Q.
(** mesh::Vertex with its tag *)
Record center := Ce { c_at : point; c_tag : bool }.
(** [Undefined]: an assertion fails, or a number is converted that an integer cannot hold.
    [Filtered]: the error that too many vertices have been filtered out. *)
Inductive outcome := Done (r2 : Q) (centers : list point) | Filtered | Undefined.

Section Clustering.
(** Index::getClosestVertex and Index::getClosestVertices of a mesh *)
Variable closestVertex : list point -> point -> nat.
Variable closestVertices : list point -> point -> nat -> list nat.
Definition pointOf (m : list point) (i : nat) : point := nth i m [].

(** 225-253: the center and the points a quarter of the edges away, of which the closest
    vertices are taken *)
Definition samplePoints (dim : nat) (m : list point) : list point :=
  boxCenter dim m :: flat_map (fun d =>
    let moved f := map (fun p => if fst p =? d then (snd p + f * edgeLength d m)%Q else snd p) (combine (seq 0 dim) (boxCenter dim m)) in
    [moved (- (1 # 4))%Q; moved (1 # 4)%Q]) (seq 0 dim).
(** 255-268 and 223-278.  The squared radius. *)
Definition sampledRadius (m : list point) (k : nat) (p : point) : Q :=
  let s := pointOf m (closestVertex m p) in
  fold_right (fun i x => Qmax (dist2 (pointOf m i) s) x) 0%Q (closestVertices m s k).
Definition estimateClusterRadius (dim k : nat) (m : list point) : Q :=
  middle (map (sampledRadius m k) (samplePoints dim m)).

(** 375-427: along an axis the coordinates of the centers.  [maximumDistance2] is the square
    of the maximum center distance; the step from global to local metrics is kept. *)
Definition axisDistance (m : list point) (maximumDistance2 : Q) (d : nat) : Q :=
  (edgeLength d m / inject_Z (Z.of_nat (divisions (edgeLength d m * edgeLength d m) maximumDistance2)))%Q.
Definition axisStart (atEdge : bool) (m : list point) (maximumDistance2 : Q) (d : nat) : Q :=
  let distance := axisDistance m maximumDistance2 d in
  if atEdge then lower d m else (lower d m + (1 # 2) * distance)%Q.
Definition localStart (atEdge : bool) (m : list point) (maximumDistance2 : Q) (d : nat) : Q :=
  let distance := axisDistance m maximumDistance2 d in
  let start := axisStart atEdge m maximumDistance2 d in
  if Qle_bool distance 0 then start
  else (start + inject_Z (Qceiling ((lower d m - start) / distance - clusterEps)) * distance)%Q.
Definition localCount (atEdge : bool) (m : list point) (maximumDistance2 : Q) (d : nat) : nat :=
  let distance := axisDistance m maximumDistance2 d in
  if Qle_bool distance 0 then 1
  else Z.to_nat (1 + Qfloor ((upper d m - localStart atEdge m maximumDistance2 d) / distance + clusterEps)).
Definition axisCenters (atEdge : bool) (m : list point) (maximumDistance2 : Q) (d : nat) : list Q :=
  map (fun k => (localStart atEdge m maximumDistance2 d + inject_Z (Z.of_nat k) * axisDistance m maximumDistance2 d)%Q)
      (seq 0 (localCount atEdge m maximumDistance2 d)).
(** 436-463: the positions in the container are those of zCurve: the last axis runs fastest *)
Fixpoint grid (axes : list (list Q)) : list point :=
  match axes with [] => [[]] | a :: r => flat_map (fun x => map (cons x) (grid r)) a end.

(** 132-140 *)
Definition tagEmptyClusters (r2 : Q) (m : list point) (centers : list center) : list center :=
  map (fun c => if c_tag c then c else Ce (c_at c) (negb (isAnyVertexInside m (c_at c) r2))) centers.
(** 150-160 *)
Definition projectCenters (m : list point) (centers : list center) : list center :=
  map (fun c => if c_tag c then c else Ce (pointOf m (closestVertex m (c_at c))) false) centers.
(** 36-82: the offsets of the neighbours; three counts of cells *)
Definition zCurve (x y z n1 n2 : Z) : Z := ((x * n1 + y) * n2 + z)%Z.
Definition around : list Z := [(-1)%Z; 0%Z; 1%Z].
Definition neighborOffsets (threeD : bool) (n1 n2 : Z) : list Z :=
  flat_map (fun x => flat_map (fun y => map (fun z => zCurve x y z n1 n2) (if threeD then around else [0%Z])) around) around.
(** 96-122, offsets of zero (the vertex itself or a dead axis) are skipped *)
Definition hasNeighborWithin (centers : list center) (id : nat) (threshold2 : Q) (offsets : list Z) : bool :=
  existsb (fun off =>
    let neighbor := (Z.of_nat id + off)%Z in
    negb (off =? 0)%Z && (0 <=? neighbor)%Z && (neighbor <? Z.of_nat (length centers))%Z &&
    match nth_error centers (Z.to_nat neighbor), nth_error centers id with
    | Some v, Some c => negb (c_tag v) && closerThan threshold2 (c_at c) (c_at v)
    | _, _ => false
    end) offsets.
(** 173-195 *)
Definition tagAt (centers : list center) (id : nat) : list center :=
  map (fun p => if fst p =? id then Ce (c_at (snd p)) true else snd p) (combine (seq 0 (length centers)) centers).
Definition tagDuplicateCenters (offsets : list Z) (threshold2 : Q) (centers : list center) : list center :=
  fold_left (fun cs id =>
    match nth_error cs id with
    | Some c => if negb (c_tag c) && hasNeighborWithin cs id threshold2 offsets then tagAt cs id else cs
    | None => cs
    end) (seq 0 (length centers)) centers.
(** 205-208 *)
Definition removeTagged (centers : list center) : list point := map c_at (filter (fun c => negb (c_tag c)) centers).

(** 302-505.  [just]: the other mesh is that of a just-in-time mapping and has no vertices.
    The square of the maximum center distance is 4 / dim radius^2 (1 - overlap)^2. *)
Definition createClustering (dim : nat) (inMesh outMesh : list point) (just : bool) (overlap : Q) (verticesPerCluster : nat) (project : bool) : outcome :=
  if Qle_bool 1 overlap || (verticesPerCluster =? 0) then Undefined
  else if match inMesh with [] => true | _ => false end || (match outMesh with [] => true | _ => false end && negb just) then Done 0 []
  else if length inMesh <? verticesPerCluster * 2 then
    let edge := longestEdge dim inMesh in
    let radius := (if Qeq_bool edge 0 then 1 * 2 else edge * 2)%Q in
    Done (radius * radius)%Q [boxCenter dim inMesh]
  else
    let r2 := estimateClusterRadius dim verticesPerCluster inMesh in
    if Qeq_bool r2 0 then
      (if Qeq_bool (longestEdge dim inMesh) 0 then Filtered else Undefined)
    else
      let maximum2 := ((4 # 1) / inject_Z (Z.of_nat dim) * r2 * ((1 - overlap) * (1 - overlap)))%Q in
      let centers0 := map (fun p => Ce p false) (grid (map (axisCenters project inMesh maximum2) (seq 0 dim))) in
      let centers1 := tagEmptyClusters r2 inMesh centers0 in
      let centers2 := if just then centers1 else tagEmptyClusters r2 outMesh centers1 in
      let centers3 := if project then
          let threshold := fold_right (fun d x => Qmin (axisDistance inMesh maximum2 d) x) (axisDistance inMesh maximum2 0) (seq 0 dim) in
          let threshold2 := ((4 # 10) * threshold * ((4 # 10) * threshold))%Q in
          let n d := if d <? dim then Z.of_nat (localCount project inMesh maximum2 d) else 1%Z in
          let moved := projectCenters inMesh centers2 in
          let dup := tagDuplicateCenters (neighborOffsets (negb (n 2%nat =? 1)%Z) (n 1) (n 2)) threshold2 moved in
          if just then dup else tagEmptyClusters r2 outMesh dup
        else centers2 in
      match removeTagged centers3 with
      | [] => Filtered
      | l => Done r2 l
      end.
End Clustering.
