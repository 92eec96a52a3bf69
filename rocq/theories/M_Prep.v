(** Mesh::preprocess: src/mesh/Mesh.cpp 420-540.

    Simplifications: [std::sort] is insertion sort (elements that compare equal
    are equal, so any sorting algorithm gives the same result); a [std::set] is
    a list.  The order of the addresses of the vertices (they are in a
    [std::deque]) is a parameter, the tolerance of [isApprox] too. *)
From Coq Require Import ZArith QArith Bool List Arith.
From Verif Require Import M_Mesh.
Import ListNotations.
Open Scope nat_scope.

(** [std::sort] with a less-than *)
Fixpoint insertBy {A} (lt : A -> A -> bool) (x : A) (l : list A) : list A :=
  match l with
  | [] => [x]
  | y :: r => if lt y x then y :: insertBy lt x r else x :: l
  end.
Definition sortBy {A} (lt : A -> A -> bool) (l : list A) : list A := fold_right (insertBy lt) [] l.
(** [std::unique] *)
Fixpoint uniqueFrom {A} (eqb : A -> A -> bool) (x : A) (l : list A) : list A :=
  match l with
  | [] => [x]
  | y :: r => if eqb x y then uniqueFrom eqb x r else x :: uniqueFrom eqb y r
  end.
Definition unique {A} (eqb : A -> A -> bool) (l : list A) : list A :=
  match l with [] => [] | x :: r => uniqueFrom eqb x r end.

(** comparison of tuples of IDs: Edge.hpp, Triangle.hpp, Tetrahedron.hpp operator< *)
Fixpoint lexlt (a b : list nat) : bool :=
  match a, b with
  | x :: a', y :: b' => (x <? y) || ((x =? y) && lexlt a' b')
  | [], _ :: _ => true
  | _, [] => false
  end.
Definition ids2 (e : nat * nat) : list nat := [fst e; snd e].
Definition ids3 (t : nat * nat * nat) : list nat := let '(a, b, c) := t in [a; b; c].
Definition ids4 (t : nat * nat * nat * nat) : list nat := let '(a, b, c, d) := t in [a; b; c; d].

(** [std::is_permutation] with a predicate (libstdc++ bits/stl_algo.h): skip the
    common prefix, then compare the number of matches of every element *)
Definition countIf {A} (p : A -> bool) (l : list A) : nat := length (filter p l).
Fixpoint scanPermutation (p : nat -> nat -> bool) (seen rest all2 : list nat) : bool :=
  match rest with
  | [] => true
  | x :: r =>
      if existsb (fun y => p y x) seen then scanPermutation p (seen ++ [x]) r all2
      else let matches := countIf (fun y => p y x) all2 in
           if (matches =? 0) || negb (countIf (fun y => p y x) rest =? matches) then false
           else scanPermutation p (seen ++ [x]) r all2
  end.
Fixpoint isPermutation (p : nat -> nat -> bool) (a b : list nat) : bool :=
  match a, b with
  | [], _ => true
  | x :: a', y :: b' => if p x y then isPermutation p a' b' else scanPermutation p [] a b
  | _ :: _, [] => false
  end.

Section Prep.
Variable tol2 : Q.          (* square of the tolerance of math::equals *)
Variable addr : nat -> nat. (* address of the vertex at a position *)

(** Eigen's [isApprox], used by Vertex::operator== (Vertex.hpp 145-148) *)
Definition sqdist (a b : list Q) : Q :=
  fold_right Qplus 0%Q (map (fun p => ((fst p - snd p) * (fst p - snd p))%Q) (combine a b)).
Definition sqnorm (a : list Q) : Q := fold_right Qplus 0%Q (map (fun x => (x * x)%Q) a).
Definition qmin (a b : Q) : Q := if Qle_bool a b then a else b.
Definition isApprox (a b : list Q) : bool := Qle_bool (sqdist a b) (tol2 * qmin (sqnorm a) (sqnorm b))%Q.
Definition coordsAt (m : mesh) (i : nat) : list Q := match nth_error (m_verts m) i with Some v => v_coords v | None => [] end.
Definition sameVertex (m : mesh) (i j : nat) : bool := isApprox (coordsAt m i) (coordsAt m j).
(** Edge.cpp 47-51, Triangle.cpp 106-110, Tetrahedron.cpp operator== *)
Definition sameElement (m : mesh) (a b : list nat) : bool := isPermutation (sameVertex m) a b.

(** Mesh.cpp 426-450 *)
Definition compress {A} (m : mesh) (ids : A -> list nat) (l : list A) : list A :=
  unique (fun a b => sameElement m (ids a) (ids b)) (sortBy (fun a b => lexlt (ids a) (ids b)) l).
Definition removeDuplicates (m : mesh) : mesh :=
  let m := setTets m (compress m ids4 (m_tets m)) in
  let m := setTris m (compress m ids3 (m_tris m)) in
  setEdges m (compress m ids2 (m_edges m)).

(** Mesh.cpp 454-476 *)
Definition sortedVertexPtrs (l : list nat) : list nat := sortBy (fun x y => addr x <? addr y) l.
Definition eqids (a b : list nat) : bool := if list_eq_dec Nat.eq_dec a b then true else false.
Definition contains (s : list (list nat)) (k : list nat) : bool := existsb (eqids k) s.

(** Mesh.cpp 500-505, 507-514 *)
Definition createTriangleIfMissing (st : list (list nat) * mesh) (a b c : nat) : list (list nat) * mesh :=
  let '(s, m) := st in
  if contains s [a; b; c] then st else ([a; b; c] :: s, createTriangle m a b c).
Definition triangulate (st : list (list nat) * mesh) (t : nat * nat * nat * nat) : list (list nat) * mesh :=
  match sortedVertexPtrs (ids4 t) with
  | [a; b; c; d] =>
      let st := createTriangleIfMissing st a b c in
      let st := createTriangleIfMissing st a b d in
      let st := createTriangleIfMissing st a c d in
      createTriangleIfMissing st b c d
  | _ => st
  end.
(** Mesh.cpp 525-530, 531-537 *)
Definition createEdgeIfMissing (st : list (list nat) * mesh) (a b : nat) : list (list nat) * mesh :=
  let '(s, m) := st in
  if contains s [a; b] then st else ([a; b] :: s, createEdge m a b).
Definition frame (st : list (list nat) * mesh) (t : nat * nat * nat) : list (list nat) * mesh :=
  match sortedVertexPtrs (ids3 t) with
  | [a; b; c] =>
      let st := createEdgeIfMissing st a b in
      let st := createEdgeIfMissing st a c in
      createEdgeIfMissing st b c
  | _ => st
  end.
(** Mesh.cpp 479-540 *)
Definition generateImplicitPrimitives (m : mesh) : mesh :=
  if negb (nonempty (m_tris m)) && negb (nonempty (m_tets m)) then m else
  let triangles := map (fun t => sortedVertexPtrs (ids3 t)) (m_tris m) in
  let m := snd (fold_left triangulate (m_tets m) (triangles, m)) in
  let edges := map (fun e => sortedVertexPtrs (ids2 e)) (m_edges m) in
  snd (fold_left frame (m_tris m) (edges, m)).
(** Mesh.cpp 420-424 *)
Definition preprocess (m : mesh) : mesh := generateImplicitPrimitives (removeDuplicates m).
End Prep.
