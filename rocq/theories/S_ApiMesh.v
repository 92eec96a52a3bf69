(** Specification vocabulary for connectivity and direct access through the API. *)
From Coq Require Import ZArith QArith Bool List Arith Permutation Sorted.
From Verif Require Import M_Mesh M_Api S_Mesh S_Api.
Import ListNotations.
Open Scope nat_scope.

(** a list in groups of [n] *)
Fixpoint groups_of {A} (n k : nat) (l : list A) : list (list A) :=
  match k with 0 => [] | S k' => firstn n l :: groups_of n k' (skipn n l) end.
Definition groups {A} (n : nat) (l : list A) : list (list A) := groups_of n (length l / n) l.

(** the elements a call gives, as lists of vertex IDs *)
Definition edges_of {C} (c : call C) : list (list Z) :=
  match c with SetMeshEdge _ a b => [[a; b]] | SetMeshEdges _ ids => groups 2 ids | _ => [] end.
Definition triangles_of {C} (c : call C) : list (list Z) :=
  match c with SetMeshTriangle _ a b c => [[a; b; c]] | SetMeshTriangles _ ids => groups 3 ids | _ => [] end.
Definition tetrahedra_of {C} (c : call C) : list (list Z) :=
  match c with SetMeshTetrahedron _ a b c d => [[a; b; c; d]] | SetMeshTetrahedra _ ids => groups 4 ids | _ => [] end.
Definition sets_elements {C} (c : call C) : Prop :=
  match c with
  | SetMeshEdge _ _ _ | SetMeshEdges _ _ | SetMeshTriangle _ _ _ _ | SetMeshTriangles _ _
  | SetMeshTetrahedron _ _ _ _ _ | SetMeshTetrahedra _ _ => True
  | _ => False
  end.
(** an element with the given corners, listed in ascending order; all are
    vertices of the mesh *)
Definition element (n : nat) (corners : list nat) (given : list Z) : Prop :=
  StronglySorted le corners /\ Permutation (map Z.of_nat corners) given /\ Forall (fun v => v < n) corners.
Definition corners2 (e : nat * nat) : list nat := let '(a, b) := e in [a; b].
Definition corners3 (t : nat * nat * nat) : list nat := let '(a, b, c) := t in [a; b; c].
Definition corners4 (t : nat * nat * nat * nat) : list nat := let '(a, b, c, d) := t in [a; b; c; d].

(** the meshes received by a call are well-formed and of the right dimension *)
Definition received_wf {C} (dim : nat -> option nat) (h : @history C) : Prop :=
  forall c r m d, In (c, r) h -> dim m = Some d ->
  forall e, (c = Initialize (Some e) \/ exists dt p, c = Advance dt p (Some e)) ->
  wf_mesh (in_meshes e m) /\ m_dim (in_meshes e m) = d.

(** the bounds of the access region of a mesh, once it was set *)
Definition region1 {C} (m : nat) (o : option (list Q)) (x : call C * option result) : option (list Q) :=
  match x with (SetMeshAccessRegion m' bounds, Some _) => if m' =? m then Some bounds else o | _ => o end.
Definition region {C} (m : nat) (h : @history C) : option (list Q) := fold_left (region1 m) h None.
(** in the region: between lower bound [2 i] and upper bound [2 i + 1] in every
    direction [i]; everything if there is no region *)
Definition in_region (o : option (list Q)) (p : list Q) : Prop :=
  match o with
  | None => True
  | Some b => forall i x, nth_error p i = Some x -> (nth (2 * i) b 0 <= x)%Q /\ (x <= nth (2 * i + 1) b 0)%Q
  end.
