(** Meshes: src/mesh/{Mesh,Vertex,Edge,Triangle,Tetrahedron}.{hpp,cpp}.

    Simplifications: coordinates are rationals; a pointer or reference to a
    vertex of a mesh is its position in [_vertices].  [Mesh::createVertex] is
    the only way to add vertices and [Mesh::clear] the only way to remove them,
    so the ID of a vertex is its position.  [int] does not overflow. *)
From Coq Require Import ZArith QArith Bool List Arith.
Import ListNotations.
Open Scope nat_scope.

Definition obind {A B} (x : option A) (f : A -> option B) : option B :=
  match x with Some a => f a | None => None end.
Declare Scope opt_scope.
Delimit Scope opt_scope with opt.
Notation "x <- p ;; q" := (obind p (fun x => q))
  (at level 61, p at next level, right associativity) : opt_scope.
Notation "'guard' b ;; q" := (if b then q else None) (at level 61, b at next level, right associativity) : opt_scope.

(** Vertex.hpp 24-123, Vertex.cpp *)
Record vertex := MkVertex {
  v_coords : list Q;
  v_glob : Z;      (* _globalIndex, -1 initially *)
  v_owner : bool;  (* _owner, true initially *)
  v_tag : bool     (* _tagged, false initially *)
}.

(** Mesh.hpp 40-300; elements hold the positions of their vertices *)
Record mesh := MkMesh {
  m_dim : nat;
  m_verts : list vertex;
  m_edges : list (nat * nat);
  m_tris : list (nat * nat * nat);
  m_tets : list (nat * nat * nat * nat)
}.
Definition emptyMesh (d : nat) : mesh := MkMesh d [] [] [] [].
Definition nVertices (m : mesh) : nat := length (m_verts m).
Definition setVerts (m : mesh) v := MkMesh (m_dim m) v (m_edges m) (m_tris m) (m_tets m).
Definition setEdges (m : mesh) e := MkMesh (m_dim m) (m_verts m) e (m_tris m) (m_tets m).
Definition setTris (m : mesh) t := MkMesh (m_dim m) (m_verts m) (m_edges m) t (m_tets m).
Definition setTets (m : mesh) t := MkMesh (m_dim m) (m_verts m) (m_edges m) (m_tris m) t.

(** Mesh.hpp 126-129 *)
Definition nonempty {A} (l : list A) : bool := match l with [] => false | _ => true end.
Definition hasConnectivity (m : mesh) : bool :=
  nonempty (m_edges m) || nonempty (m_tris m) || nonempty (m_tets m).

(** Mesh.cpp 244-247 *)
Definition isValidVertexID (m : mesh) (z : Z) : bool := (0 <=? z)%Z && (z <? Z.of_nat (nVertices m))%Z.

(** Mesh.cpp 104-110: appends a vertex; [None] is the assertion on the number
    of coordinates.  The new vertex is the last one, its ID is the old size. *)
Definition createVertex (m : mesh) (c : list Q) : option mesh :=
  if length c =? m_dim m then Some (setVerts m (m_verts m ++ [MkVertex c (-1) true false])) else None.

(** modify the vertex at a position: setGlobalIndex, setOwner, tag *)
Fixpoint modify {A} (n : nat) (f : A -> A) (l : list A) : list A :=
  match l, n with
  | [], _ => []
  | x :: r, O => f x :: r
  | x :: r, S n' => x :: modify n' f r
  end.
Definition setGlobalIndex (g : Z) (v : vertex) : vertex := MkVertex (v_coords v) g (v_owner v) (v_tag v).
Definition setOwner (o : bool) (v : vertex) : vertex := MkVertex (v_coords v) (v_glob v) o (v_tag v).
Definition tag (v : vertex) : vertex := MkVertex (v_coords v) (v_glob v) (v_owner v) true.

(** Edge.cpp 11-21: the vertex with the smaller ID first *)
Definition sort2 (a b : nat) : nat * nat := if b <? a then (b, a) else (a, b).
(** Triangle.cpp 57-68: [std::sort] by ID *)
Definition sort3 (a b c : nat) : nat * nat * nat :=
  let '(a, b) := sort2 a b in
  let '(b, c) := sort2 b c in
  let '(a, b) := sort2 a b in (a, b, c).
(** Tetrahedron.cpp 13-37 *)
Definition sort4 (a b c d : nat) : nat * nat * nat * nat :=
  let '(a, b, c) := sort3 a b c in
  let '(c, d) := sort2 c d in
  let '(b, c) := sort2 b c in
  let '(a, b) := sort2 a b in (a, b, c, d).

(** Mesh.cpp 112-118 *)
Definition createEdge (m : mesh) (a b : nat) : mesh := setEdges m (m_edges m ++ [sort2 a b]).
(** Mesh.cpp 133-140 *)
Definition createTriangle (m : mesh) (a b c : nat) : mesh := setTris m (m_tris m ++ [sort3 a b c]).
(** Mesh.cpp 142-150; [None]: assertions of Tetrahedron.cpp 26-34 (three
    dimensions, four different vertices) *)
Definition distinct4 (a b c d : nat) : bool :=
  negb (a =? b) && negb (a =? c) && negb (a =? d) && negb (b =? c) && negb (b =? d) && negb (c =? d).
Definition createTetrahedron (m : mesh) (a b c d : nat) : option mesh :=
  if (m_dim m =? 3) && distinct4 a b c d then Some (setTets m (m_tets m ++ [sort4 a b c d])) else None.

(** [std::map] / [flat_map] as list of entries sorted by key *)
Fixpoint find_key {A} (k : Z) (m : list (Z * A)) : option A :=
  match m with
  | [] => None
  | (k', a) :: r => if Z.eqb k k' then Some a else find_key k r
  end.
(** [emplace]: does nothing if the key exists *)
Fixpoint emplace {A} (k : Z) (a : A) (m : list (Z * A)) : list (Z * A) :=
  match m with
  | [] => [(k, a)]
  | (k', a') :: r => if Z.ltb k k' then (k, a) :: m
                     else if Z.eqb k k' then m else (k', a') :: emplace k a r
  end.
(** [m[k] = a] *)
Fixpoint assign {A} (k : Z) (a : A) (m : list (Z * A)) : list (Z * A) :=
  match m with
  | [] => [(k, a)]
  | (k', a') :: r => if Z.ltb k k' then (k, a) :: m
                     else if Z.eqb k k' then (k, a) :: r else (k', a') :: assign k a r
  end.

(** ** Copying a (filtered) mesh: Filter.hpp 16-69 and Mesh.cpp 354-408 *)
(** one vertex: Filter.hpp 25-31, Mesh.cpp 364-372 *)
Definition copyVertex (m : mesh) (v : vertex) : option mesh :=
  if length (v_coords v) =? m_dim m
  then Some (setVerts m (m_verts m ++ [MkVertex (v_coords v) (v_glob v) (v_owner v) (v_tag v)]))
  else None.
(** the loop over the vertices; [id] is the ID of the next source vertex *)
Fixpoint copyVertices (p : vertex -> bool) (vs : list vertex) (id : nat) (m : mesh) (vmap : list (Z * nat))
  : option (mesh * list (Z * nat)) :=
  match vs with
  | [] => Some (m, vmap)
  | v :: r =>
      if p v then
        match copyVertex m v with
        | None => None
        | Some m' => copyVertices p r (S id) m' (assign (Z.of_nat id) (nVertices m) vmap)
        end
      else copyVertices p r (S id) m vmap
  end.
Definition at_ (vmap : list (Z * nat)) (id : nat) : option nat := find_key (Z.of_nat id) vmap.
(** the loops over the elements: elements with a missing vertex are skipped *)
Definition copyEdge (vmap : list (Z * nat)) (m : mesh) (e : nat * nat) : mesh :=
  match at_ vmap (fst e), at_ vmap (snd e) with
  | Some a, Some b => createEdge m a b
  | _, _ => m
  end.
Definition copyTriangle (vmap : list (Z * nat)) (m : mesh) (t : nat * nat * nat) : mesh :=
  let '(x, y, z) := t in
  match at_ vmap x, at_ vmap y, at_ vmap z with
  | Some a, Some b, Some c => createTriangle m a b c
  | _, _, _ => m
  end.
Fixpoint copyTetrahedra (vmap : list (Z * nat)) (ts : list (nat * nat * nat * nat)) (m : mesh) : option mesh :=
  match ts with
  | [] => Some m
  | (x, y, z, w) :: r =>
      match at_ vmap x, at_ vmap y, at_ vmap z, at_ vmap w with
      | Some a, Some b, Some c, Some d =>
          match createTetrahedron m a b c d with None => None | Some m' => copyTetrahedra vmap r m' end
      | _, _, _, _ => copyTetrahedra vmap r m
      end
  end.
(** Filter.hpp 16-69 *)
Definition filterMesh (destination source : mesh) (p : vertex -> bool) : option mesh :=
  (x <- copyVertices p (m_verts source) 0 destination [] ;;
   let '(m, vmap) := x in
   let m := fold_left (copyEdge vmap) (m_edges source) m in
   let m := fold_left (copyTriangle vmap) (m_tris source) m in
   copyTetrahedra vmap (m_tets source) m)%opt.

(** Mesh.cpp 354-408: like [filterMesh] without a predicate, but a missing
    vertex is an assertion *)
Definition knows (vmap : list (Z * nat)) (id : nat) : bool := match at_ vmap id with Some _ => true | None => false end.
Definition addMesh (m delta : mesh) : option mesh :=
  if m_dim m =? m_dim delta then
    match copyVertices (fun _ => true) (m_verts delta) 0 m [] with
    | None => None
    | Some (m', vmap) =>
        if forallb (fun e => knows vmap (fst e) && knows vmap (snd e)) (m_edges delta) &&
           forallb (fun t => let '(a, b, c) := t in knows vmap a && knows vmap b && knows vmap c) (m_tris delta) &&
           forallb (fun t => let '(a, b, c, d) := t in knows vmap a && knows vmap b && knows vmap c && knows vmap d) (m_tets delta)
        then copyTetrahedra vmap (m_tets delta)
               (fold_left (copyTriangle vmap) (m_tris delta) (fold_left (copyEdge vmap) (m_edges delta) m'))
        else None
    end
  else None.
