(** Specification vocabulary for filtering meshes. *)
From Coq Require Import ZArith QArith Bool List Arith.
From Verif Require Import M_Mesh S_Mesh.
Import ListNotations.
Open Scope nat_scope.

(** the vertex with ID [i] is selected *)
Definition selected (p : vertex -> bool) (m : mesh) (i : nat) : bool :=
  match nth_error (m_verts m) i with Some v => p v | None => false end.
(** its new ID: the number of selected vertices before it, after the [k] vertices
    of the destination *)
Definition new_id (p : vertex -> bool) (m : mesh) (k i : nat) : nat := k + length (filter p (firstn i (m_verts m))).

(** [m'] is [m0] with the selected part of [m] appended *)
Record filtered (p : vertex -> bool) (m0 m m' : mesh) : Prop := {
  fl_dim : m_dim m' = m_dim m0;
  fl_verts : m_verts m' = m_verts m0 ++ filter p (m_verts m);
  fl_edges : m_edges m' = m_edges m0 ++
    map (fun e => (new_id p m (nVertices m0) (fst e), new_id p m (nVertices m0) (snd e)))
        (filter (fun e => selected p m (fst e) && selected p m (snd e)) (m_edges m));
  fl_tris : m_tris m' = m_tris m0 ++
    map (fun t => let '(a, b, c) := t in
           (new_id p m (nVertices m0) a, new_id p m (nVertices m0) b, new_id p m (nVertices m0) c))
        (filter (fun t => let '(a, b, c) := t in selected p m a && selected p m b && selected p m c) (m_tris m));
  fl_tets : m_tets m' = m_tets m0 ++
    map (fun t => let '(a, b, c, d) := t in
           (new_id p m (nVertices m0) a, new_id p m (nVertices m0) b, new_id p m (nVertices m0) c, new_id p m (nVertices m0) d))
        (filter (fun t => let '(a, b, c, d) := t in
           selected p m a && selected p m b && selected p m c && selected p m d) (m_tets m))
}.
