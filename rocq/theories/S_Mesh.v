(** Specification vocabulary for meshes. *)
From Coq Require Import ZArith QArith List Arith.
From Verif Require Import M_Mesh.
Import ListNotations.
Open Scope nat_scope.

(** a mesh as it can be built through the API: two or three dimensions, every
    vertex has that many coordinates, elements refer to vertices of the mesh by
    increasing ID, tetrahedra exist only in 3D and have four different vertices *)
Record wf_mesh (m : mesh) : Prop := {
  wm_dim : m_dim m = 2 \/ m_dim m = 3;
  wm_coords : forall v, In v (m_verts m) -> length (v_coords v) = m_dim m;
  wm_edges : forall a b, In (a, b) (m_edges m) -> a <= b /\ b < nVertices m;
  wm_tris : forall a b c, In (a, b, c) (m_tris m) -> a <= b /\ b <= c /\ c < nVertices m;
  wm_tets : forall a b c d, In (a, b, c, d) (m_tets m) ->
    a < b /\ b < c /\ c < d /\ d < nVertices m /\ m_dim m = 3
}.

Definition shift2 (k : nat) (e : nat * nat) : nat * nat := (k + fst e, k + snd e).
Definition shift3 (k : nat) (t : nat * nat * nat) : nat * nat * nat :=
  let '(a, b, c) := t in (k + a, k + b, k + c).
Definition shift4 (k : nat) (t : nat * nat * nat * nat) : nat * nat * nat * nat :=
  let '(a, b, c, d) := t in (k + a, k + b, k + c, k + d).

(** [m'] is [m0] with a copy of [m] appended: vertices in the same order with
    the same coordinates and global IDs, elements between corresponding vertices *)
Record appended (same : vertex -> vertex -> Prop) (m0 m m' : mesh) : Prop := {
  ap_dim : m_dim m' = m_dim m0;
  ap_verts : exists vs, m_verts m' = m_verts m0 ++ vs /\ Forall2 same (m_verts m) vs;
  ap_edges : m_edges m' = m_edges m0 ++ map (shift2 (nVertices m0)) (m_edges m);
  ap_tris : m_tris m' = m_tris m0 ++ map (shift3 (nVertices m0)) (m_tris m);
  ap_tets : m_tets m' = m_tets m0 ++ map (shift4 (nVertices m0)) (m_tets m)
}.
Definition same_vertex (v v' : vertex) : Prop := v_coords v' = v_coords v /\ v_glob v' = v_glob v.
