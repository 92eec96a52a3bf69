(** Specification of what a rank keeps of a received mesh. *)
From Coq Require Import ZArith QArith List Arith Bool.
From Verif Require Import M_Mesh S_Mesh S_Map S_Box.
Import ListNotations.
Open Scope nat_scope.

(** the global mesh: vertices numbered from 0, none tagged *)
Definition global_mesh (g : mesh) : Prop :=
  wf_mesh g /\ forall i v, nth_error (m_verts g) i = Some v -> v_glob v = Z.of_nat i /\ v_tag v = false.
(** the vertex of the global mesh that vertex [j] of a part is *)
Definition gid (m : mesh) (j : nat) : nat := match nth_error (m_verts m) j with Some v => Z.to_nat (v_glob v) | None => 0 end.

(** the points [p] and [q] differ in no coordinate by more than the safety factor
    times some extent of the mesh [o] *)
Definition within (safety : Q) (o : mesh) (p q : list Q) : Prop :=
  exists a b k, In a (m_verts o) /\ In b (m_verts o) /\ k < m_dim o /\
  forall i, i < m_dim o -> let e := (safety * (nth k (v_coords a) 0 - nth k (v_coords b) 0))%Q in
    (nth i q 0 - e <= nth i p 0)%Q /\ (nth i p 0 <= nth i q 0 + e)%Q.
(** every vertex of [o] has a nearest vertex in [g] that is not too far away *)
Definition covered (safety : Q) (g o : mesh) : Prop :=
  forall i, i < nVertices o -> exists j, nearest g (position o i) j /\ within safety o (position g j) (position o i).
(** [v] has the values of the vertices of the part [m] among the values of the global mesh *)
Definition values_of (dims : nat) (m : mesh) (global v : list Q) : Prop :=
  sized dims m v /\ forall j d, j < nVertices m -> d < dims -> val dims v j d = val dims global (gid m j) d.
(** no two vertices of [g] have the same smallest distance to a vertex of [o] *)
Definition nearest_is_unique (g o : mesh) : Prop :=
  forall i j k, i < nVertices o -> nearest g (position o i) j -> nearest g (position o i) k -> j = k.
(** [h] is a part of the mesh [g]: some of its vertices, each once, with their global
    index and coordinates *)
Record part_of (g h : mesh) : Prop := {
  po_wf : wf_mesh h;
  po_dim : m_dim h = m_dim g;
  po_verts : forall v, In v (m_verts h) -> exists w, nth_error (m_verts g) (Z.to_nat (v_glob v)) = Some w /\ v_coords w = v_coords v /\ v_glob w = v_glob v;
  po_once : NoDup (map v_glob (m_verts h))
}.
(** the part [h] has a vertex that is nearest to [u] in the whole mesh [g] *)
Definition holds (g h : mesh) (u : list Q) : Prop := exists j, j < nVertices h /\ nearest g u (gid h j).
(** a mesh of this rank whose coordinates are below the bounds of an empty box *)
Definition fits (big : Q) (d : nat) (o : mesh) : Prop := wf_mesh o /\ m_dim o = d /\ forall v, In v (m_verts o) -> finite big (v_coords v).
