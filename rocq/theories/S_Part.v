(** Specification vocabulary for partitions. *)
From Coq Require Import ZArith QArith List Arith Bool.
From Verif Require Import M_Net M_Mesh M_M2N M_Part S_Term S_M2N S_Mesh S_Filter.
Import ListNotations.
Open Scope nat_scope.

(** the number of vertices the ranks before [r] hold *)
Fixpoint before (count : nat -> nat) (r : nat) : nat := match r with 0 => 0 | S r' => before count r' + count r' end.

(** only the global index and the owner of a vertex differ *)
Definition same_place (v w : vertex) : Prop := v_coords v = v_coords w /\ v_tag v = v_tag w.
Definition same_elements (m m' : mesh) : Prop :=
  m_dim m = m_dim m' /\ m_edges m = m_edges m' /\ m_tris m = m_tris m' /\ m_tets m = m_tets m'.

(** rank [r] of [n] ranks, which hold [count] vertices: the partition [p] of the
    mesh [m] numbers its vertices consecutively after those of the ranks before it,
    and knows the number of all vertices and where the vertices of every rank end *)
Record numbered (n : nat) (count : nat -> nat) (r : nat) (m : mesh) (p : part) : Prop := {
  nu_elements : same_elements m (pt_mesh p);
  nu_vertices : Forall2 same_place (m_verts m) (m_verts (pt_mesh p));
  nu_global : map v_glob (m_verts (pt_mesh p)) = map Z.of_nat (seq (before count r) (count r));
  nu_owner : Forall (fun v => v_owner v = true) (m_verts (pt_mesh p));
  nu_number : pt_number p = Z.of_nat (before count n);
  nu_offsets : pt_offsets p = map (fun s => Z.of_nat (before count (S s))) (seq 0 n)
}.

(** all vertices of all ranks *)
Definition everywhere {A} (n : nat) (vs : nat -> list A) : list A := flat_map vs (seq 0 n).

(** rank [r] needs the vertex with global index [g] *)
Definition needs (m : nat -> mesh) (r : nat) (g : Z) : Prop :=
  exists v, In v (m_verts (m r)) /\ v_glob v = g /\ v_tag v = true.
(** exactly one vertex on all ranks has the global index [g] and is owned *)
Definition one_owner (n : nat) (m : nat -> mesh) (g : Z) : Prop :=
  exists v, filter (fun v => Z.eqb (v_glob v) g && v_owner v) (everywhere n (fun r => m_verts (m r))) = [v].
Definition owns (m : nat -> mesh) (r : nat) (g : Z) : Prop :=
  exists v, In v (m_verts (m r)) /\ v_glob v = g /\ v_owner v = true.

(** [m2] is [m] with the vertices tagged that [extra] marks *)
Record tagged_again (extra : list bool) (m m2 : mesh) : Prop := {
  ta_elements : same_elements m m2;
  ta_number : length (m_verts m2) = length (m_verts m);
  ta_vertices : forall i v, nth_error (m_verts m) i = Some v -> exists w, nth_error (m_verts m2) i = Some w /\
    v_coords w = v_coords v /\ v_glob w = v_glob v /\ v_tag w = v_tag v || nth i extra false
}.
(** [n] ranks hold the meshes [m], with the vertices tagged that they need, and the
    mappings mark [extra] vertices later: the partitions [p] keep the tagged vertices
    and the elements between them, every needed vertex is owned once, by a rank that
    needs it, and rank 0 knows the global indices of all ranks *)
Record received_parts (n N : nat) (m : nat -> mesh) (extra : nat -> list bool) (p : nat -> part) : Prop := {
  rp_mesh : forall r, r < n -> exists m2, tagged_again (extra r) (m r) m2 /\ filtered v_tag (emptyMesh (m_dim (m r))) m2 (pt_mesh (p r));
  rp_one_owner : forall r g, r < n -> needs m r g -> one_owner n (fun r => pt_mesh (p r)) g;
  rp_owner_needs : forall r g, r < n -> owns (fun r => pt_mesh (p r)) r g -> needs m r g;
  rp_number : forall r, r < n -> pt_number (p r) = Z.of_nat N;
  rp_offsets : forall r, r < n ->
    pt_offsets (p r) = map (fun s => Z.of_nat (before (fun r => length (m_verts (pt_mesh (p r)))) (S s))) (seq 0 n);
  rp_dist : distributes (pt_dist (p 0)) n N;
  rp_dist_ids : forall r, r < n -> map Z.of_nat (verts (pt_dist (p 0)) r) = map v_glob (m_verts (pt_mesh (p r)))
}.

(** [always_ends] with buffered sends only *)
Record ends_buffered {M A} (c : list (proc M A)) (res : list A) : Prop := {
  eb_finite : Acc (fun x2 x1 => exists l, astep once l x1 x2) (c, emptych (length c));
  eb_progress : forall x, reaches (astep once) (c, emptych (length c)) x ->
    x = (map PRet res, emptych (length c)) \/ exists l x', astep once l x x'
}.
Definition all_end_buffered {M A} (n : nat) (prog : nat -> proc M A) (res : nat -> A) : Prop :=
  ends_buffered (ranks n prog) (map res (seq 0 n)).
