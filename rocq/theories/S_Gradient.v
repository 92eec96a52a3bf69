(** What is said about gradients. *)
From Coq Require Import ZArith QArith Bool List Arith.
From Verif Require Import M_Mesh M_Quad M_Map S_Mesh S_Map M_Gradient.
Import ListNotations.
Open Scope nat_scope.

(** block i of memory that holds w numbers per vertex *)
Definition blockAt (w : nat) (flat : list Q) (i : nat) : list Q := map (fun k => nth (i * w + k) flat 0%Q) (seq 0 w).
(** what was written to which vertex, in the order of time *)
Definition blocks (w : nat) (ids : list nat) (flat : list Q) : list (nat * list Q) :=
  combine ids (map (blockAt w flat) (seq 0 (length ids))).
Definition valuesWritten (w : nat) (calls : list call) : list (nat * list Q) :=
  flat_map (fun x => match x with WriteData ids v => blocks w ids v | _ => [] end) calls.
Definition gradientsWritten (w : nat) (calls : list call) : list (nat * list Q) :=
  flat_map (fun x => match x with WriteGradientData ids g => blocks w ids g | _ => [] end) calls.
(** the last one for a vertex, zeros if there is none *)
Definition latest (w : nat) (written : list (nat * list Q)) (v : nat) : list Q :=
  match find (fun p => fst p =? v) (rev written) with Some p => snd p | None => repeat 0%Q w end.
(** the vertices that were set *)
Definition verticesSet (calls : list call) : nat := list_sum (map (fun x => match x with SetVertices k => k | _ => 0 end) calls).
Definition noReset (calls : list call) : Prop := ~ In ResetMesh calls.
(** Participant.hpp 1124-1146: the place of the derivative of a component in a
    direction, within the numbers of a vertex *)
Definition documented (dims : nat) (block : list Q) (component direction : nat) : Q := nth (direction * dims + component) block 0%Q.
(** a linear field with constants [a] and derivatives [J component direction] *)
Definition field (dim : nat) (a : nat -> Q) (J : nat -> nat -> Q) (x : list Q) (d : nat) : Q :=
  (a d + qsum dim (fun k => J d k * nth k x 0))%Q.
(** the calls wrote the values of the field to the vertices of the mesh *)
Definition wroteValues (m : mesh) (dims : nat) (calls : list call) (a : nat -> Q) (J : nat -> nat -> Q) : Prop :=
  forall v d, v < nVertices m -> d < dims -> (nth d (latest dims (valuesWritten dims calls) v) 0 == field (m_dim m) a J (position m v) d)%Q.
(** and its derivatives, in the documented order *)
Definition wroteDerivatives (m : mesh) (dims : nat) (calls : list call) (J : nat -> nat -> Q) : Prop :=
  forall v d k, v < nVertices m -> d < dims -> k < m_dim m ->
  (documented dims (latest (m_dim m * dims) (gradientsWritten (m_dim m * dims) calls) v) d k == J d k)%Q.
(** in the other order: all derivatives of the first component first *)
Definition wroteOther (m : mesh) (dims : nat) (calls : list call) (J : nat -> nat -> Q) : Prop :=
  forall v d k, v < nVertices m -> d < dims -> k < m_dim m ->
  (nth (d * m_dim m + k) (latest (m_dim m * dims) (gradientsWritten (m_dim m * dims) calls) v) 0 == J d k)%Q.
Definition nearestSearch (cv : mesh -> list Q -> nat) (m : mesh) : Prop :=
  forall u, length u = m_dim m -> m_verts m <> [] -> nearest m u (cv m u).
