(** What is said about just-in-time mapping. *)
From Coq Require Import ZArith QArith Qabs Bool List Arith.
From Verif Require Import M_Mesh M_Quad M_Map S_Mesh S_Map M_Jit.
Import ListNotations.
Open Scope nat_scope.

(** What has happened so far: the received mesh, the time and what sampling the received
    data gives now; the times at which data was read since the end of the last window;
    the coordinates and values written since the last step. *)
Record past := PA { p_mesh : mesh; p_time : Q; p_wave : Q -> list Q; p_reads : list Q; p_at : list (list Q); p_values : list Q }.
Definition newMesh (p : past) (a : advance) : mesh :=
  if a_atEnd a then match a_remesh a with Some m => m | None => p_mesh p end else p_mesh p.
Definition next (p : past) (x : op) : past :=
  match x with
  | Read relative [] => p
  | Read relative _ => PA (p_mesh p) (p_time p) (p_wave p) (p_reads p ++ [(p_time p + relative)%Q]) (p_at p) (p_values p)
  | Write coordinates values => PA (p_mesh p) (p_time p) (p_wave p) (p_reads p) (p_at p ++ coordinates) (p_values p ++ values)
  | Advance a =>
      if a_atEnd a then PA (newMesh p a) (a_time a) (a_wave a) [] [] []
      else PA (p_mesh p) (p_time p + a_dt a)%Q (p_wave p) (p_reads p) [] []
  end.
Definition after (p : past) (l : list op) : past := fold_left next l p.
Definition start (m : mesh) (wave : Q -> list Q) : past := PA m 0 wave [] [] [].

(** the largest step, as given by the last advance *)
Definition lastMax (max : Q) (l : list op) : Q := fold_left (fun x o => match o with Advance a => a_max a | _ => x end) l max.

(** Coordinates have the dimension of the mesh, time does not run below zero, and the
    samples have the size of the mesh. *)
Definition coordinatesOk (m : mesh) (l : list (list Q)) : Prop := Forall (fun x => length x = m_dim m) l.
Definition sane (dims : nat) (p : past) (x : op) : Prop :=
  match x with
  | Read _ coordinates => coordinatesOk (p_mesh p) coordinates
  | Write coordinates _ => coordinatesOk (p_mesh p) coordinates
  | Advance a => (0 <= a_dt a)%Q /\ (0 <= a_time a)%Q /\ wf_mesh (newMesh p a) /\
                 (a_atEnd a = true -> forall t, sized dims (newMesh p a) (a_wave a t))
  end.
Fixpoint saneAll (dims : nat) (p : past) (l : list op) : Prop :=
  match l with [] => True | x :: r => sane dims p x /\ saneAll dims (next p x) r end.

Definition nearestSearches (cv : mesh -> list Q -> nat) : Prop :=
  forall m u, length u = m_dim m -> m_verts m <> [] -> nearest m u (cv m u).
(** the vertices that are closer than the radius *)
Definition withinSearches (inside : mesh -> list Q -> list nat) (radius : Q) : Prop :=
  forall m u, NoDup (inside m u) /\
  forall j, In j (inside m u) <-> j < nVertices m /\ (sqdist (m_dim m) (position m j) u < radius * radius)%Q.
