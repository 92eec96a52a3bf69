(** Specification vocabulary for the API: histories of calls and what follows
    from a history alone, without looking at the state of the participant. *)
From Coq Require Import ZArith QArith Bool List Arith.
From Verif Require Import M_Time M_Mesh M_Prep M_Box M_Quad M_Api.
Import ListNotations.
Open Scope nat_scope.

Section Spec.
Context {C : Type}.
Variable W : world C.

(** the calls made so far, each with its result, or [None] for an error *)
Definition history := list (call C * option result).

(** a participant right after its construction and configuration *)
Record started (s : state C) : Prop := {
  sd_phase : st_phase s = Constructed;
  sd_names : NoDup (map fst (st_meshes s));
  sd_empty : forall m x, lookup m (st_meshes s) = Some x ->
    mx_mesh x = emptyMesh (m_dim (mx_mesh x)) /\ 0 < m_dim (mx_mesh x) /\ mx_region x = None;
  sd_locks : st_locks s = map (fun x => (fst x, false)) (st_meshes s);
  sd_writes : NoDup (map (fun w => (wr_mesh w, wr_data w)) (st_writes s));
  sd_bufs : forall w, In w (st_writes s) -> wr_buf w = [] /\ 0 < wr_dims w /\ In (wr_data w) (st_names s) /\
    exists x, lookup (wr_mesh w) (st_meshes s) = Some x;
  sd_sections : st_sections s = 0;
  sd_solver : st_solver s = false
}.

(** the histories a program can produce, with the state they lead to.  A
    program may go on after an error; a crash or an error inside the
    communication ends it. *)
Inductive happens (s0 : state C) : history -> state C -> Prop :=
| happens_start : happens s0 [] s0
| happens_done h s c s' r : happens s0 h s -> step W s c = Done s' r -> happens s0 (h ++ [(c, Some r)]) s'
| happens_fail h s c s' : happens s0 h s -> step W s c = Fail s' -> happens s0 (h ++ [(c, None)]) s'.

(** the life cycle: only successful calls of initialize() and finalize() matter *)
Definition life1 (p : phase) (x : call C * option result) : phase :=
  match x with
  | (Initialize _, Some _) => Initialized
  | (Finalize, Some _) => Finalized
  | _ => p
  end.
Definition life (h : history) : phase := fold_left life1 h Constructed.
(** which calls the documentation allows in which phase *)
Definition allowed (p : phase) (c : call C) : Prop :=
  match c with
  | Initialize _ | RequiresInitialData | SetMeshAccessRegion _ _ => p = Constructed
  | Advance _ _ _ | ReadData _ _ _ _ _ | IsCouplingOngoing | IsTimeWindowComplete | GetMaxTimeStepSize
  | RequiresWritingCheckpoint | RequiresReadingCheckpoint | ResetMesh _ | GetMeshVertexIDsAndCoordinates _ _ _ => p = Initialized
  | StartProfilingSection _ | StopLastProfilingSection => True
  | _ => p <> Finalized
  end.

(** the mesh a call sets vertices or connectivity of *)
Definition edits (c : call C) : option nat :=
  match c with
  | SetMeshVertex m _ | SetMeshVertices m _ _ | SetMeshEdge m _ _ | SetMeshEdges m _
  | SetMeshTriangle m _ _ _ | SetMeshTriangles m _ | SetMeshQuad m _ _ _ _ | SetMeshQuads m _
  | SetMeshTetrahedron m _ _ _ _ | SetMeshTetrahedra m _ => Some m
  | _ => None
  end.
(** a mesh may be edited before initialize() and between resetMesh() and the
    next advance() *)
Definition editable1 (m : nat) (b : bool) (x : call C * option result) : bool :=
  match x with
  | (Initialize _, Some _) | (Advance _ _ _, Some _) => false
  | (ResetMesh m', Some _) => if m' =? m then true else b
  | _ => b
  end.
Definition editable (m : nat) (h : history) : bool := fold_left (editable1 m) h true.

(** the coordinates of the vertices set since the last reset, in order *)
Fixpoint cut (n d : nat) (l : list Q) : list (list Q) :=
  match n with 0 => [] | S n' => firstn d l :: cut n' d (skipn d l) end.
Definition points1 (m : nat) (ps : list (list Q)) (x : call C * option result) : list (list Q) :=
  match x with
  | (SetMeshVertex m' p, Some _) => if m' =? m then ps ++ [p] else ps
  | (SetMeshVertices m' n l, Some _) => if m' =? m then ps ++ cut n (length l / n) l else ps
  | (ResetMesh m', Some _) => if m' =? m then [] else ps
  | _ => ps
  end.
Definition points (m : nat) (h : history) : list (list Q) := fold_left (points1 m) h [].

(** the values written for the data [d] on the mesh [m] since the last
    initialize() or advance(): vertex and value, the latest first *)
Fixpoint entries (ids : list Z) (n : nat) (values : list Q) : list (Z * list Q) :=
  match ids with [] => [] | v :: r => (v, firstn n values) :: entries r n (skipn n values) end.
Definition written1 (m d : nat) (l : list (Z * list Q)) (x : call C * option result) : list (Z * list Q) :=
  match x with
  | (WriteData m' d' ids values, Some _) =>
      if (m' =? m) && (d' =? d) then rev (entries ids (length values / length ids) values) ++ l else l
  | (Initialize _, Some _) | (Advance _ _ _, Some _) => []
  | _ => l
  end.
Definition written (m d : nat) (h : history) : list (Z * list Q) := fold_left (written1 m d) h [].
(** the last value written for a vertex, or zero *)
Definition latest (dims v : nat) (l : list (Z * list Q)) : list Q :=
  match find (fun x => Z.eqb (fst x) (Z.of_nat v)) l with Some x => snd x | None => repeat 0%Q dims end.
(** no value of [d] is waiting when the mesh is reset *)
Definition no_write_before_reset (m d : nat) (h : history) : Prop :=
  forall h1 h2 r, h = h1 ++ (ResetMesh m, Some r) :: h2 -> written m d h1 = [].
End Spec.

(** the value of vertex [v] in a field with [dims] components *)
Definition value_at (dims v : nat) (field : list Q) : list Q := firstn dims (skipn (v * dims) field).
(** calls that test the phase before they do anything else *)
Definition guarded {C} (c : call C) : Prop :=
  match c with
  | Initialize _ | Finalize | IsCouplingOngoing | IsTimeWindowComplete | GetMaxTimeStepSize
  | RequiresInitialData | RequiresWritingCheckpoint | RequiresReadingCheckpoint
  | ReadData _ _ _ _ _ | WriteData _ _ _ _ | ResetMesh _ => True
  | _ => False
  end.
Definition is_advance {C} (c : call C) : Prop := match c with Advance _ _ _ => True | _ => False end.
Definition is_profiling {C} (c : call C) : Prop :=
  match c with StartProfilingSection _ | StopLastProfilingSection => True | _ => False end.
(** the samples [l] given to the coupling contain exactly one for data [d] of
    mesh [m]; it is for time [t] and holds, for every one of the [n] vertices,
    the last value written since the last initialize() or advance(), or zero *)
Definition hands_over {C} (l : list (nat * nat * Z * list Q)) (m d : nat) (t : Z) (n dims : nat) (h : @history C) : Prop :=
  exists field, (forall t' f, In (m, d, t', f) l <-> t' = t /\ f = field) /\ length field = n * dims /\
    forall v, v < n -> value_at dims v field = latest dims v (written m d h).
