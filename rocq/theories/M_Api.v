(** The API of a participant: src/precice/impl/ParticipantImpl.cpp, with
    ParticipantState, MultiLock, WriteDataContext and ReadDataContext.

    Simplifications.  Names are numbers and vertex IDs are integers; values and
    coordinates are rationals; times are integer ticks.  The coupling scheme is
    a parameter (its own model is M_Cpl), and so is sampling of a waveform
    (M_WaveCache).  What a call obtains from other ranks and participants --
    received meshes, the read data after the exchange and the mapping, the new
    state of the coupling scheme -- is an argument of the call, so theorems hold
    for all of them; an error inside the communication ends the run.  The
    just-in-time mapping calls, gradients, exports, actions and the names of
    profiling sections are left out.  One rank is modelled; [parallel] tells
    whether there are others.  Checks that only exist in debug builds are left
    out (finite data values, the same time step on all ranks), except that
    assertions are outcomes. *)
From Coq Require Import ZArith QArith Bool List Arith.
From Verif Require Import M_Time M_Mesh M_Prep M_Box M_Quad.
Import ListNotations.
Open Scope nat_scope.

(** ParticipantImpl.hpp State *)
Inductive phase := Constructed | Initialized | Finalized.
Definition phase_eqb (a b : phase) : bool :=
  match a, b with Constructed, Constructed | Initialized, Initialized | Finalized, Finalized => true | _, _ => false end.
(** CouplingScheme.hpp Action *)
Inductive action := InitializeData | WriteCheckpoint | ReadCheckpoint.

(** maps with a number as key: [std::map] *)
Fixpoint lookup {A} (k : nat) (l : list (nat * A)) : option A :=
  match l with [] => None | (j, a) :: r => if j =? k then Some a else lookup k r end.
Definition alter {A} (k : nat) (f : A -> A) (l : list (nat * A)) : list (nat * A) :=
  map (fun x => if fst x =? k then (fst x, f (snd x)) else x) l.

(** MeshContext.hpp, ProvidedMeshContext.hpp, ReceivedMeshContext.hpp *)
Record meshCtx := MkCtx {
  mx_mesh : mesh;
  mx_provided : bool;          (* otherwise received *)
  mx_full : bool;              (* meshRequirement == FULL *)
  mx_direct : bool;            (* allowDirectAccess of a received mesh *)
  mx_region : option box       (* userDefinedAccessRegion of a received mesh *)
}.
Definition setMesh (x : meshCtx) (m : mesh) : meshCtx := MkCtx m (mx_provided x) (mx_full x) (mx_direct x) (mx_region x).
Definition setRegion (x : meshCtx) (b : box) : meshCtx := MkCtx (mx_mesh x) (mx_provided x) (mx_full x) (mx_direct x) (Some b).
(** WriteDataContext.hpp: [_writeDataBuffer.values] *)
Record wrCtx := MkWr { wr_mesh : nat; wr_data : nat; wr_dims : nat; wr_buf : list Q }.
Definition setBuf (w : wrCtx) (b : list Q) : wrCtx := MkWr (wr_mesh w) (wr_data w) (wr_dims w) b.
(** ReadDataContext.hpp: the waveform of [_providedData] *)
Record rdCtx := MkRd { rd_mesh : nat; rd_data : nat; rd_dims : nat; rd_wave : list (Z * list Q) }.

(** MultiLock.hpp 63-68, 77-86, 108-116, 119-125; [None]: LockNotFoundException *)
Definition lockAll (l : list (nat * bool)) : list (nat * bool) := map (fun x => (fst x, true)) l.
Definition unlock (k : nat) (l : list (nat * bool)) : option (list (nat * bool)) :=
  match lookup k l with Some _ => Some (alter k (fun _ => false) l) | None => None end.
Definition checkLock (k : nat) (l : list (nat * bool)) : option bool := lookup k l.
Definition checkAll (l : list (nat * bool)) : bool := forallb snd l.

(** ** Buffers of written data: WriteDataContext.cpp *)
(** 59-71: column [v] of the matrix with [d] rows *)
Definition putCol (d v : nat) (col buf : list Q) : list Q := firstn (v * d) buf ++ col ++ skipn (v * d + d) buf.
Definition getCol (d v : nat) (buf : list Q) : list Q := firstn d (skipn (v * d) buf).
Fixpoint writeValues (d : nat) (ids : list nat) (values buf : list Q) : list Q :=
  match ids with
  | [] => buf
  | v :: r => writeValues d r (skipn d values) (putCol d v (firstn d values) buf)
  end.
(** 90-124 *)
Definition resizeBuffer (n d : nat) (invalidate : bool) (buf : list Q) : list Q :=
  if invalidate then repeat 0%Q (n * d)
  else firstn (n * d) buf ++ repeat 0%Q (n * d - length buf).
(** 14-19 *)
Definition zeroBuffer (buf : list Q) : list Q := map (fun _ => 0%Q) buf.
(** ReadDataContext.cpp 36-44; [None]: the assertion of [reshaped] *)
Definition readValues (d n : nat) (ids : list nat) (sample : list Q) : option (list Q) :=
  if length sample =? d * n then Some (flat_map (fun v => getCol d v sample) ids) else None.

(** The world around the API: tolerances, the sampling of waveforms and the
    coupling scheme with states of type [C] (CouplingScheme.hpp). *)
Record world (C : Type) := MkWorld {
  w_eps : Z;                 (* tolerance for times *)
  w_tol : Q; w_tol2 : Q;     (* tolerances for quads and duplicate elements *)
  w_addr : nat -> nat;       (* addresses of vertices *)
  w_sampleAt : list (Z * list Q) -> Z -> option (list Q); (* Waveform::sample *)
  w_ongoing : C -> bool; w_complete : C -> bool; w_substeps : C -> bool;
  w_time : C -> Z; w_maxStep : C -> Z;
  w_required : action -> C -> bool; w_fulfilled : action -> C -> bool; w_mark : action -> C -> C;
  w_addTime : C -> Z -> option (C * bool) (* addComputedTime; [None]: the step is too large *)
}.
Arguments w_eps {C}. Arguments w_tol {C}. Arguments w_tol2 {C}. Arguments w_addr {C}. Arguments w_sampleAt {C}.
Arguments w_ongoing {C}. Arguments w_complete {C}. Arguments w_substeps {C}. Arguments w_time {C}. Arguments w_maxStep {C}.
Arguments w_required {C}. Arguments w_fulfilled {C}. Arguments w_mark {C}. Arguments w_addTime {C}.

Section Api.
Context {C : Type}.
Variable W : world C.
Local Notation eps := (w_eps W).
Local Notation tol := (w_tol W).
Local Notation tol2 := (w_tol2 W).
Local Notation addr := (w_addr W).
Local Notation sampleAt := (w_sampleAt W).
Local Notation ongoing := (w_ongoing W).
Local Notation complete := (w_complete W).
Local Notation substeps := (w_substeps W).
Local Notation time := (w_time W).
Local Notation maxStep := (w_maxStep W).
Local Notation required := (w_required W).
Local Notation fulfilled := (w_fulfilled W).
Local Notation mark := (w_mark W).
Local Notation addTime := (w_addTime W).

Record state := MkState {
  st_phase : phase;
  st_experimental : bool;             (* _allowsExperimental *)
  st_remeshing : bool;                (* _allowsRemeshing *)
  st_parallel : bool;
  st_meshes : list (nat * meshCtx);   (* _accessor: meshes *)
  st_writes : list wrCtx;             (* _accessor: writeDataContexts *)
  st_reads : list rdCtx;              (* _accessor: readDataContexts *)
  st_names : list nat;                (* names of all data of all meshes, for hasData *)
  st_locks : list (nat * bool);       (* _meshLock *)
  st_cpl : C;                         (* _couplingScheme *)
  st_sections : nat;                  (* size of _userEvents *)
  st_solver : bool                    (* _solverAdvanceEvent is set *)
}.
Definition withMeshes s x := MkState (st_phase s) (st_experimental s) (st_remeshing s) (st_parallel s) x (st_writes s) (st_reads s) (st_names s) (st_locks s) (st_cpl s) (st_sections s) (st_solver s).
Definition withWrites s x := MkState (st_phase s) (st_experimental s) (st_remeshing s) (st_parallel s) (st_meshes s) x (st_reads s) (st_names s) (st_locks s) (st_cpl s) (st_sections s) (st_solver s).
Definition withReads s x := MkState (st_phase s) (st_experimental s) (st_remeshing s) (st_parallel s) (st_meshes s) (st_writes s) x (st_names s) (st_locks s) (st_cpl s) (st_sections s) (st_solver s).
Definition withLocks s x := MkState (st_phase s) (st_experimental s) (st_remeshing s) (st_parallel s) (st_meshes s) (st_writes s) (st_reads s) (st_names s) x (st_cpl s) (st_sections s) (st_solver s).
Definition withCpl s x := MkState (st_phase s) (st_experimental s) (st_remeshing s) (st_parallel s) (st_meshes s) (st_writes s) (st_reads s) (st_names s) (st_locks s) x (st_sections s) (st_solver s).
Definition withSections s x := MkState (st_phase s) (st_experimental s) (st_remeshing s) (st_parallel s) (st_meshes s) (st_writes s) (st_reads s) (st_names s) (st_locks s) (st_cpl s) x (st_solver s).
Definition withPhase s p v := MkState p (st_experimental s) (st_remeshing s) (st_parallel s) (st_meshes s) (st_writes s) (st_reads s) (st_names s) (st_locks s) (st_cpl s) (st_sections s) v.

(** what a call that communicates obtains from others *)
Record incoming := MkIn {
  in_meshes : nat -> mesh;                     (* the mesh received for a name *)
  in_reads : nat -> nat -> list (Z * list Q);  (* read data (mesh, data) after the exchange and mapping *)
  in_cpl : C                                   (* state of the coupling scheme *)
}.

Inductive result :=
| RUnit | RBool (b : bool) | RNat (n : nat) | RTime (t : Z) | RIds (l : list nat) | RValues (l : list Q)
| RVertices (l : list (nat * list Q))
| RStored (l : list (nat * nat * Z * list Q)). (* samples given to the coupling: mesh, data, time, values *)
Inductive outcome :=
| Done (s : state) (r : result)
| Fail (s : state)  (* PRECICE_CHECK or PRECICE_ERROR: an exception; the state left behind *)
| Broken            (* an error inside the communication: ends the run *)
| Crash.            (* a failing assertion or a null pointer is dereferenced *)

Inductive call :=
| Initialize (e : option incoming)
| Advance (dt : option Z) (partnerChanged : bool) (e : option incoming) (* [None]: not a finite number *)
| Finalize
| IsCouplingOngoing | IsTimeWindowComplete | GetMaxTimeStepSize
| RequiresInitialData | RequiresWritingCheckpoint | RequiresReadingCheckpoint
| RequiresMeshConnectivityFor (m : nat) | GetMeshDimensions (m : nat) | GetDataDimensions (m d : nat)
| GetMeshVertexSize (m : nat)
| ResetMesh (m : nat)
| SetMeshVertex (m : nat) (position : list Q)
| SetMeshVertices (m : nat) (n : nat) (positions : list Q)
| SetMeshEdge (m : nat) (a b : Z) | SetMeshEdges (m : nat) (ids : list Z)
| SetMeshTriangle (m : nat) (a b c : Z) | SetMeshTriangles (m : nat) (ids : list Z)
| SetMeshQuad (m : nat) (a b c d : Z) | SetMeshQuads (m : nat) (ids : list Z)
| SetMeshTetrahedron (m : nat) (a b c d : Z) | SetMeshTetrahedra (m : nat) (ids : list Z)
| WriteData (m d : nat) (ids : list Z) (values : list Q)
| ReadData (m d : nat) (ids : list Z) (relativeReadTime : Z) (n : nat) (* [n]: size of the buffer for the result *)
| SetMeshAccessRegion (m : nat) (bounds : list Q)
| GetMeshVertexIDsAndCoordinates (m : nat) (nIds nCoords : nat)
| StartProfilingSection (slash : bool) | StopLastProfilingSection.

(** ParticipantState.cpp: findWrite/findRead by mesh and data name *)
Definition findWrite (s : state) (m d : nat) : option wrCtx :=
  find (fun w => (wr_mesh w =? m) && (wr_data w =? d)) (st_writes s).
Definition findRead (s : state) (m d : nat) : option rdCtx :=
  find (fun w => (rd_mesh w =? m) && (rd_data w =? d)) (st_reads s).
Definition alterWrite (s : state) (m d : nat) (f : wrCtx -> wrCtx) : state :=
  withWrites s (map (fun w => if (wr_mesh w =? m) && (wr_data w =? d) then f w else w) (st_writes s)).

(** ValidationMacros.hpp.  [_accessor] is null after finalize(). *)
Definition mesh_use (s : state) (m : nat) (k : meshCtx -> outcome) : outcome :=
  if phase_eqb (st_phase s) Finalized then Crash else
  match lookup m (st_meshes s) with None => Fail s | Some x => k x end.
Definition mesh_modify (s : state) (m : nat) (k : meshCtx -> outcome) : outcome :=
  mesh_use s m (fun x =>
    if mx_provided x then
      match checkLock m (st_locks s) with
      | None => Crash
      | Some true => Fail s
      | Some false => k x
      end
    else Fail s).
(** hasData ignores the mesh: ParticipantState.cpp hasData *)
Definition data_access (s : state) (m d : nat) (k : meshCtx -> outcome) : outcome :=
  mesh_use s m (fun x =>
    if mx_provided x || mx_direct x then
      if existsb (Nat.eqb d) (st_names s) then k x else Fail s
    else Fail s).

(** the buffers of all write data of a mesh: 806-811, 1614-1620 *)
Definition resizeBuffers (m n : nat) (invalidate : bool) (ws : list wrCtx) : list wrCtx :=
  map (fun w => if wr_mesh w =? m then setBuf w (resizeBuffer n (wr_dims w) invalidate (wr_buf w)) else w) ws.
Definition putMesh (s : state) (m : nat) (x : mesh) : state :=
  withMeshes s (alter m (fun c => setMesh c x) (st_meshes s)).

(** 792-847 *)
Fixpoint createVertices (m : mesh) (positions : list (list Q)) : option mesh :=
  match positions with
  | [] => Some m
  | p :: r => match createVertex m p with None => None | Some m' => createVertices m' r end
  end.
Fixpoint columns (n d : nat) (l : list Q) : list (list Q) :=
  match n with 0 => [] | S n' => firstn d l :: columns n' d (skipn d l) end.
Definition addVertices (s : state) (m : nat) (x : meshCtx) (positions : list (list Q)) (r : list nat -> result) : outcome :=
  match createVertices (mx_mesh x) positions with
  | None => Crash
  | Some mesh' =>
      let s' := putMesh s m mesh' in
      Done (withWrites s' (resizeBuffers m (nVertices mesh') false (st_writes s')))
           (r (seq (nVertices (mx_mesh x)) (length positions)))
  end.

(** the calls that set elements; [k] adds them to the mesh *)
Definition validIDs (m : mesh) (ids : list Z) : bool := forallb (isValidVertexID m) ids.
Definition zs (l : list Z) : list nat := map Z.to_nat l.
Fixpoint pairs (l : list nat) : list (nat * nat) :=
  match l with a :: b :: r => (a, b) :: pairs r | _ => [] end.
Fixpoint triples (l : list nat) : list (nat * nat * nat) :=
  match l with a :: b :: c :: r => (a, b, c) :: triples r | _ => [] end.
Fixpoint quadruples (l : list nat) : list (nat * nat * nat * nat) :=
  match l with a :: b :: c :: d :: r => (a, b, c, d) :: quadruples r | _ => [] end.
(** 1056-1091: an error in the middle leaves the triangles of the quads before *)
Fixpoint addQuads (m : mesh) (l : list (nat * nat * nat * nat)) : mesh * quadResult :=
  match l with
  | [] => (m, QDone m)
  | (a, b, c, d) :: r =>
      match addQuad tol m a b c d with
      | QDone m' => addQuads m' r
      | o => (m, o)
      end
  end.
Fixpoint addTetrahedra (m : mesh) (l : list (nat * nat * nat * nat)) : option mesh :=
  match l with
  | [] => Some m
  | (a, b, c, d) :: r => match createTetrahedron m a b c d with None => None | Some m' => addTetrahedra m' r end
  end.
Definition ifFull (s : state) (x : meshCtx) (k : outcome) : outcome := if mx_full x then k else Done s RUnit.
Definition guardFail (s : state) (b : bool) (k : outcome) : outcome := if b then k else Fail s.

(** 321-378, 1543-1622: setupCommunication *)
Definition receiveMeshes (e : incoming) (x : nat * meshCtx) : nat * meshCtx :=
  let '(m, c) := x in
  if mx_provided c then (m, setMesh c (preprocess tol2 addr (mx_mesh c)))
  else (m, setMesh c (in_meshes e m)).
Definition fitBuffers (meshes : list (nat * meshCtx)) (ws : list wrCtx) : list wrCtx :=
  fold_left (fun ws x => resizeBuffers (fst x) (nVertices (mx_mesh (snd x))) (negb (mx_provided (snd x))) ws) meshes ws.
Definition setupCommunication (e : incoming) (s : state) : state :=
  let meshes := map (receiveMeshes e) (st_meshes s) in
  withWrites (withMeshes s meshes) (fitBuffers meshes (st_writes s)).

Definition storeAll (t : Z) (s : state) : list (nat * nat * Z * list Q) :=
  map (fun w => (wr_mesh w, wr_data w, t, wr_buf w)) (st_writes s).
Definition resetWritten (s : state) : state := withWrites s (map (fun w => setBuf w (zeroBuffer (wr_buf w))) (st_writes s)).
Definition receiveReads (e : incoming) (s : state) : state :=
  withReads s (map (fun r => MkRd (rd_mesh r) (rd_data r) (rd_dims r) (in_reads e (rd_mesh r) (rd_data r))) (st_reads s)).

(** 248-300 *)
Definition initialize (s : state) (e : option incoming) : outcome :=
  match st_phase s with
  | Finalized | Initialized => Fail s
  | Constructed =>
      guardFail s (negb (required InitializeData (st_cpl s) && negb (fulfilled InitializeData (st_cpl s))))
      (guardFail s (st_sections s =? 0)
       match e with
       | None => Broken
       | Some e =>
           let s1 := setupCommunication e s in
           let s2 := withLocks s1 (lockAll (st_locks s1)) in
           let stored := storeAll 0 s2 in
           let s3 := receiveReads e (withCpl s2 (in_cpl e)) in
           Done (withPhase (resetWritten s3) Initialized true) (RStored stored)
       end)
  end.

(** 392-466 *)
Definition advance (s : state) (dt : option Z) (partnerChanged : bool) (e : option incoming) : outcome :=
  guardFail s (st_sections s =? 0)
  (if negb (st_solver s) then Crash else
   match st_phase s with
   | Constructed | Finalized => Fail s
   | Initialized =>
       guardFail s (ongoing (st_cpl s))
       match dt with
       | None => Fail s
       | Some dt =>
           guardFail s (negb (equals eps dt 0))
           (guardFail s (0 <? dt)%Z
            match addTime (st_cpl s) dt with
            | None => Fail s
            | Some (c, atEnd) =>
                let s1 := withCpl s c in
                let changed := negb (checkAll (st_locks s)) || partnerChanged in
                if st_remeshing s && negb atEnd && negb (checkAll (st_locks s)) then Fail s1 else
                match e with
                | None => Broken
                | Some e =>
                    let s2 := if st_remeshing s && atEnd && changed then setupCommunication e s1 else s1 in
                    let stored := if atEnd || substeps c then storeAll (time c) s2 else [] in
                    let s3 := resetWritten s2 in
                    let s4 := withCpl s3 (in_cpl e) in
                    let s5 := if atEnd then receiveReads e s4 else s4 in
                    Done (withLocks s5 (lockAll (st_locks s5))) (RStored stored)
                end
            end)
       end
   end).

(** 587-637 *)
Definition finalize (s : state) : outcome :=
  match st_phase s with
  | Finalized => Fail s
  | _ => Done (withPhase (withSections s 0) Finalized false) RUnit
  end.

(** 687-718 *)
Definition requires (s : state) (p : phase) (a : action) : outcome :=
  guardFail s (phase_eqb (st_phase s) p)
  (if required a (st_cpl s) then Done (withCpl s (mark a (st_cpl s))) (RBool true) else Done s (RBool false)).

(** 739-772 *)
Definition inRegion (b : box) (v : vertex) : bool :=
  match contains b (v_coords v) with Some r => r | None => false end.
Definition getMeshVertexSize (s : state) (m : nat) : outcome :=
  mesh_use s m (fun x =>
    guardFail s (phase_eqb (st_phase s) Initialized || mx_provided x)
    (let all := Done s (RNat (nVertices (mx_mesh x))) in
     if negb (mx_provided x) && mx_direct x then
       match mx_region x with
       | Some b => Done s (RNat (countIf (inRegion b) (m_verts (mx_mesh x))))
       | None => if st_parallel s then Fail s else all
       end
     else all)).
(** 1478-1541, ReceivedMeshContext.cpp 30-46 *)
Definition numbered (l : list vertex) : list (nat * vertex) := combine (seq 0 (length l)) l.
Definition accessible (x : meshCtx) : list (nat * vertex) :=
  match mx_region x with
  | Some b => filter (fun p => inRegion b (snd p)) (numbered (m_verts (mx_mesh x)))
  | None => numbered (m_verts (mx_mesh x))
  end.
Definition getVertices (s : state) (m nIds nCoords : nat) : outcome :=
  mesh_use s m (fun x =>
    guardFail s (negb (mx_provided x) && mx_direct x)
    (guardFail s (match mx_region x with Some _ => true | None => negb (st_parallel s) end)
     (guardFail s (phase_eqb (st_phase s) Initialized)
      (if (nIds =? 0) && (nCoords =? 0) then Done s (RVertices []) else
       let l := accessible x in
       guardFail s (nIds =? length l)
       (guardFail s (nCoords =? m_dim (mx_mesh x) * length l)
        (Done s (RVertices (map (fun p => (fst p, v_coords (snd p))) l)))))))).
(** 1437-1476; Mesh::expandBoundingBox is left out *)
Definition ordered2 (l : list Q) : bool := forallb (fun p => Qle_bool (fst p) (snd p)) (combine (evens l) (odds l)).
Definition setRegionOf (s : state) (m : nat) (bounds : list Q) : outcome :=
  mesh_use s m (fun x =>
    guardFail s (negb (mx_provided x) && mx_direct x)
    (guardFail s (phase_eqb (st_phase s) Constructed)
     (guardFail s (match mx_region x with None => true | Some _ => false end)
      (guardFail s (length bounds =? m_dim (mx_mesh x) * 2)
       (guardFail s (ordered2 bounds)
        match boxOfBounds bounds with
        | None => Crash
        | Some b => Done (withMeshes s (alter m (fun c => setRegion c b) (st_meshes s))) RUnit
        end))))).

(** 775-790 *)
Definition clearMesh (x : mesh) : mesh := emptyMesh (m_dim x).
Definition resetMesh (s : state) (m : nat) : outcome :=
  guardFail s (st_experimental s)
  (guardFail s (st_remeshing s)
   (guardFail s (phase_eqb (st_phase s) Initialized)
    (mesh_use s m (fun x =>
      guardFail s (ongoing (st_cpl s))
      (guardFail s (complete (st_cpl s))
       match unlock m (st_locks s) with
       | None => Crash
       | Some l => Done (putMesh (withLocks s l) m (clearMesh (mx_mesh x))) RUnit
       end))))).

(** 1169-1204 *)
Definition writeData (s : state) (m d : nat) (ids : list Z) (values : list Q) : outcome :=
  match st_phase s with
  | Finalized => Fail s
  | p =>
      guardFail s (phase_eqb p Constructed || ongoing (st_cpl s))
      (data_access s m d (fun x =>
        match findWrite s m d with
        | None => Fail s
        | Some w =>
            if (length ids =? 0) && (length values =? 0) then Done s RUnit else
            guardFail s (length ids * wr_dims w =? length values)
            (guardFail s (validIDs (mx_mesh x) ids)
             (if nVertices (mx_mesh x) * wr_dims w =? length (wr_buf w)
              then Done (alterWrite s m d (fun w => setBuf w (writeValues (wr_dims w) (zs ids) values (wr_buf w)))) RUnit
              else Crash))
        end))
  end.
(** 1206-1255 *)
Definition readData (s : state) (m d : nat) (ids : list Z) (t : Z) (n : nat) : outcome :=
  guardFail s (phase_eqb (st_phase s) Initialized)
  (guardFail s (smallerEquals eps t (maxStep (st_cpl s)))
   (guardFail s (0 <=? t)%Z
    (guardFail s (ongoing (st_cpl s) || equals eps t 0)
     (data_access s m d (fun x =>
       match findRead s m d with
       | None => Fail s
       | Some r =>
           match checkLock m (st_locks s) with
           | None => Crash
           | Some false => Fail s
           | Some true =>
               if (length ids =? 0) && (n =? 0) then Done s (RValues []) else
               guardFail s (nonempty (rd_wave r))
               (guardFail s (length ids * rd_dims r =? n)
                (guardFail s (validIDs (mx_mesh x) ids)
                 match sampleAt (rd_wave r) (time (st_cpl s) + t) with
                 | None => Crash
                 | Some sample =>
                     match readValues (rd_dims r) (nVertices (mx_mesh x)) (zs ids) sample with
                     | None => Crash
                     | Some v => Done s (RValues v)
                     end
                 end))
           end
       end))))).

Definition step (s : state) (c : call) : outcome :=
  match c with
  | Initialize e => initialize s e
  | Advance dt p e => advance s dt p e
  | Finalize => finalize s
  | IsCouplingOngoing => guardFail s (phase_eqb (st_phase s) Initialized) (Done s (RBool (ongoing (st_cpl s))))
  | IsTimeWindowComplete => guardFail s (phase_eqb (st_phase s) Initialized) (Done s (RBool (complete (st_cpl s))))
  | GetMaxTimeStepSize => guardFail s (phase_eqb (st_phase s) Initialized) (Done s (RTime (maxStep (st_cpl s))))
  | RequiresInitialData => requires s Constructed InitializeData
  | RequiresWritingCheckpoint => requires s Initialized WriteCheckpoint
  | RequiresReadingCheckpoint => requires s Initialized ReadCheckpoint
  | RequiresMeshConnectivityFor m => mesh_use s m (fun x => Done s (RBool (mx_full x)))
  | GetMeshDimensions m => mesh_use s m (fun x => Done s (RNat (m_dim (mx_mesh x))))
  | GetDataDimensions m d =>
      mesh_use s m (fun _ => guardFail s (existsb (Nat.eqb d) (st_names s))
        match findWrite s m d, findRead s m d with
        | Some w, _ => Done s (RNat (wr_dims w))
        | None, Some r => Done s (RNat (rd_dims r))
        | None, None => Crash (* 651: the data of another mesh, or data that is only exchanged (left out) *)
        end)
  | GetMeshVertexSize m => getMeshVertexSize s m
  | ResetMesh m => resetMesh s m
  | SetMeshVertex m p => mesh_modify s m (fun x => guardFail s (length p =? m_dim (mx_mesh x)) (addVertices s m x [p] RIds))
  | SetMeshVertices m n ps =>
      mesh_modify s m (fun x => guardFail s (length ps =? n * m_dim (mx_mesh x)) (addVertices s m x (columns n (m_dim (mx_mesh x)) ps) RIds))
  | SetMeshEdge m a b => (* 849-869 *)
      mesh_modify s m (fun x => ifFull s x (guardFail s (validIDs (mx_mesh x) [a; b])
        (Done (putMesh s m (createEdge (mx_mesh x) (Z.to_nat a) (Z.to_nat b))) RUnit)))
  | SetMeshEdges m ids => (* 871-905 *)
      mesh_modify s m (fun x => ifFull s x (guardFail s (length ids mod 2 =? 0) (guardFail s (validIDs (mx_mesh x) ids)
        (Done (putMesh s m (fold_left (fun m e => createEdge m (fst e) (snd e)) (pairs (zs ids)) (mx_mesh x))) RUnit))))
  | SetMeshTriangle m a b c => (* 907-934 *)
      mesh_modify s m (fun x => ifFull s x (guardFail s (validIDs (mx_mesh x) [a; b; c]) (guardFail s (uniqueElements Z.eqb [a; b; c])
        (Done (putMesh s m (createTriangle (mx_mesh x) (Z.to_nat a) (Z.to_nat b) (Z.to_nat c))) RUnit))))
  | SetMeshTriangles m ids => (* 936-973: repeated IDs are not rejected *)
      mesh_modify s m (fun x => ifFull s x (guardFail s (length ids mod 3 =? 0) (guardFail s (validIDs (mx_mesh x) ids)
        (Done (putMesh s m (fold_left (fun m t => let '(a, b, c) := t in createTriangle m a b c) (triples (zs ids)) (mx_mesh x))) RUnit))))
  | SetMeshQuad m a b c d => (* 975-1027 *)
      mesh_modify s m (fun x => ifFull s x
        match setMeshQuad tol (mx_mesh x) a b c d with QRejected => Fail s | QUndefined => Crash | QDone y => Done (putMesh s m y) RUnit end)
  | SetMeshQuads m ids => (* 1029-1092 *)
      mesh_modify s m (fun x => ifFull s x (guardFail s (length ids mod 4 =? 0) (guardFail s (validIDs (mx_mesh x) ids)
        match addQuads (mx_mesh x) (quadruples (zs ids)) with
        | (y, QRejected) => Fail (putMesh s m y)
        | (_, QUndefined) => Crash
        | (_, QDone y) => Done (putMesh s m y) RUnit
        end)))
  | SetMeshTetrahedron m a b c d => (* 1094-1124 *)
      mesh_modify s m (fun x => guardFail s (m_dim (mx_mesh x) =? 3) (ifFull s x (guardFail s (validIDs (mx_mesh x) [a; b; c; d])
        match createTetrahedron (mx_mesh x) (Z.to_nat a) (Z.to_nat b) (Z.to_nat c) (Z.to_nat d) with
        | None => Crash
        | Some y => Done (putMesh s m y) RUnit
        end)))
  | SetMeshTetrahedra m ids => (* 1126-1167 *)
      mesh_modify s m (fun x => guardFail s (m_dim (mx_mesh x) =? 3) (ifFull s x (guardFail s (length ids mod 4 =? 0) (guardFail s (validIDs (mx_mesh x) ids)
        match addTetrahedra (mx_mesh x) (quadruples (zs ids)) with
        | None => Crash
        | Some y => Done (putMesh s m y) RUnit
        end))))
  | WriteData m d ids vs => writeData s m d ids vs
  | ReadData m d ids t n => readData s m d ids t n
  | SetMeshAccessRegion m b => setRegionOf s m b
  | GetMeshVertexIDsAndCoordinates m i c => getVertices s m i c
  | StartProfilingSection slash => guardFail s (negb slash) (Done (withSections s (S (st_sections s))) RUnit)
  | StopLastProfilingSection => if st_sections s =? 0 then Fail s else Done (withSections s (st_sections s - 1)) RUnit
  end.
End Api.
Arguments state : clear implicits.
Arguments incoming : clear implicits.
Arguments call : clear implicits.
Arguments outcome : clear implicits.
