(* The C and Fortran bindings, on top of the C++ class Participant.

   The functions of the bindings are modelled one by one, with the memory that the
   pointers point to, the conversions between int and unsigned long, and the checks
   (or missing checks) whether the participant exists. What is behind Participant, the
   class ParticipantImpl, is an arbitrary library: any function from states and calls
   to states and results.

   Simplifications: doubles are only passed on, never computed with, and are
   represented by integers (their bit patterns). Constructing a span which is longer
   than the memory behind the pointer counts as undefined behaviour already, not only
   its use. Memory is the list of cells from the address on. *)
From Coq Require Import Ascii String List ZArith Bool.
Import ListNotations.
Open Scope string_scope.
Open Scope list_scope.
Open Scope Z_scope.

(* What a function ends with: a value, a thrown ::precice::Error, std::abort (or
   std::terminate), or undefined behaviour. *)
Inductive R (A : Type) : Type :=
  | Ok (a : A)
  | Throw
  | Terminate
  | UB.
Arguments Ok {A} a.
Arguments Throw {A}.
Arguments Terminate {A}.
Arguments UB {A}.

Definition bind {A B : Type} (x : R A) (f : A -> R B) : R B :=
  match x with Ok a => f a | Throw => Throw | Terminate => Terminate | UB => UB end.

Notation "x <- e ;; f" := (bind e (fun x => f)) (at level 100, e at next level, right associativity).

Definition char := ascii.
Definition NUL : char := Ascii.zero.
Definition BLANK : char := " "%char.
Definition double := Z.

(* src/precice/Participant.hpp:424-1199: the calls, with names as texts, arrays that are
   read as lists, and arrays that are written as their number of entries. *)
Inductive call : Type :=
  | Initialize
  | Advance (dt : double)
  | Finalize
  | GetMeshDimensions (m : list char)
  | GetDataDimensions (m d : list char)
  | IsCouplingOngoing
  | IsTimeWindowComplete
  | GetMaxTimeStepSize
  | RequiresInitialData
  | RequiresWritingCheckpoint
  | RequiresReadingCheckpoint
  | RequiresMeshConnectivityFor (m : list char)
  | ResetMesh (m : list char)
  | SetMeshVertex (m : list char) (position : list double)
  | SetMeshVertices (m : list char) (positions : list double) (ids : nat)
  | GetMeshVertexSize (m : list char)
  | SetMeshEdge (m : list char) (a b : Z)
  | SetMeshEdges (m : list char) (ids : list Z)
  | SetMeshTriangle (m : list char) (a b c : Z)
  | SetMeshTriangles (m : list char) (ids : list Z)
  | SetMeshQuad (m : list char) (a b c d : Z)
  | SetMeshQuads (m : list char) (ids : list Z)
  | SetMeshTetrahedron (m : list char) (a b c d : Z)
  | SetMeshTetrahedra (m : list char) (ids : list Z)
  | WriteData (m d : list char) (ids : list Z) (values : list double)
  | ReadData (m d : list char) (ids : list Z) (t : double) (values : nat)
  | WriteAndMapData (m d : list char) (coordinates values : list double)
  | MapAndReadData (m d : list char) (coordinates : list double) (t : double) (values : nat)
  | RequiresGradientDataFor (m d : list char)
  | WriteGradientData (m d : list char) (ids : list Z) (gradients : list double)
  | SetMeshAccessRegion (m : list char) (box : list double)
  | GetMeshVertexIDsAndCoordinates (m : list char) (ids coordinates : nat)
  | StartProfilingSection (s : list char)
  | StopLastProfilingSection.

(* What a call returns, or writes into the arrays it is given. *)
Inductive ret : Type :=
  | RNone
  | RInt (z : Z)
  | RBool (b : bool)
  | RDouble (d : double)
  | RInts (l : list Z)
  | RDoubles (l : list double)
  | RBoth (l : list Z) (v : list double).

(* src/precice/impl/ParticipantImpl.hpp: any implementation, and MPI_Comm_f2c. *)
Record library : Type := {
  state : Type;
  comm : Type;
  construct : list char -> list char -> Z -> Z -> option comm -> R state;
  implCall : state -> call -> R (state * ret);
  f2c : Z -> comm
}.

(* src/precice/Participant.cpp:11-21 toSV: up to the first NUL *)
Fixpoint toSV (s : list char) : list char :=
  match s with
  | [] => []
  | c :: s' => if Ascii.eqb c NUL then [] else c :: toSV s'
  end.

(* src/precice/Participant.cpp:45-279: every name goes through toSV, all else is handed
   on. *)
Definition handOn (c : call) : call :=
  match c with
  | GetMeshDimensions m => GetMeshDimensions (toSV m)
  | GetDataDimensions m d => GetDataDimensions (toSV m) (toSV d)
  | RequiresMeshConnectivityFor m => RequiresMeshConnectivityFor (toSV m)
  | ResetMesh m => ResetMesh (toSV m)
  | SetMeshVertex m x => SetMeshVertex (toSV m) x
  | SetMeshVertices m x n => SetMeshVertices (toSV m) x n
  | GetMeshVertexSize m => GetMeshVertexSize (toSV m)
  | SetMeshEdge m a b => SetMeshEdge (toSV m) a b
  | SetMeshEdges m l => SetMeshEdges (toSV m) l
  | SetMeshTriangle m a b c => SetMeshTriangle (toSV m) a b c
  | SetMeshTriangles m l => SetMeshTriangles (toSV m) l
  | SetMeshQuad m a b c d => SetMeshQuad (toSV m) a b c d
  | SetMeshQuads m l => SetMeshQuads (toSV m) l
  | SetMeshTetrahedron m a b c d => SetMeshTetrahedron (toSV m) a b c d
  | SetMeshTetrahedra m l => SetMeshTetrahedra (toSV m) l
  | WriteData m d l v => WriteData (toSV m) (toSV d) l v
  | ReadData m d l t n => ReadData (toSV m) (toSV d) l t n
  | WriteAndMapData m d x v => WriteAndMapData (toSV m) (toSV d) x v
  | MapAndReadData m d x t n => MapAndReadData (toSV m) (toSV d) x t n
  | RequiresGradientDataFor m d => RequiresGradientDataFor (toSV m) (toSV d)
  | WriteGradientData m d l v => WriteGradientData (toSV m) (toSV d) l v
  | SetMeshAccessRegion m v => SetMeshAccessRegion (toSV m) v
  | GetMeshVertexIDsAndCoordinates m n k => GetMeshVertexIDsAndCoordinates (toSV m) n k
  | StartProfilingSection s => StartProfilingSection (toSV s)
  | Initialize => Initialize
  | Advance dt => Advance dt
  | Finalize => Finalize
  | IsCouplingOngoing => IsCouplingOngoing
  | IsTimeWindowComplete => IsTimeWindowComplete
  | GetMaxTimeStepSize => GetMaxTimeStepSize
  | RequiresInitialData => RequiresInitialData
  | RequiresWritingCheckpoint => RequiresWritingCheckpoint
  | RequiresReadingCheckpoint => RequiresReadingCheckpoint
  | StopLastProfilingSection => StopLastProfilingSection
  end.

Definition participant (W : library) (p : state W) (c : call) : R (state W * ret) :=
  implCall W p (handOn c).

(* src/precice/Participant.cpp:24-43: the constructors *)
Definition newParticipant (W : library) (name conf : list char) (rank size : Z)
    (k : option (comm W)) : R (state W) :=
  construct W (toSV name) (toSV conf) rank size k.

(* What the caller sees afterwards: the returned value, the variable behind the pointer,
   or the contents of the arrays that are written. *)
Inductive output : Type :=
  | ONone
  | OInt (z : Z)
  | ODouble (d : double)
  | OInts (l : list Z)
  | ODoubles (l : list double)
  | OBoth (l : list Z) (v : list double).

Definition cstr := list char.
Definition iptr := list Z.
Definition dptr := list double.
Record fstr : Type := { text : list char; textLength : Z }.

(* src/precice/span.hpp:401-412: a span from a const char*, std::strlen *)
Fixpoint cstring (b : cstr) : R (list char) :=
  match b with
  | [] => UB
  | c :: b' => if Ascii.eqb c NUL then Ok [] else s <- cstring b' ;; Ok (c :: s)
  end.

(* extras/bindings/fortran/src/preciceFortran.cpp:427-429: the loop, at i = k - 1; the
   character is read before i >= 0 is checked. *)
Fixpoint stripLoop (b : list char) (k : nat) : R nat :=
  match k with
  | O => UB
  | S j =>
      match nth_error b j with
      | None => UB
      | Some c => if Ascii.eqb c BLANK || Ascii.eqb c NUL then stripLoop b j else Ok (S j)
      end
  end.

(* extras/bindings/fortran/src/preciceFortran.cpp:422-431 *)
Definition strippedLength (b : list char) (len : Z) : R nat :=
  if len <? 0 then UB else stripLoop b (Z.to_nat len).

(* extras/bindings/fortran/src/preciceFortran.cpp:433-436 *)
Definition strippedStringView (s : fstr) : R (list char) :=
  n <- strippedLength (text s) (textLength s) ;; Ok (firstn n (text s)).

(* static_cast<unsigned long> *)
Definition toUnsigned (z : Z) : Z := z mod 2 ^ 64.

(* unsigned long * int *)
Definition mulUnsigned (a b : Z) : Z := (a * b) mod 2 ^ 64.

(* int * int *)
Definition mulInt (a b : Z) : R Z :=
  if (- 2 ^ 31 <=? a * b) && (a * b <? 2 ^ 31) then Ok (a * b) else UB.

(* {pointer, n} as a span that is read *)
Definition span {A : Type} (b : list A) (n : Z) : R (list A) :=
  if Z.of_nat (length b) <? n then UB else Ok (firstn (Z.to_nat n) b).

(* {pointer, n} as a span that is written *)
Definition room {A : Type} (b : list A) (n : Z) : R nat :=
  if Z.of_nat (length b) <? n then UB else Ok (Z.to_nat n).

(* The array after its first cells have been written. *)
Definition poke {A : Type} (l b : list A) : list A := l ++ skipn (length l) b.

(* The return types of the methods of Participant. *)
Definition asInt (r : ret) : R Z := match r with RInt z => Ok z | _ => UB end.
Definition asBool (r : ret) : R bool := match r with RBool b => Ok b | _ => UB end.
Definition asDouble (r : ret) : R double := match r with RDouble d => Ok d | _ => UB end.
Definition asInts (r : ret) : R (list Z) := match r with RInts l => Ok l | _ => UB end.
Definition asDoubles (r : ret) : R (list double) := match r with RDoubles l => Ok l | _ => UB end.
Definition asBoth (r : ret) : R (list Z * list double) :=
  match r with RBoth l v => Ok (l, v) | _ => UB end.

(* catch (::precice::Error &e) { std::abort(); }, around every function *)
Definition tryAbort {A : Type} (x : R A) : R A :=
  match x with Throw => Terminate | _ => x end.

(* PRECICE_CHECK(impl != nullptr, errormsg), then impl-> *)
Definition checked {A : Type} (impl : option A) : R A :=
  match impl with Some p => Ok p | None => Throw end.

(* impl-> alone *)
Definition arrow {A : Type} (impl : option A) : R A :=
  match impl with Some p => Ok p | None => UB end.

Section Bindings.
Variable W : library.

(* A function of the bindings: from the static variable impl to its next value. *)
Definition act : Type := option (state W) -> R (option (state W) * output).

(* impl->getMeshDimensions *)
Definition meshDimensions (p : state W) (m : list char) : R (state W * Z) :=
  r <- participant W p (GetMeshDimensions m) ;; z <- asInt (snd r) ;; Ok (fst r, z).

(* impl->getDataDimensions *)
Definition dataDimensions (p : state W) (m d : list char) : R (state W * Z) :=
  r <- participant W p (GetDataDimensions m d) ;; z <- asInt (snd r) ;; Ok (fst r, z).

(* extras/bindings/c/src/preciceC.cpp:28-43 precicec_createParticipant_withCommunicator *)
Definition precicec_createParticipant_withCommunicator (name conf : cstr) (rank size : Z)
    (k : comm W) : act :=
  fun impl => tryAbort (
    match impl with
    | Some _ => Throw
    | None =>
        n <- cstring name ;;
        c <- cstring conf ;;
        p <- newParticipant W n c rank size (Some k) ;;
        Ok (Some p, ONone)
    end).

(* extras/bindings/c/src/preciceC.cpp:45-58 precicec_createParticipant *)
Definition precicec_createParticipant (name conf : cstr) (rank size : Z) : act :=
  fun impl => tryAbort (
    match impl with
    | Some _ => Throw
    | None =>
        n <- cstring name ;;
        c <- cstring conf ;;
        p <- newParticipant W n c rank size None ;;
        Ok (Some p, ONone)
    end).

(* unique_ptr: the assignment destroys the object that was there before, and
   src/precice/impl/ParticipantImpl.cpp:165-171 finalizes it; an error there leaves a
   destructor, which ends the program. *)
Definition replace (impl : option (state W)) (p : state W) : R (option (state W) * output) :=
  match impl with
  | None => Ok (Some p, ONone)
  | Some old =>
      match participant W old Finalize with
      | Ok _ => Ok (Some p, ONone)
      | UB => UB
      | _ => Terminate
      end
  end.

(* extras/bindings/fortran/src/preciceFortran.cpp:44-59 precicef_create_ *)
Definition precicef_create (name conf : fstr) (rank size : Z) : act :=
  fun impl => tryAbort (
    n <- strippedStringView name ;;
    c <- strippedStringView conf ;;
    p <- newParticipant W n c rank size None ;;
    replace impl p).

(* extras/bindings/fortran/src/preciceFortran.cpp:61-93 precicef_create_with_communicator_
   (with MPI) *)
Definition precicef_create_with_communicator (name conf : fstr) (rank size : Z)
    (communicator : Z) : act :=
  fun impl => tryAbort (
    n <- strippedStringView name ;;
    c <- strippedStringView conf ;;
    p <- newParticipant W n c rank size (Some (f2c W communicator)) ;;
    replace impl p).

(* extras/bindings/c/src/preciceC.cpp:60-66 precicec_initialize *)
Definition precicec_initialize : act :=
  fun impl => tryAbort (
    p <- checked impl ;;
    r <- participant W p (Initialize) ;;
    Ok (Some (fst r), ONone)).

(* extras/bindings/fortran/src/preciceFortran.cpp:95-101 precicef_initialize_ *)
Definition precicef_initialize : act :=
  fun impl => tryAbort (
    p <- checked impl ;;
    r <- participant W p (Initialize) ;;
    Ok (Some (fst r), ONone)).

(* extras/bindings/c/src/preciceC.cpp:68-74 precicec_advance *)
Definition precicec_advance (dt : double) : act :=
  fun impl => tryAbort (
    p <- checked impl ;;
    r <- participant W p (Advance dt) ;;
    Ok (Some (fst r), ONone)).

(* extras/bindings/fortran/src/preciceFortran.cpp:103-110 precicef_advance_ *)
Definition precicef_advance (dt : double) : act :=
  fun impl => tryAbort (
    p <- checked impl ;;
    r <- participant W p (Advance dt) ;;
    Ok (Some (fst r), ONone)).

(* extras/bindings/c/src/preciceC.cpp:76-83 precicec_finalize (the object is destroyed; it is finalized already) *)
Definition precicec_finalize : act :=
  fun impl => tryAbort (
    p <- checked impl ;;
    r <- participant W p Finalize ;;
    Ok (None, ONone)).

(* extras/bindings/fortran/src/preciceFortran.cpp:112-119 precicef_finalize_ (the object is destroyed; it is finalized already) *)
Definition precicef_finalize : act :=
  fun impl => tryAbort (
    p <- checked impl ;;
    r <- participant W p Finalize ;;
    Ok (None, ONone)).

(* extras/bindings/c/src/preciceC.cpp:85-92 precicec_getMeshDimensions *)
Definition precicec_getMeshDimensions (m : cstr) : act :=
  fun impl => tryAbort (
    p <- checked impl ;;
    ms <- cstring m ;;
    r <- participant W p (GetMeshDimensions ms) ;;
    z <- asInt (snd r) ;;
    Ok (Some (fst r), OInt z)).

(* extras/bindings/fortran/src/preciceFortran.cpp:121-130 precicef_get_mesh_dimensions_ *)
Definition precicef_get_mesh_dimensions (m : fstr) : act :=
  fun impl => tryAbort (
    p <- checked impl ;;
    ms <- strippedStringView m ;;
    r <- participant W p (GetMeshDimensions ms) ;;
    z <- asInt (snd r) ;;
    Ok (Some (fst r), OInt z)).

(* extras/bindings/c/src/preciceC.cpp:94-101 precicec_getDataDimensions *)
Definition precicec_getDataDimensions (m d : cstr) : act :=
  fun impl => tryAbort (
    p <- checked impl ;;
    ms <- cstring m ;;
    ds <- cstring d ;;
    r <- participant W p (GetDataDimensions ms ds) ;;
    z <- asInt (snd r) ;;
    Ok (Some (fst r), OInt z)).

(* extras/bindings/fortran/src/preciceFortran.cpp:132-143 precicef_get_data_dimensions_ *)
Definition precicef_get_data_dimensions (m d : fstr) : act :=
  fun impl => tryAbort (
    p <- checked impl ;;
    ms <- strippedStringView m ;;
    ds <- strippedStringView d ;;
    r <- participant W p (GetDataDimensions ms ds) ;;
    z <- asInt (snd r) ;;
    Ok (Some (fst r), OInt z)).

(* extras/bindings/c/src/preciceC.cpp:103-113 precicec_isCouplingOngoing *)
Definition precicec_isCouplingOngoing : act :=
  fun impl => tryAbort (
    p <- checked impl ;;
    r <- participant W p (IsCouplingOngoing) ;;
    b <- asBool (snd r) ;;
    Ok (Some (fst r), OInt (if b then 1 else 0))).

(* extras/bindings/fortran/src/preciceFortran.cpp:145-156 precicef_is_coupling_ongoing_ *)
Definition precicef_is_coupling_ongoing : act :=
  fun impl => tryAbort (
    p <- checked impl ;;
    r <- participant W p (IsCouplingOngoing) ;;
    b <- asBool (snd r) ;;
    Ok (Some (fst r), OInt (if b then 1 else 0))).

(* extras/bindings/c/src/preciceC.cpp:115-125 precicec_isTimeWindowComplete *)
Definition precicec_isTimeWindowComplete : act :=
  fun impl => tryAbort (
    p <- checked impl ;;
    r <- participant W p (IsTimeWindowComplete) ;;
    b <- asBool (snd r) ;;
    Ok (Some (fst r), OInt (if b then 1 else 0))).

(* extras/bindings/fortran/src/preciceFortran.cpp:158-169 precicef_is_time_window_complete_ *)
Definition precicef_is_time_window_complete : act :=
  fun impl => tryAbort (
    p <- checked impl ;;
    r <- participant W p (IsTimeWindowComplete) ;;
    b <- asBool (snd r) ;;
    Ok (Some (fst r), OInt (if b then 1 else 0))).

(* extras/bindings/c/src/preciceC.cpp:127-133 precicec_getMaxTimeStepSize (no check that the participant exists) *)
Definition precicec_getMaxTimeStepSize : act :=
  fun impl => tryAbort (
    p <- arrow impl ;;
    r <- participant W p (GetMaxTimeStepSize) ;;
    d <- asDouble (snd r) ;;
    Ok (Some (fst r), ODouble d)).

(* extras/bindings/fortran/src/preciceFortran.cpp:171-178 precicef_get_max_time_step_size_ *)
Definition precicef_get_max_time_step_size : act :=
  fun impl => tryAbort (
    p <- checked impl ;;
    r <- participant W p (GetMaxTimeStepSize) ;;
    d <- asDouble (snd r) ;;
    Ok (Some (fst r), ODouble d)).

(* extras/bindings/c/src/preciceC.cpp:135-142 precicec_requiresInitialData *)
Definition precicec_requiresInitialData : act :=
  fun impl => tryAbort (
    p <- checked impl ;;
    r <- participant W p (RequiresInitialData) ;;
    b <- asBool (snd r) ;;
    Ok (Some (fst r), OInt (if b then 1 else 0))).

(* extras/bindings/fortran/src/preciceFortran.cpp:180-187 precicef_requires_initial_data_ *)
Definition precicef_requires_initial_data : act :=
  fun impl => tryAbort (
    p <- checked impl ;;
    r <- participant W p (RequiresInitialData) ;;
    b <- asBool (snd r) ;;
    Ok (Some (fst r), OInt (if b then 1 else 0))).

(* extras/bindings/c/src/preciceC.cpp:144-151 precicec_requiresWritingCheckpoint *)
Definition precicec_requiresWritingCheckpoint : act :=
  fun impl => tryAbort (
    p <- checked impl ;;
    r <- participant W p (RequiresWritingCheckpoint) ;;
    b <- asBool (snd r) ;;
    Ok (Some (fst r), OInt (if b then 1 else 0))).

(* extras/bindings/fortran/src/preciceFortran.cpp:189-196 precicef_requires_writing_checkpoint_ *)
Definition precicef_requires_writing_checkpoint : act :=
  fun impl => tryAbort (
    p <- checked impl ;;
    r <- participant W p (RequiresWritingCheckpoint) ;;
    b <- asBool (snd r) ;;
    Ok (Some (fst r), OInt (if b then 1 else 0))).

(* extras/bindings/c/src/preciceC.cpp:153-160 precicec_requiresReadingCheckpoint *)
Definition precicec_requiresReadingCheckpoint : act :=
  fun impl => tryAbort (
    p <- checked impl ;;
    r <- participant W p (RequiresReadingCheckpoint) ;;
    b <- asBool (snd r) ;;
    Ok (Some (fst r), OInt (if b then 1 else 0))).

(* extras/bindings/fortran/src/preciceFortran.cpp:198-205 precicef_requires_reading_checkpoint_ *)
Definition precicef_requires_reading_checkpoint : act :=
  fun impl => tryAbort (
    p <- checked impl ;;
    r <- participant W p (RequiresReadingCheckpoint) ;;
    b <- asBool (snd r) ;;
    Ok (Some (fst r), OInt (if b then 1 else 0))).

(* extras/bindings/c/src/preciceC.cpp:162-172 precicec_requiresMeshConnectivityFor *)
Definition precicec_requiresMeshConnectivityFor (m : cstr) : act :=
  fun impl => tryAbort (
    p <- checked impl ;;
    ms <- cstring m ;;
    r <- participant W p (RequiresMeshConnectivityFor ms) ;;
    b <- asBool (snd r) ;;
    Ok (Some (fst r), OInt (if b then 1 else 0))).

(* extras/bindings/fortran/src/preciceFortran.cpp:207-220 precicef_requires_mesh_connectivity_for_ *)
Definition precicef_requires_mesh_connectivity_for (m : fstr) : act :=
  fun impl => tryAbort (
    p <- checked impl ;;
    ms <- strippedStringView m ;;
    r <- participant W p (RequiresMeshConnectivityFor ms) ;;
    b <- asBool (snd r) ;;
    Ok (Some (fst r), OInt (if b then 1 else 0))).

(* extras/bindings/c/src/preciceC.cpp:174-180 precicec_resetMesh *)
Definition precicec_resetMesh (m : cstr) : act :=
  fun impl => tryAbort (
    p <- checked impl ;;
    ms <- cstring m ;;
    r <- participant W p (ResetMesh ms) ;;
    Ok (Some (fst r), ONone)).

(* extras/bindings/fortran/src/preciceFortran.cpp:222-230 precicef_reset_mesh_ *)
Definition precicef_reset_mesh (m : fstr) : act :=
  fun impl => tryAbort (
    p <- checked impl ;;
    ms <- strippedStringView m ;;
    r <- participant W p (ResetMesh ms) ;;
    Ok (Some (fst r), ONone)).

(* extras/bindings/c/src/preciceC.cpp:182-192 precicec_setMeshVertex *)
Definition precicec_setMeshVertex (m : cstr) (position : dptr) : act :=
  fun impl => tryAbort (
    p <- checked impl ;;
    ms <- cstring m ;;
    q <- meshDimensions p ms ;;
    let p := fst q in
    xs <- span position (toUnsigned (snd q)) ;;
    r <- participant W p (SetMeshVertex ms xs) ;;
    z <- asInt (snd r) ;;
    Ok (Some (fst r), OInt z)).

(* extras/bindings/fortran/src/preciceFortran.cpp:232-244 precicef_set_mesh_vertex_ *)
Definition precicef_set_mesh_vertex (m : fstr) (position : dptr) : act :=
  fun impl => tryAbort (
    p <- checked impl ;;
    ms <- strippedStringView m ;;
    q <- meshDimensions p ms ;;
    let p := fst q in
    xs <- span position (toUnsigned (snd q)) ;;
    r <- participant W p (SetMeshVertex ms xs) ;;
    z <- asInt (snd r) ;;
    Ok (Some (fst r), OInt z)).

(* extras/bindings/c/src/preciceC.cpp:194-206 precicec_setMeshVertices *)
Definition precicec_setMeshVertices (m : cstr) (size : Z) (positions : dptr) (ids : iptr) : act :=
  fun impl => tryAbort (
    p <- checked impl ;;
    ms <- cstring m ;;
    q <- meshDimensions p ms ;;
    let p := fst q in
    posSize <- mulInt (snd q) size ;;
    xs <- span positions (toUnsigned posSize) ;;
    n <- room ids (toUnsigned size) ;;
    r <- participant W p (SetMeshVertices ms xs n) ;;
    l <- asInts (snd r) ;;
    Ok (Some (fst r), OInts (poke l ids))).

(* extras/bindings/fortran/src/preciceFortran.cpp:257-270 precicef_set_mesh_vertices_ *)
Definition precicef_set_mesh_vertices (m : fstr) (size : Z) (positions : dptr) (ids : iptr) : act :=
  fun impl => tryAbort (
    p <- checked impl ;;
    ms <- strippedStringView m ;;
    q <- meshDimensions p ms ;;
    let p := fst q in
    posSize <- mulInt (snd q) size ;;
    xs <- span positions (toUnsigned posSize) ;;
    n <- room ids (toUnsigned size) ;;
    r <- participant W p (SetMeshVertices ms xs n) ;;
    l <- asInts (snd r) ;;
    Ok (Some (fst r), OInts (poke l ids))).

(* extras/bindings/c/src/preciceC.cpp:208-216 precicec_getMeshVertexSize *)
Definition precicec_getMeshVertexSize (m : cstr) : act :=
  fun impl => tryAbort (
    p <- checked impl ;;
    ms <- cstring m ;;
    r <- participant W p (GetMeshVertexSize ms) ;;
    z <- asInt (snd r) ;;
    Ok (Some (fst r), OInt z)).

(* extras/bindings/fortran/src/preciceFortran.cpp:246-255 precicef_get_mesh_vertex_size_ *)
Definition precicef_get_mesh_vertex_size (m : fstr) : act :=
  fun impl => tryAbort (
    p <- checked impl ;;
    ms <- strippedStringView m ;;
    r <- participant W p (GetMeshVertexSize ms) ;;
    z <- asInt (snd r) ;;
    Ok (Some (fst r), OInt z)).

(* extras/bindings/c/src/preciceC.cpp:218-227 precicec_setMeshEdge *)
Definition precicec_setMeshEdge (m : cstr) (a b : Z) : act :=
  fun impl => tryAbort (
    p <- checked impl ;;
    ms <- cstring m ;;
    r <- participant W p (SetMeshEdge ms a b) ;;
    Ok (Some (fst r), ONone)).

(* extras/bindings/fortran/src/preciceFortran.cpp:272-282 precicef_set_mesh_edge_ *)
Definition precicef_set_mesh_edge (m : fstr) (a b : Z) : act :=
  fun impl => tryAbort (
    p <- checked impl ;;
    ms <- strippedStringView m ;;
    r <- participant W p (SetMeshEdge ms a b) ;;
    Ok (Some (fst r), ONone)).

(* extras/bindings/c/src/preciceC.cpp:229-239 precicec_setMeshEdges *)
Definition precicec_setMeshEdges (m : cstr) (size : Z) (vertices : iptr) : act :=
  fun impl => tryAbort (
    p <- checked impl ;;
    ms <- cstring m ;;
    l <- span vertices (mulUnsigned (toUnsigned size) 2) ;;
    r <- participant W p (SetMeshEdges ms l) ;;
    Ok (Some (fst r), ONone)).

(* extras/bindings/fortran/src/preciceFortran.cpp:284-295 precicef_set_mesh_edges_ *)
Definition precicef_set_mesh_edges (m : fstr) (size : Z) (vertices : iptr) : act :=
  fun impl => tryAbort (
    p <- checked impl ;;
    ms <- strippedStringView m ;;
    l <- span vertices (mulUnsigned (toUnsigned size) 2) ;;
    r <- participant W p (SetMeshEdges ms l) ;;
    Ok (Some (fst r), ONone)).

(* extras/bindings/c/src/preciceC.cpp:241-251 precicec_setMeshTriangle *)
Definition precicec_setMeshTriangle (m : cstr) (a b c : Z) : act :=
  fun impl => tryAbort (
    p <- checked impl ;;
    ms <- cstring m ;;
    r <- participant W p (SetMeshTriangle ms a b c) ;;
    Ok (Some (fst r), ONone)).

(* extras/bindings/fortran/src/preciceFortran.cpp:297-308 precicef_set_mesh_triangle_ *)
Definition precicef_set_mesh_triangle (m : fstr) (a b c : Z) : act :=
  fun impl => tryAbort (
    p <- checked impl ;;
    ms <- strippedStringView m ;;
    r <- participant W p (SetMeshTriangle ms a b c) ;;
    Ok (Some (fst r), ONone)).

(* extras/bindings/c/src/preciceC.cpp:253-263 precicec_setMeshTriangles *)
Definition precicec_setMeshTriangles (m : cstr) (size : Z) (vertices : iptr) : act :=
  fun impl => tryAbort (
    p <- checked impl ;;
    ms <- cstring m ;;
    l <- span vertices (mulUnsigned (toUnsigned size) 3) ;;
    r <- participant W p (SetMeshTriangles ms l) ;;
    Ok (Some (fst r), ONone)).

(* extras/bindings/fortran/src/preciceFortran.cpp:310-321 precicef_set_mesh_triangles_ *)
Definition precicef_set_mesh_triangles (m : fstr) (size : Z) (vertices : iptr) : act :=
  fun impl => tryAbort (
    p <- checked impl ;;
    ms <- strippedStringView m ;;
    l <- span vertices (mulUnsigned (toUnsigned size) 3) ;;
    r <- participant W p (SetMeshTriangles ms l) ;;
    Ok (Some (fst r), ONone)).

(* extras/bindings/c/src/preciceC.cpp:265-276 precicec_setMeshQuad *)
Definition precicec_setMeshQuad (m : cstr) (a b c e : Z) : act :=
  fun impl => tryAbort (
    p <- checked impl ;;
    ms <- cstring m ;;
    r <- participant W p (SetMeshQuad ms a b c e) ;;
    Ok (Some (fst r), ONone)).

(* extras/bindings/fortran/src/preciceFortran.cpp:323-335 precicef_set_mesh_quad_ *)
Definition precicef_set_mesh_quad (m : fstr) (a b c e : Z) : act :=
  fun impl => tryAbort (
    p <- checked impl ;;
    ms <- strippedStringView m ;;
    r <- participant W p (SetMeshQuad ms a b c e) ;;
    Ok (Some (fst r), ONone)).

(* extras/bindings/c/src/preciceC.cpp:278-288 precicec_setMeshQuads *)
Definition precicec_setMeshQuads (m : cstr) (size : Z) (vertices : iptr) : act :=
  fun impl => tryAbort (
    p <- checked impl ;;
    ms <- cstring m ;;
    l <- span vertices (mulUnsigned (toUnsigned size) 4) ;;
    r <- participant W p (SetMeshQuads ms l) ;;
    Ok (Some (fst r), ONone)).

(* extras/bindings/fortran/src/preciceFortran.cpp:337-348 precicef_set_mesh_quads_ *)
Definition precicef_set_mesh_quads (m : fstr) (size : Z) (vertices : iptr) : act :=
  fun impl => tryAbort (
    p <- checked impl ;;
    ms <- strippedStringView m ;;
    l <- span vertices (mulUnsigned (toUnsigned size) 4) ;;
    r <- participant W p (SetMeshQuads ms l) ;;
    Ok (Some (fst r), ONone)).

(* extras/bindings/c/src/preciceC.cpp:290-301 precicec_setMeshTetrahedron *)
Definition precicec_setMeshTetrahedron (m : cstr) (a b c e : Z) : act :=
  fun impl => tryAbort (
    p <- checked impl ;;
    ms <- cstring m ;;
    r <- participant W p (SetMeshTetrahedron ms a b c e) ;;
    Ok (Some (fst r), ONone)).

(* extras/bindings/fortran/src/preciceFortran.cpp:350-362 precicef_set_mesh_tetrahedron_ *)
Definition precicef_set_mesh_tetrahedron (m : fstr) (a b c e : Z) : act :=
  fun impl => tryAbort (
    p <- checked impl ;;
    ms <- strippedStringView m ;;
    r <- participant W p (SetMeshTetrahedron ms a b c e) ;;
    Ok (Some (fst r), ONone)).

(* extras/bindings/c/src/preciceC.cpp:303-313 precicec_setMeshTetrahedra *)
Definition precicec_setMeshTetrahedra (m : cstr) (size : Z) (vertices : iptr) : act :=
  fun impl => tryAbort (
    p <- checked impl ;;
    ms <- cstring m ;;
    l <- span vertices (mulUnsigned (toUnsigned size) 4) ;;
    r <- participant W p (SetMeshTetrahedra ms l) ;;
    Ok (Some (fst r), ONone)).

(* extras/bindings/fortran/src/preciceFortran.cpp:364-375 precicef_set_mesh_tetrahedra_ *)
Definition precicef_set_mesh_tetrahedra (m : fstr) (size : Z) (vertices : iptr) : act :=
  fun impl => tryAbort (
    p <- checked impl ;;
    ms <- strippedStringView m ;;
    l <- span vertices (mulUnsigned (toUnsigned size) 4) ;;
    r <- participant W p (SetMeshTetrahedra ms l) ;;
    Ok (Some (fst r), ONone)).

(* extras/bindings/c/src/preciceC.cpp:315-327 precicec_writeData *)
Definition precicec_writeData (m d : cstr) (size : Z) (ids : iptr) (values : dptr) : act :=
  fun impl => tryAbort (
    p <- checked impl ;;
    ms <- cstring m ;;
    ds <- cstring d ;;
    q <- dataDimensions p ms ds ;;
    let p := fst q in
    dataSize <- mulInt size (snd q) ;;
    l <- span ids (toUnsigned size) ;;
    v <- span values (toUnsigned dataSize) ;;
    r <- participant W p (WriteData ms ds l v) ;;
    Ok (Some (fst r), ONone)).

(* extras/bindings/fortran/src/preciceFortran.cpp:377-396 precicef_write_data_ *)
Definition precicef_write_data (m d : fstr) (size : Z) (ids : iptr) (values : dptr) : act :=
  fun impl => tryAbort (
    p <- checked impl ;;
    ms <- strippedStringView m ;;
    ds <- strippedStringView d ;;
    q <- dataDimensions p ms ds ;;
    let p := fst q in
    dataSize <- mulInt size (snd q) ;;
    l <- span ids (toUnsigned size) ;;
    v <- span values (toUnsigned dataSize) ;;
    r <- participant W p (WriteData ms ds l v) ;;
    Ok (Some (fst r), ONone)).

(* extras/bindings/c/src/preciceC.cpp:329-342 precicec_readData *)
Definition precicec_readData (m d : cstr) (size : Z) (ids : iptr) (t : double) (values : dptr) : act :=
  fun impl => tryAbort (
    p <- checked impl ;;
    ms <- cstring m ;;
    ds <- cstring d ;;
    q <- dataDimensions p ms ds ;;
    let p := fst q in
    dataSize <- mulInt size (snd q) ;;
    l <- span ids (toUnsigned size) ;;
    n <- room values (toUnsigned dataSize) ;;
    r <- participant W p (ReadData ms ds l t n) ;;
    v <- asDoubles (snd r) ;;
    Ok (Some (fst r), ODoubles (poke v values))).

(* extras/bindings/fortran/src/preciceFortran.cpp:398-420 precicef_read_data_ *)
Definition precicef_read_data (m d : fstr) (size : Z) (ids : iptr) (t : double) (values : dptr) : act :=
  fun impl => tryAbort (
    p <- checked impl ;;
    ms <- strippedStringView m ;;
    ds <- strippedStringView d ;;
    q <- dataDimensions p ms ds ;;
    let p := fst q in
    dataSize <- mulInt size (snd q) ;;
    l <- span ids (toUnsigned size) ;;
    n <- room values (toUnsigned dataSize) ;;
    r <- participant W p (ReadData ms ds l t n) ;;
    v <- asDoubles (snd r) ;;
    Ok (Some (fst r), ODoubles (poke v values))).

(* extras/bindings/c/src/preciceC.cpp:344-357 precicec_writeAndMapData *)
Definition precicec_writeAndMapData (m d : cstr) (size : Z) (coordinates values : dptr) : act :=
  fun impl => tryAbort (
    p <- checked impl ;;
    ms <- cstring m ;;
    ds <- cstring d ;;
    q <- meshDimensions p ms ;;
    let p := fst q in
    coordinatesSize <- mulInt size (snd q) ;;
    q <- dataDimensions p ms ds ;;
    let p := fst q in
    dataSize <- mulInt size (snd q) ;;
    xs <- span coordinates (toUnsigned coordinatesSize) ;;
    v <- span values (toUnsigned dataSize) ;;
    r <- participant W p (WriteAndMapData ms ds xs v) ;;
    Ok (Some (fst r), ONone)).

(* extras/bindings/fortran/src/preciceFortran.cpp:484-504 precicef_write_and_map_data_ *)
Definition precicef_write_and_map_data (m d : fstr) (size : Z) (coordinates values : dptr) : act :=
  fun impl => tryAbort (
    p <- checked impl ;;
    ms <- strippedStringView m ;;
    ds <- strippedStringView d ;;
    q <- meshDimensions p ms ;;
    let p := fst q in
    coordinatesSize <- mulInt size (snd q) ;;
    q <- dataDimensions p ms ds ;;
    let p := fst q in
    dataSize <- mulInt size (snd q) ;;
    xs <- span coordinates (toUnsigned coordinatesSize) ;;
    v <- span values (toUnsigned dataSize) ;;
    r <- participant W p (WriteAndMapData ms ds xs v) ;;
    Ok (Some (fst r), ONone)).

(* extras/bindings/c/src/preciceC.cpp:359-373 precicec_mapAndReadData *)
Definition precicec_mapAndReadData (m d : cstr) (size : Z) (coordinates : dptr) (t : double) (values : dptr) : act :=
  fun impl => tryAbort (
    p <- checked impl ;;
    ms <- cstring m ;;
    ds <- cstring d ;;
    q <- meshDimensions p ms ;;
    let p := fst q in
    coordinatesSize <- mulInt size (snd q) ;;
    q <- dataDimensions p ms ds ;;
    let p := fst q in
    dataSize <- mulInt size (snd q) ;;
    xs <- span coordinates (toUnsigned coordinatesSize) ;;
    n <- room values (toUnsigned dataSize) ;;
    r <- participant W p (MapAndReadData ms ds xs t n) ;;
    v <- asDoubles (snd r) ;;
    Ok (Some (fst r), ODoubles (poke v values))).

(* extras/bindings/fortran/src/preciceFortran.cpp:506-529 precicef_map_and_read_data_ *)
Definition precicef_map_and_read_data (m d : fstr) (size : Z) (coordinates : dptr) (t : double) (values : dptr) : act :=
  fun impl => tryAbort (
    p <- checked impl ;;
    ms <- strippedStringView m ;;
    ds <- strippedStringView d ;;
    q <- meshDimensions p ms ;;
    let p := fst q in
    coordinatesSize <- mulInt size (snd q) ;;
    q <- dataDimensions p ms ds ;;
    let p := fst q in
    dataSize <- mulInt size (snd q) ;;
    xs <- span coordinates (toUnsigned coordinatesSize) ;;
    n <- room values (toUnsigned dataSize) ;;
    r <- participant W p (MapAndReadData ms ds xs t n) ;;
    v <- asDoubles (snd r) ;;
    Ok (Some (fst r), ODoubles (poke v values))).

(* extras/bindings/c/src/preciceC.cpp:375-386 precicec_requiresGradientDataFor *)
Definition precicec_requiresGradientDataFor (m d : cstr) : act :=
  fun impl => tryAbort (
    p <- checked impl ;;
    ms <- cstring m ;;
    ds <- cstring d ;;
    r <- participant W p (RequiresGradientDataFor ms ds) ;;
    b <- asBool (snd r) ;;
    Ok (Some (fst r), OInt (if b then 1 else 0))).

(* extras/bindings/fortran/src/preciceFortran.cpp:445-459 precicef_requires_gradient_data_for_ *)
Definition precicef_requires_gradient_data_for (m d : fstr) : act :=
  fun impl => tryAbort (
    p <- checked impl ;;
    ms <- strippedStringView m ;;
    ds <- strippedStringView d ;;
    r <- participant W p (RequiresGradientDataFor ms ds) ;;
    b <- asBool (snd r) ;;
    Ok (Some (fst r), OInt (if b then 1 else 0))).

(* extras/bindings/c/src/preciceC.cpp:388-401 precicec_writeGradientData *)
Definition precicec_writeGradientData (m d : cstr) (size : Z) (ids : iptr) (gradients : dptr) : act :=
  fun impl => tryAbort (
    p <- checked impl ;;
    ms <- cstring m ;;
    ds <- cstring d ;;
    q1 <- dataDimensions p ms ds ;;
    let p := fst q1 in
    q2 <- meshDimensions p ms ;;
    let p := fst q2 in
    gradientComponents <- mulInt (snd q1) (snd q2) ;;
    gradientSize <- mulInt size gradientComponents ;;
    l <- span ids (toUnsigned size) ;;
    v <- span gradients (toUnsigned gradientSize) ;;
    r <- participant W p (WriteGradientData ms ds l v) ;;
    Ok (Some (fst r), ONone)).

(* extras/bindings/fortran/src/preciceFortran.cpp:461-482 precicef_write_gradient_data_ *)
Definition precicef_write_gradient_data (m d : fstr) (size : Z) (ids : iptr) (gradients : dptr) : act :=
  fun impl => tryAbort (
    p <- checked impl ;;
    ms <- strippedStringView m ;;
    ds <- strippedStringView d ;;
    q1 <- meshDimensions p ms ;;
    let p := fst q1 in
    q2 <- dataDimensions p ms ds ;;
    let p := fst q2 in
    gradientComponents <- mulInt (snd q1) (snd q2) ;;
    gradientSize <- mulInt size gradientComponents ;;
    l <- span ids (toUnsigned size) ;;
    v <- span gradients (toUnsigned gradientSize) ;;
    r <- participant W p (WriteGradientData ms ds l v) ;;
    Ok (Some (fst r), ONone)).

(* extras/bindings/c/src/preciceC.cpp:408-416 precicec_setMeshAccessRegion (no check that the participant exists) *)
Definition precicec_setMeshAccessRegion (m : cstr) (boundingBox : dptr) : act :=
  fun impl => tryAbort (
    p <- arrow impl ;;
    ms <- cstring m ;;
    q <- meshDimensions p ms ;;
    let p := fst q in
    v <- span boundingBox (mulUnsigned (toUnsigned (snd q)) 2) ;;
    r <- participant W p (SetMeshAccessRegion ms v) ;;
    Ok (Some (fst r), ONone)).

(* extras/bindings/fortran/src/preciceFortran.cpp:531-542 precicef_set_mesh_access_region_ *)
Definition precicef_set_mesh_access_region (m : fstr) (boundingBox : dptr) : act :=
  fun impl => tryAbort (
    p <- checked impl ;;
    ms <- strippedStringView m ;;
    q <- meshDimensions p ms ;;
    let p := fst q in
    bbSize <- mulInt (snd q) 2 ;;
    v <- span boundingBox (toUnsigned bbSize) ;;
    r <- participant W p (SetMeshAccessRegion ms v) ;;
    Ok (Some (fst r), ONone)).

(* extras/bindings/c/src/preciceC.cpp:418-428 precicec_getMeshVertexIDsAndCoordinates (no check that the participant exists) *)
Definition precicec_getMeshVertexIDsAndCoordinates (m : cstr) (size : Z) (ids : iptr) (coordinates : dptr) : act :=
  fun impl => tryAbort (
    p <- arrow impl ;;
    ms <- cstring m ;;
    q <- meshDimensions p ms ;;
    let p := fst q in
    coordinatesSize <- mulInt (snd q) size ;;
    n <- room ids (toUnsigned size) ;;
    k <- room coordinates (toUnsigned coordinatesSize) ;;
    r <- participant W p (GetMeshVertexIDsAndCoordinates ms n k) ;;
    l <- asBoth (snd r) ;;
    Ok (Some (fst r), OBoth (poke (fst l) ids) (poke (snd l) coordinates))).

(* extras/bindings/fortran/src/preciceFortran.cpp:544-557 precicef_get_mesh_vertex_ids_and_coordinates_ *)
Definition precicef_get_mesh_vertex_ids_and_coordinates (m : fstr) (size : Z) (ids : iptr) (coordinates : dptr) : act :=
  fun impl => tryAbort (
    p <- checked impl ;;
    ms <- strippedStringView m ;;
    q <- meshDimensions p ms ;;
    let p := fst q in
    coordinatesSize <- mulInt (snd q) size ;;
    n <- room ids (toUnsigned size) ;;
    k <- room coordinates (toUnsigned coordinatesSize) ;;
    r <- participant W p (GetMeshVertexIDsAndCoordinates ms n k) ;;
    l <- asBoth (snd r) ;;
    Ok (Some (fst r), OBoth (poke (fst l) ids) (poke (snd l) coordinates))).

(* extras/bindings/c/src/preciceC.cpp:430-435 precicec_startProfilingSection (no check that the participant exists) *)
Definition precicec_startProfilingSection (s : cstr) : act :=
  fun impl => tryAbort (
    p <- arrow impl ;;
    ss <- cstring s ;;
    r <- participant W p (StartProfilingSection ss) ;;
    Ok (Some (fst r), ONone)).

(* extras/bindings/fortran/src/preciceFortran.cpp:559-568 precicef_start_profiling_section_ *)
Definition precicef_start_profiling_section (s : fstr) : act :=
  fun impl => tryAbort (
    p <- checked impl ;;
    ss <- strippedStringView s ;;
    r <- participant W p (StartProfilingSection ss) ;;
    Ok (Some (fst r), ONone)).

(* extras/bindings/c/src/preciceC.cpp:437-442 precicec_stopLastProfilingSection (no check that the participant exists) *)
Definition precicec_stopLastProfilingSection : act :=
  fun impl => tryAbort (
    p <- arrow impl ;;
    r <- participant W p (StopLastProfilingSection) ;;
    Ok (Some (fst r), ONone)).

(* extras/bindings/fortran/src/preciceFortran.cpp:570-576 precicef_stop_last_profiling_section_ *)
Definition precicef_stop_last_profiling_section : act :=
  fun impl => tryAbort (
    p <- checked impl ;;
    r <- participant W p (StopLastProfilingSection) ;;
    Ok (Some (fst r), ONone)).

(* extras/bindings/fortran/src/preciceFortran.cpp:580-587 precicef_set_vertex_ (deprecated) *)
Definition precicef_set_vertex (m : fstr) (position : dptr) : act :=
  precicef_set_mesh_vertex m position.

(* extras/bindings/fortran/src/preciceFortran.cpp:589-596 precicef_set_edge_ (deprecated) *)
Definition precicef_set_edge (m : fstr) (a b : Z) : act :=
  precicef_set_mesh_edge m a b.

(* extras/bindings/fortran/src/preciceFortran.cpp:598-606 precicef_set_triangle_ (deprecated) *)
Definition precicef_set_triangle (m : fstr) (a b c : Z) : act :=
  precicef_set_mesh_triangle m a b c.

(* extras/bindings/fortran/src/preciceFortran.cpp:608-617 precicef_set_quad_ (deprecated) *)
Definition precicef_set_quad (m : fstr) (a b c e : Z) : act :=
  precicef_set_mesh_quad m a b c e.

(* extras/bindings/fortran/src/preciceFortran.cpp:619-628 precicef_set_tetrahedron (deprecated) *)
Definition precicef_set_tetrahedron (m : fstr) (a b c e : Z) : act :=
  precicef_set_mesh_tetrahedron m a b c e.

(* extras/bindings/fortran/src/preciceFortran.cpp:630-638 precicef_set_vertices_ (deprecated) *)
Definition precicef_set_vertices (m : fstr) (size : Z) (positions : dptr) (ids : iptr) : act :=
  precicef_set_mesh_vertices m size positions ids.

(* The calls a C program can make: the functions of
   extras/bindings/c/include/precice/preciceC.h with their arguments. *)
Inductive ccall : Type :=
  | C_createParticipant_withCommunicator (name conf : cstr) (rank size : Z) (k : comm W)
  | C_createParticipant (name conf : cstr) (rank size : Z)
  | C_initialize
  | C_advance (dt : double)
  | C_finalize
  | C_getMeshDimensions (m : cstr)
  | C_getDataDimensions (m d : cstr)
  | C_isCouplingOngoing
  | C_isTimeWindowComplete
  | C_getMaxTimeStepSize
  | C_requiresInitialData
  | C_requiresWritingCheckpoint
  | C_requiresReadingCheckpoint
  | C_requiresMeshConnectivityFor (m : cstr)
  | C_resetMesh (m : cstr)
  | C_setMeshVertex (m : cstr) (position : dptr)
  | C_setMeshVertices (m : cstr) (size : Z) (positions : dptr) (ids : iptr)
  | C_getMeshVertexSize (m : cstr)
  | C_setMeshEdge (m : cstr) (a b : Z)
  | C_setMeshEdges (m : cstr) (size : Z) (vertices : iptr)
  | C_setMeshTriangle (m : cstr) (a b c : Z)
  | C_setMeshTriangles (m : cstr) (size : Z) (vertices : iptr)
  | C_setMeshQuad (m : cstr) (a b c e : Z)
  | C_setMeshQuads (m : cstr) (size : Z) (vertices : iptr)
  | C_setMeshTetrahedron (m : cstr) (a b c e : Z)
  | C_setMeshTetrahedra (m : cstr) (size : Z) (vertices : iptr)
  | C_writeData (m d : cstr) (size : Z) (ids : iptr) (values : dptr)
  | C_readData (m d : cstr) (size : Z) (ids : iptr) (t : double) (values : dptr)
  | C_writeAndMapData (m d : cstr) (size : Z) (coordinates values : dptr)
  | C_mapAndReadData (m d : cstr) (size : Z) (coordinates : dptr) (t : double) (values : dptr)
  | C_requiresGradientDataFor (m d : cstr)
  | C_writeGradientData (m d : cstr) (size : Z) (ids : iptr) (gradients : dptr)
  | C_setMeshAccessRegion (m : cstr) (boundingBox : dptr)
  | C_getMeshVertexIDsAndCoordinates (m : cstr) (size : Z) (ids : iptr) (coordinates : dptr)
  | C_startProfilingSection (s : cstr)
  | C_stopLastProfilingSection.

Definition cStep (impl : option (state W)) (c : ccall) : R (option (state W) * output) :=
  match c with
  | C_createParticipant_withCommunicator name conf rank size k => precicec_createParticipant_withCommunicator name conf rank size k
  | C_createParticipant name conf rank size => precicec_createParticipant name conf rank size
  | C_initialize => precicec_initialize
  | C_advance dt => precicec_advance dt
  | C_finalize => precicec_finalize
  | C_getMeshDimensions m => precicec_getMeshDimensions m
  | C_getDataDimensions m d => precicec_getDataDimensions m d
  | C_isCouplingOngoing => precicec_isCouplingOngoing
  | C_isTimeWindowComplete => precicec_isTimeWindowComplete
  | C_getMaxTimeStepSize => precicec_getMaxTimeStepSize
  | C_requiresInitialData => precicec_requiresInitialData
  | C_requiresWritingCheckpoint => precicec_requiresWritingCheckpoint
  | C_requiresReadingCheckpoint => precicec_requiresReadingCheckpoint
  | C_requiresMeshConnectivityFor m => precicec_requiresMeshConnectivityFor m
  | C_resetMesh m => precicec_resetMesh m
  | C_setMeshVertex m position => precicec_setMeshVertex m position
  | C_setMeshVertices m size positions ids => precicec_setMeshVertices m size positions ids
  | C_getMeshVertexSize m => precicec_getMeshVertexSize m
  | C_setMeshEdge m a b => precicec_setMeshEdge m a b
  | C_setMeshEdges m size vertices => precicec_setMeshEdges m size vertices
  | C_setMeshTriangle m a b c => precicec_setMeshTriangle m a b c
  | C_setMeshTriangles m size vertices => precicec_setMeshTriangles m size vertices
  | C_setMeshQuad m a b c e => precicec_setMeshQuad m a b c e
  | C_setMeshQuads m size vertices => precicec_setMeshQuads m size vertices
  | C_setMeshTetrahedron m a b c e => precicec_setMeshTetrahedron m a b c e
  | C_setMeshTetrahedra m size vertices => precicec_setMeshTetrahedra m size vertices
  | C_writeData m d size ids values => precicec_writeData m d size ids values
  | C_readData m d size ids t values => precicec_readData m d size ids t values
  | C_writeAndMapData m d size coordinates values => precicec_writeAndMapData m d size coordinates values
  | C_mapAndReadData m d size coordinates t values => precicec_mapAndReadData m d size coordinates t values
  | C_requiresGradientDataFor m d => precicec_requiresGradientDataFor m d
  | C_writeGradientData m d size ids gradients => precicec_writeGradientData m d size ids gradients
  | C_setMeshAccessRegion m boundingBox => precicec_setMeshAccessRegion m boundingBox
  | C_getMeshVertexIDsAndCoordinates m size ids coordinates => precicec_getMeshVertexIDsAndCoordinates m size ids coordinates
  | C_startProfilingSection s => precicec_startProfilingSection s
  | C_stopLastProfilingSection => precicec_stopLastProfilingSection
  end impl.

(* The calls a Fortran program can make: the functions of
   extras/bindings/fortran/include/precice/preciceFortran.hpp with their arguments. *)
Inductive fcall : Type :=
  | F_create (name conf : fstr) (rank size : Z)
  | F_create_with_communicator (name conf : fstr) (rank size : Z) (communicator : Z)
  | F_initialize
  | F_advance (dt : double)
  | F_finalize
  | F_get_mesh_dimensions (m : fstr)
  | F_get_data_dimensions (m d : fstr)
  | F_is_coupling_ongoing
  | F_is_time_window_complete
  | F_get_max_time_step_size
  | F_requires_initial_data
  | F_requires_writing_checkpoint
  | F_requires_reading_checkpoint
  | F_requires_mesh_connectivity_for (m : fstr)
  | F_reset_mesh (m : fstr)
  | F_set_mesh_vertex (m : fstr) (position : dptr)
  | F_set_mesh_vertices (m : fstr) (size : Z) (positions : dptr) (ids : iptr)
  | F_get_mesh_vertex_size (m : fstr)
  | F_set_mesh_edge (m : fstr) (a b : Z)
  | F_set_mesh_edges (m : fstr) (size : Z) (vertices : iptr)
  | F_set_mesh_triangle (m : fstr) (a b c : Z)
  | F_set_mesh_triangles (m : fstr) (size : Z) (vertices : iptr)
  | F_set_mesh_quad (m : fstr) (a b c e : Z)
  | F_set_mesh_quads (m : fstr) (size : Z) (vertices : iptr)
  | F_set_mesh_tetrahedron (m : fstr) (a b c e : Z)
  | F_set_mesh_tetrahedra (m : fstr) (size : Z) (vertices : iptr)
  | F_write_data (m d : fstr) (size : Z) (ids : iptr) (values : dptr)
  | F_read_data (m d : fstr) (size : Z) (ids : iptr) (t : double) (values : dptr)
  | F_write_and_map_data (m d : fstr) (size : Z) (coordinates values : dptr)
  | F_map_and_read_data (m d : fstr) (size : Z) (coordinates : dptr) (t : double) (values : dptr)
  | F_requires_gradient_data_for (m d : fstr)
  | F_write_gradient_data (m d : fstr) (size : Z) (ids : iptr) (gradients : dptr)
  | F_set_mesh_access_region (m : fstr) (boundingBox : dptr)
  | F_get_mesh_vertex_ids_and_coordinates (m : fstr) (size : Z) (ids : iptr) (coordinates : dptr)
  | F_start_profiling_section (s : fstr)
  | F_stop_last_profiling_section
  | F_set_vertex (m : fstr) (position : dptr)
  | F_set_edge (m : fstr) (a b : Z)
  | F_set_triangle (m : fstr) (a b c : Z)
  | F_set_quad (m : fstr) (a b c e : Z)
  | F_set_tetrahedron (m : fstr) (a b c e : Z)
  | F_set_vertices (m : fstr) (size : Z) (positions : dptr) (ids : iptr).

Definition fStep (impl : option (state W)) (c : fcall) : R (option (state W) * output) :=
  match c with
  | F_create name conf rank size => precicef_create name conf rank size
  | F_create_with_communicator name conf rank size communicator => precicef_create_with_communicator name conf rank size communicator
  | F_initialize => precicef_initialize
  | F_advance dt => precicef_advance dt
  | F_finalize => precicef_finalize
  | F_get_mesh_dimensions m => precicef_get_mesh_dimensions m
  | F_get_data_dimensions m d => precicef_get_data_dimensions m d
  | F_is_coupling_ongoing => precicef_is_coupling_ongoing
  | F_is_time_window_complete => precicef_is_time_window_complete
  | F_get_max_time_step_size => precicef_get_max_time_step_size
  | F_requires_initial_data => precicef_requires_initial_data
  | F_requires_writing_checkpoint => precicef_requires_writing_checkpoint
  | F_requires_reading_checkpoint => precicef_requires_reading_checkpoint
  | F_requires_mesh_connectivity_for m => precicef_requires_mesh_connectivity_for m
  | F_reset_mesh m => precicef_reset_mesh m
  | F_set_mesh_vertex m position => precicef_set_mesh_vertex m position
  | F_set_mesh_vertices m size positions ids => precicef_set_mesh_vertices m size positions ids
  | F_get_mesh_vertex_size m => precicef_get_mesh_vertex_size m
  | F_set_mesh_edge m a b => precicef_set_mesh_edge m a b
  | F_set_mesh_edges m size vertices => precicef_set_mesh_edges m size vertices
  | F_set_mesh_triangle m a b c => precicef_set_mesh_triangle m a b c
  | F_set_mesh_triangles m size vertices => precicef_set_mesh_triangles m size vertices
  | F_set_mesh_quad m a b c e => precicef_set_mesh_quad m a b c e
  | F_set_mesh_quads m size vertices => precicef_set_mesh_quads m size vertices
  | F_set_mesh_tetrahedron m a b c e => precicef_set_mesh_tetrahedron m a b c e
  | F_set_mesh_tetrahedra m size vertices => precicef_set_mesh_tetrahedra m size vertices
  | F_write_data m d size ids values => precicef_write_data m d size ids values
  | F_read_data m d size ids t values => precicef_read_data m d size ids t values
  | F_write_and_map_data m d size coordinates values => precicef_write_and_map_data m d size coordinates values
  | F_map_and_read_data m d size coordinates t values => precicef_map_and_read_data m d size coordinates t values
  | F_requires_gradient_data_for m d => precicef_requires_gradient_data_for m d
  | F_write_gradient_data m d size ids gradients => precicef_write_gradient_data m d size ids gradients
  | F_set_mesh_access_region m boundingBox => precicef_set_mesh_access_region m boundingBox
  | F_get_mesh_vertex_ids_and_coordinates m size ids coordinates => precicef_get_mesh_vertex_ids_and_coordinates m size ids coordinates
  | F_start_profiling_section s => precicef_start_profiling_section s
  | F_stop_last_profiling_section => precicef_stop_last_profiling_section
  | F_set_vertex m position => precicef_set_vertex m position
  | F_set_edge m a b => precicef_set_edge m a b
  | F_set_triangle m a b c => precicef_set_triangle m a b c
  | F_set_quad m a b c e => precicef_set_quad m a b c e
  | F_set_tetrahedron m a b c e => precicef_set_tetrahedron m a b c e
  | F_set_vertices m size positions ids => precicef_set_vertices m size positions ids
  end impl.

End Bindings.

(* How a program ends: it has made all its calls, or one of them did not return. *)
Inductive ending (S : Type) : Type :=
  | Running (s : S)
  | Thrown
  | Aborted
  | Undefined.
Arguments Running {S} s.
Arguments Thrown {S}.
Arguments Aborted {S}.
Arguments Undefined {S}.

(* A program: one call after the other, with what it sees. *)
Fixpoint run {S C O : Type} (step : S -> C -> R (S * O)) (s : S) (cs : list C) : list O * ending S :=
  match cs with
  | [] => ([], Running s)
  | c :: cs' =>
      match step s c with
      | Ok (s', o) => let (os, e) := run step s' cs' in (o :: os, e)
      | Throw => ([], Thrown)
      | Terminate => ([], Aborted)
      | UB => ([], Undefined)
      end
  end.

(* std::strncpy: n characters, filled up with NUL *)
Fixpoint strncpy (src : list char) (n : nat) : list char :=
  match n with
  | O => []
  | S n' =>
      match src with
      | [] => NUL :: strncpy [] n'
      | c :: src' => if Ascii.eqb c NUL then NUL :: strncpy [] n' else c :: strncpy src' n'
      end
  end.

(* extras/bindings/c/src/preciceC.cpp:403-406 *)
Definition precicec_getVersionInformation (version : list char) : list char := version.

(* extras/bindings/fortran/src/preciceFortran.cpp:438-443 *)
Definition precicef_get_version_information (version : list char) (b : fstr) : R (list char) :=
  if textLength b <? 0 then UB
  else if Z.of_nat (length (text b)) <? textLength b then UB
  else Ok (poke (strncpy version (Z.to_nat (textLength b))) (text b)).

(* extras/bindings/fortran/include/precice/preciceFortran.hpp:35-772: the names of the
   functions in the library *)
Definition fortranSymbols : list string :=
  [ "precicef_create_";
    "precicef_create_with_communicator_";
    "precicef_initialize_";
    "precicef_advance_";
    "precicef_finalize_";
    "precicef_requires_reading_checkpoint_";
    "precicef_requires_writing_checkpoint_";
    "precicef_get_mesh_dimensions_";
    "precicef_get_data_dimensions_";
    "precicef_is_coupling_ongoing_";
    "precicef_is_time_window_complete_";
    "precicef_get_max_time_step_size_";
    "precicef_requires_mesh_connectivity_for_";
    "precicef_reset_mesh_";
    "precicef_set_mesh_vertex_";
    "precicef_set_vertex_";
    "precicef_get_mesh_vertex_size_";
    "precicef_set_mesh_vertices_";
    "precicef_set_vertices_";
    "precicef_set_mesh_edge_";
    "precicef_set_edge_";
    "precicef_set_mesh_edges_";
    "precicef_set_mesh_triangle_";
    "precicef_set_triangle_";
    "precicef_set_mesh_triangles_";
    "precicef_set_mesh_quad_";
    "precicef_set_quad_";
    "precicef_set_mesh_quads_";
    "precicef_set_mesh_tetrahedron_";
    "precicef_set_tetrahedron";
    "precicef_set_mesh_tetrahedra_";
    "precicef_requires_initial_data_";
    "precicef_write_data_";
    "precicef_read_data_";
    "precicef_write_and_map_data_";
    "precicef_map_and_read_data_";
    "precicef_set_mesh_access_region_";
    "precicef_get_mesh_vertex_ids_and_coordinates_";
    "precicef_requires_gradient_data_for_";
    "precicef_write_gradient_data_";
    "precicef_start_profiling_section_";
    "precicef_stop_last_profiling_section_";
    "precicef_get_version_information_" ].
