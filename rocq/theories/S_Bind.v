(* What the C and Fortran bindings are expected to do: a program written against them
   is the program written in C++. *)
From Coq Require Import Ascii List ZArith.
From Verif Require Import M_Bind.
Import ListNotations.
Open Scope Z_scope.

(* A C++ program creates a participant and makes calls. After finalize() it has none. *)
Inductive pcall (W : library) : Type :=
  | Create (name conf : list char) (rank size : Z) (k : option (comm W))
  | Call (c : call).
Arguments Create {W} name conf rank size k.
Arguments Call {W} c.

(* There is at most one participant. Creating a second one is an error, and so is a call
   without one. *)
Definition cxxStep (W : library) (s : option (state W)) (c : pcall W) :
    R (option (state W) * ret) :=
  match s, c with
  | None, Create name conf rank size k =>
      match newParticipant W name conf rank size k with
      | Ok p => Ok (Some p, RNone)
      | Throw => Throw
      | Terminate => Terminate
      | UB => UB
      end
  | Some p, Call c =>
      match participant W p c with
      | Ok (p', r) => Ok (match c with Finalize => None | _ => Some p' end, r)
      | Throw => Throw
      | Terminate => Terminate
      | UB => UB
      end
  | _, _ => Throw
  end.

(* An error is thrown in C++ and ends a program that uses the bindings. *)
Definition inBindings {S : Type} (e : ending S) : ending S :=
  match e with Thrown => Aborted | _ => e end.

(* What is known of the library. Dimensions are between 1 and 3, asking for them changes
   nothing; calls with a mesh or with data whose dimensions are refused are refused;
   results have the type of the method, and arrays are filled. *)
Definition returns (c : call) (r : ret) : Prop :=
  match c with
  | GetMeshDimensions _ | GetDataDimensions _ _ | SetMeshVertex _ _ | GetMeshVertexSize _ =>
      exists z, r = RInt z
  | IsCouplingOngoing | IsTimeWindowComplete | RequiresInitialData | RequiresWritingCheckpoint
  | RequiresReadingCheckpoint | RequiresMeshConnectivityFor _ | RequiresGradientDataFor _ _ =>
      exists b, r = RBool b
  | GetMaxTimeStepSize => exists d, r = RDouble d
  | SetMeshVertices _ _ n => exists l, r = RInts l /\ length l = n
  | ReadData _ _ _ _ n | MapAndReadData _ _ _ _ n => exists v, r = RDoubles v /\ length v = n
  | GetMeshVertexIDsAndCoordinates _ n k =>
      exists l v, r = RBoth l v /\ length l = n /\ length v = k
  | _ => r = RNone
  end.

Definition usesMesh (m : list char) (c : call) : Prop :=
  match c with
  | SetMeshVertex m' _ | SetMeshVertices m' _ _ | WriteAndMapData m' _ _ _
  | MapAndReadData m' _ _ _ _ | WriteGradientData m' _ _ _ | SetMeshAccessRegion m' _
  | GetMeshVertexIDsAndCoordinates m' _ _ => m' = m
  | _ => False
  end.

Definition usesData (m d : list char) (c : call) : Prop :=
  match c with
  | WriteData m' d' _ _ | ReadData m' d' _ _ _ | WriteAndMapData m' d' _ _
  | MapAndReadData m' d' _ _ _ | WriteGradientData m' d' _ _ => m' = m /\ d' = d
  | _ => False
  end.

Record sane (W : library) : Prop := {
  answers : forall p c, (exists x, implCall W p c = Ok x) \/ implCall W p c = Throw;
  typed : forall p c p' r, implCall W p c = Ok (p', r) -> returns c r;
  meshQuery : forall p m p' r, implCall W p (GetMeshDimensions m) = Ok (p', r) ->
    p' = p /\ exists d, r = RInt d /\ 1 <= d <= 3;
  dataQuery : forall p m d p' r, implCall W p (GetDataDimensions m d) = Ok (p', r) ->
    p' = p /\ exists k, r = RInt k /\ 1 <= k <= 3;
  meshRefused : forall p m c, implCall W p (GetMeshDimensions m) = Throw ->
    usesMesh m c -> implCall W p c = Throw;
  dataRefused : forall p m d c, implCall W p (GetDataDimensions m d) = Throw ->
    usesData m d c -> implCall W p c = Throw
}.

Definition meshDim (W : library) (p : state W) (m : list char) (d : Z) : Prop :=
  exists p', participant W p (GetMeshDimensions m) = Ok (p', RInt d).
Definition dataDim (W : library) (p : state W) (m n : list char) (d : Z) : Prop :=
  exists p', participant W p (GetDataDimensions m n) = Ok (p', RInt d).

Definition len {A : Type} (l : list A) : Z := Z.of_nat (length l).

(* The arrays of a call have as many entries as [size] vertices (or elements) need, and
   the numbers of entries are numbers of type int. *)
Definition isInt (z : Z) : Prop := 0 <= z < 2 ^ 31.

Definition fits (W : library) (p : state W) (c : call) (size : Z) : Prop :=
  match c with
  | SetMeshVertex m x => forall d, meshDim W p m d -> len x = d
  | SetMeshAccessRegion m x => forall d, meshDim W p m d -> len x = 2 * d
  | SetMeshVertices m x n =>
      isInt size /\ Z.of_nat n = size /\
      (forall d, meshDim W p m d -> len x = d * size /\ isInt (len x))
  | GetMeshVertexIDsAndCoordinates m n k =>
      isInt size /\ Z.of_nat n = size /\
      (forall d, meshDim W p m d -> Z.of_nat k = d * size /\ isInt (d * size))
  | SetMeshEdges _ l => isInt size /\ len l = 2 * size
  | SetMeshTriangles _ l => isInt size /\ len l = 3 * size
  | SetMeshQuads _ l | SetMeshTetrahedra _ l => isInt size /\ len l = 4 * size
  | WriteData m d l v =>
      isInt size /\ len l = size /\
      (forall k, dataDim W p m d k -> len v = k * size /\ isInt (len v))
  | ReadData m d l _ n =>
      isInt size /\ len l = size /\
      (forall k, dataDim W p m d k -> Z.of_nat n = k * size /\ isInt (k * size))
  | WriteAndMapData m d x v =>
      isInt size /\
      (forall k, meshDim W p m k -> len x = k * size /\ isInt (len x)) /\
      (forall k, dataDim W p m d k -> len v = k * size /\ isInt (len v))
  | MapAndReadData m d x _ n =>
      isInt size /\
      (forall k, meshDim W p m k -> len x = k * size /\ isInt (len x)) /\
      (forall k, dataDim W p m d k -> Z.of_nat n = k * size /\ isInt (k * size))
  | WriteGradientData m d l v =>
      isInt size /\ len l = size /\
      (forall j k, meshDim W p m j -> dataDim W p m d k ->
         len v = j * k * size /\ isInt (len v))
  | _ => True
  end.

(* Along the C++ program every call fits, and is allowed. *)
Fixpoint proper (W : library) (allowed : option (state W) -> pcall W -> Prop)
    (s : option (state W)) (cs : list (pcall W * Z)) : Prop :=
  match cs with
  | [] => True
  | (c, size) :: cs' =>
      allowed s c /\
      (forall p c', s = Some p -> c = Call c' -> fits W p c' size) /\
      (forall s' r, cxxStep W s c = Ok (s', r) -> proper W allowed s' cs')
  end.

(* The functions of the C bindings that do not check whether there is a participant are
   called with one only. *)
Definition cAllowed (W : library) (s : option (state W)) (c : pcall W) : Prop :=
  s = None ->
  match c with
  | Call GetMaxTimeStepSize | Call (SetMeshAccessRegion _ _)
  | Call (GetMeshVertexIDsAndCoordinates _ _ _) | Call (StartProfilingSection _)
  | Call StopLastProfilingSection => False
  | _ => True
  end.

(* A Fortran program does not create a second participant. *)
Definition fAllowed (W : library) (s : option (state W)) (c : pcall W) : Prop :=
  s <> None -> match c with Create _ _ _ _ _ => False | _ => True end.

(* A text in C: its characters, a NUL, and whatever follows in memory. *)
Definition cName (n : list char) (b : cstr) : Prop :=
  ~ In NUL n /\ exists rest, b = n ++ NUL :: rest.

(* A text in Fortran: its characters, padded with blanks (or NULs) up to the length of the
   variable, and whatever follows in memory. *)
Definition fName (n : list char) (s : fstr) : Prop :=
  ~ In NUL n /\
  (exists n' c, n = n' ++ [c] /\ c <> BLANK) /\
  exists pad rest,
    text s = n ++ pad ++ rest /\
    (forall c, In c pad -> c = BLANK \/ c = NUL) /\
    textLength s = len (n ++ pad).

(* An array that is read: its entries, and whatever follows in memory. *)
Definition begins {A : Type} (l b : list A) : Prop := exists rest, b = l ++ rest.

(* An array that is written has enough entries. *)
Definition holds {A : Type} (n : nat) (b : list A) : Prop := (n <= length b)%nat.

(* The array after its first entries have been written: the other ones are as before. *)
Fixpoint overwritten {A : Type} (l b : list A) : list A :=
  match l, b with
  | x :: l', _ :: b' => x :: overwritten l' b'
  | _, _ => b
  end.

Definition simple (r : ret) : output :=
  match r with
  | RInt z => OInt z
  | RBool true => OInt 1
  | RBool false => OInt 0
  | RDouble d => ODouble d
  | _ => ONone
  end.

(* How a C++ call is written in C: [size] is the number of vertices (or elements). *)
Inductive cWrites (W : library) : pcall W -> Z -> ccall W -> Prop :=
  | cCreate : forall name conf name1 conf1 rank n size, cName name name1 -> cName conf conf1 ->
      cWrites W (Create name conf rank n None) size (C_createParticipant W name1 conf1 rank n)
  | cCreateComm : forall name conf name1 conf1 rank n k size, cName name name1 -> cName conf conf1 ->
      cWrites W (Create name conf rank n (Some k)) size
        (C_createParticipant_withCommunicator W name1 conf1 rank n k)
  | cw_initialize : forall size,
      cWrites W (Call Initialize) size (C_initialize W)
  | cw_advance : forall dt size,
      cWrites W (Call (Advance dt)) size (C_advance W dt)
  | cw_finalize : forall size,
      cWrites W (Call Finalize) size (C_finalize W)
  | cw_getMeshDimensions : forall m m1 size,
      cName m m1 ->
      cWrites W (Call (GetMeshDimensions m)) size (C_getMeshDimensions W m1)
  | cw_getDataDimensions : forall m d m1 d1 size,
      cName m m1 -> cName d d1 ->
      cWrites W (Call (GetDataDimensions m d)) size (C_getDataDimensions W m1 d1)
  | cw_isCouplingOngoing : forall size,
      cWrites W (Call IsCouplingOngoing) size (C_isCouplingOngoing W)
  | cw_isTimeWindowComplete : forall size,
      cWrites W (Call IsTimeWindowComplete) size (C_isTimeWindowComplete W)
  | cw_getMaxTimeStepSize : forall size,
      cWrites W (Call GetMaxTimeStepSize) size (C_getMaxTimeStepSize W)
  | cw_requiresInitialData : forall size,
      cWrites W (Call RequiresInitialData) size (C_requiresInitialData W)
  | cw_requiresWritingCheckpoint : forall size,
      cWrites W (Call RequiresWritingCheckpoint) size (C_requiresWritingCheckpoint W)
  | cw_requiresReadingCheckpoint : forall size,
      cWrites W (Call RequiresReadingCheckpoint) size (C_requiresReadingCheckpoint W)
  | cw_requiresMeshConnectivityFor : forall m m1 size,
      cName m m1 ->
      cWrites W (Call (RequiresMeshConnectivityFor m)) size (C_requiresMeshConnectivityFor W m1)
  | cw_resetMesh : forall m m1 size,
      cName m m1 ->
      cWrites W (Call (ResetMesh m)) size (C_resetMesh W m1)
  | cw_setMeshVertex : forall m x m1 x1 size,
      cName m m1 -> begins x x1 ->
      cWrites W (Call (SetMeshVertex m x)) size (C_setMeshVertex W m1 x1)
  | cw_setMeshVertices : forall m x n m1 x1 i1 size,
      cName m m1 -> begins x x1 -> holds n i1 ->
      cWrites W (Call (SetMeshVertices m x n)) size (C_setMeshVertices W m1 size x1 i1)
  | cw_getMeshVertexSize : forall m m1 size,
      cName m m1 ->
      cWrites W (Call (GetMeshVertexSize m)) size (C_getMeshVertexSize W m1)
  | cw_setMeshEdge : forall m a b m1 size,
      cName m m1 ->
      cWrites W (Call (SetMeshEdge m a b)) size (C_setMeshEdge W m1 a b)
  | cw_setMeshEdges : forall m l m1 l1 size,
      cName m m1 -> begins l l1 ->
      cWrites W (Call (SetMeshEdges m l)) size (C_setMeshEdges W m1 size l1)
  | cw_setMeshTriangle : forall m a b c m1 size,
      cName m m1 ->
      cWrites W (Call (SetMeshTriangle m a b c)) size (C_setMeshTriangle W m1 a b c)
  | cw_setMeshTriangles : forall m l m1 l1 size,
      cName m m1 -> begins l l1 ->
      cWrites W (Call (SetMeshTriangles m l)) size (C_setMeshTriangles W m1 size l1)
  | cw_setMeshQuad : forall m a b c e m1 size,
      cName m m1 ->
      cWrites W (Call (SetMeshQuad m a b c e)) size (C_setMeshQuad W m1 a b c e)
  | cw_setMeshQuads : forall m l m1 l1 size,
      cName m m1 -> begins l l1 ->
      cWrites W (Call (SetMeshQuads m l)) size (C_setMeshQuads W m1 size l1)
  | cw_setMeshTetrahedron : forall m a b c e m1 size,
      cName m m1 ->
      cWrites W (Call (SetMeshTetrahedron m a b c e)) size (C_setMeshTetrahedron W m1 a b c e)
  | cw_setMeshTetrahedra : forall m l m1 l1 size,
      cName m m1 -> begins l l1 ->
      cWrites W (Call (SetMeshTetrahedra m l)) size (C_setMeshTetrahedra W m1 size l1)
  | cw_writeData : forall m d l v m1 d1 l1 v1 size,
      cName m m1 -> cName d d1 -> begins l l1 -> begins v v1 ->
      cWrites W (Call (WriteData m d l v)) size (C_writeData W m1 d1 size l1 v1)
  | cw_readData : forall m d l t n m1 d1 l1 v1 size,
      cName m m1 -> cName d d1 -> begins l l1 -> holds n v1 ->
      cWrites W (Call (ReadData m d l t n)) size (C_readData W m1 d1 size l1 t v1)
  | cw_writeAndMapData : forall m d x v m1 d1 x1 v1 size,
      cName m m1 -> cName d d1 -> begins x x1 -> begins v v1 ->
      cWrites W (Call (WriteAndMapData m d x v)) size (C_writeAndMapData W m1 d1 size x1 v1)
  | cw_mapAndReadData : forall m d x t n m1 d1 x1 v1 size,
      cName m m1 -> cName d d1 -> begins x x1 -> holds n v1 ->
      cWrites W (Call (MapAndReadData m d x t n)) size (C_mapAndReadData W m1 d1 size x1 t v1)
  | cw_requiresGradientDataFor : forall m d m1 d1 size,
      cName m m1 -> cName d d1 ->
      cWrites W (Call (RequiresGradientDataFor m d)) size (C_requiresGradientDataFor W m1 d1)
  | cw_writeGradientData : forall m d l v m1 d1 l1 v1 size,
      cName m m1 -> cName d d1 -> begins l l1 -> begins v v1 ->
      cWrites W (Call (WriteGradientData m d l v)) size (C_writeGradientData W m1 d1 size l1 v1)
  | cw_setMeshAccessRegion : forall m x m1 x1 size,
      cName m m1 -> begins x x1 ->
      cWrites W (Call (SetMeshAccessRegion m x)) size (C_setMeshAccessRegion W m1 x1)
  | cw_getMeshVertexIDsAndCoordinates : forall m n k m1 i1 x1 size,
      cName m m1 -> holds n i1 -> holds k x1 ->
      cWrites W (Call (GetMeshVertexIDsAndCoordinates m n k)) size (C_getMeshVertexIDsAndCoordinates W m1 size i1 x1)
  | cw_startProfilingSection : forall s s1 size,
      cName s s1 ->
      cWrites W (Call (StartProfilingSection s)) size (C_startProfilingSection W s1)
  | cw_stopLastProfilingSection : forall size,
      cWrites W (Call StopLastProfilingSection) size (C_stopLastProfilingSection W).

(* What a C program sees of the result. *)
Definition cSeen (W : library) (c : ccall W) (r : ret) : output :=
  match c, r with
  | C_setMeshVertices _ _ _ _ ids, RInts l => OInts (overwritten l ids)
  | C_readData _ _ _ _ _ _ values, RDoubles v | C_mapAndReadData _ _ _ _ _ _ values, RDoubles v =>
      ODoubles (overwritten v values)
  | C_getMeshVertexIDsAndCoordinates _ _ _ ids coordinates, RBoth l v =>
      OBoth (overwritten l ids) (overwritten v coordinates)
  | _, _ => simple r
  end.

(* How a C++ call is written in Fortran, also with the old names of the procedures. *)
Inductive fWrites (W : library) : pcall W -> Z -> fcall -> Prop :=
  | fCreate : forall name conf name1 conf1 rank n size, fName name name1 -> fName conf conf1 ->
      fWrites W (Create name conf rank n None) size (F_create name1 conf1 rank n)
  | fCreateComm : forall name conf name1 conf1 rank n k size, fName name name1 -> fName conf conf1 ->
      fWrites W (Create name conf rank n (Some (f2c W k))) size
        (F_create_with_communicator name1 conf1 rank n k)
  | fw_initialize : forall size,
      fWrites W (Call Initialize) size F_initialize
  | fw_advance : forall dt size,
      fWrites W (Call (Advance dt)) size (F_advance dt)
  | fw_finalize : forall size,
      fWrites W (Call Finalize) size F_finalize
  | fw_get_mesh_dimensions : forall m m1 size,
      fName m m1 ->
      fWrites W (Call (GetMeshDimensions m)) size (F_get_mesh_dimensions m1)
  | fw_get_data_dimensions : forall m d m1 d1 size,
      fName m m1 -> fName d d1 ->
      fWrites W (Call (GetDataDimensions m d)) size (F_get_data_dimensions m1 d1)
  | fw_is_coupling_ongoing : forall size,
      fWrites W (Call IsCouplingOngoing) size F_is_coupling_ongoing
  | fw_is_time_window_complete : forall size,
      fWrites W (Call IsTimeWindowComplete) size F_is_time_window_complete
  | fw_get_max_time_step_size : forall size,
      fWrites W (Call GetMaxTimeStepSize) size F_get_max_time_step_size
  | fw_requires_initial_data : forall size,
      fWrites W (Call RequiresInitialData) size F_requires_initial_data
  | fw_requires_writing_checkpoint : forall size,
      fWrites W (Call RequiresWritingCheckpoint) size F_requires_writing_checkpoint
  | fw_requires_reading_checkpoint : forall size,
      fWrites W (Call RequiresReadingCheckpoint) size F_requires_reading_checkpoint
  | fw_requires_mesh_connectivity_for : forall m m1 size,
      fName m m1 ->
      fWrites W (Call (RequiresMeshConnectivityFor m)) size (F_requires_mesh_connectivity_for m1)
  | fw_reset_mesh : forall m m1 size,
      fName m m1 ->
      fWrites W (Call (ResetMesh m)) size (F_reset_mesh m1)
  | fw_set_mesh_vertex : forall m x m1 x1 size,
      fName m m1 -> begins x x1 ->
      fWrites W (Call (SetMeshVertex m x)) size (F_set_mesh_vertex m1 x1)
  | fw_old_set_mesh_vertex : forall m x m1 x1 size,
      fName m m1 -> begins x x1 ->
      fWrites W (Call (SetMeshVertex m x)) size (F_set_vertex m1 x1)
  | fw_set_mesh_vertices : forall m x n m1 x1 i1 size,
      fName m m1 -> begins x x1 -> holds n i1 ->
      fWrites W (Call (SetMeshVertices m x n)) size (F_set_mesh_vertices m1 size x1 i1)
  | fw_old_set_mesh_vertices : forall m x n m1 x1 i1 size,
      fName m m1 -> begins x x1 -> holds n i1 ->
      fWrites W (Call (SetMeshVertices m x n)) size (F_set_vertices m1 size x1 i1)
  | fw_get_mesh_vertex_size : forall m m1 size,
      fName m m1 ->
      fWrites W (Call (GetMeshVertexSize m)) size (F_get_mesh_vertex_size m1)
  | fw_set_mesh_edge : forall m a b m1 size,
      fName m m1 ->
      fWrites W (Call (SetMeshEdge m a b)) size (F_set_mesh_edge m1 a b)
  | fw_old_set_mesh_edge : forall m a b m1 size,
      fName m m1 ->
      fWrites W (Call (SetMeshEdge m a b)) size (F_set_edge m1 a b)
  | fw_set_mesh_edges : forall m l m1 l1 size,
      fName m m1 -> begins l l1 ->
      fWrites W (Call (SetMeshEdges m l)) size (F_set_mesh_edges m1 size l1)
  | fw_set_mesh_triangle : forall m a b c m1 size,
      fName m m1 ->
      fWrites W (Call (SetMeshTriangle m a b c)) size (F_set_mesh_triangle m1 a b c)
  | fw_old_set_mesh_triangle : forall m a b c m1 size,
      fName m m1 ->
      fWrites W (Call (SetMeshTriangle m a b c)) size (F_set_triangle m1 a b c)
  | fw_set_mesh_triangles : forall m l m1 l1 size,
      fName m m1 -> begins l l1 ->
      fWrites W (Call (SetMeshTriangles m l)) size (F_set_mesh_triangles m1 size l1)
  | fw_set_mesh_quad : forall m a b c e m1 size,
      fName m m1 ->
      fWrites W (Call (SetMeshQuad m a b c e)) size (F_set_mesh_quad m1 a b c e)
  | fw_old_set_mesh_quad : forall m a b c e m1 size,
      fName m m1 ->
      fWrites W (Call (SetMeshQuad m a b c e)) size (F_set_quad m1 a b c e)
  | fw_set_mesh_quads : forall m l m1 l1 size,
      fName m m1 -> begins l l1 ->
      fWrites W (Call (SetMeshQuads m l)) size (F_set_mesh_quads m1 size l1)
  | fw_set_mesh_tetrahedron : forall m a b c e m1 size,
      fName m m1 ->
      fWrites W (Call (SetMeshTetrahedron m a b c e)) size (F_set_mesh_tetrahedron m1 a b c e)
  | fw_old_set_mesh_tetrahedron : forall m a b c e m1 size,
      fName m m1 ->
      fWrites W (Call (SetMeshTetrahedron m a b c e)) size (F_set_tetrahedron m1 a b c e)
  | fw_set_mesh_tetrahedra : forall m l m1 l1 size,
      fName m m1 -> begins l l1 ->
      fWrites W (Call (SetMeshTetrahedra m l)) size (F_set_mesh_tetrahedra m1 size l1)
  | fw_write_data : forall m d l v m1 d1 l1 v1 size,
      fName m m1 -> fName d d1 -> begins l l1 -> begins v v1 ->
      fWrites W (Call (WriteData m d l v)) size (F_write_data m1 d1 size l1 v1)
  | fw_read_data : forall m d l t n m1 d1 l1 v1 size,
      fName m m1 -> fName d d1 -> begins l l1 -> holds n v1 ->
      fWrites W (Call (ReadData m d l t n)) size (F_read_data m1 d1 size l1 t v1)
  | fw_write_and_map_data : forall m d x v m1 d1 x1 v1 size,
      fName m m1 -> fName d d1 -> begins x x1 -> begins v v1 ->
      fWrites W (Call (WriteAndMapData m d x v)) size (F_write_and_map_data m1 d1 size x1 v1)
  | fw_map_and_read_data : forall m d x t n m1 d1 x1 v1 size,
      fName m m1 -> fName d d1 -> begins x x1 -> holds n v1 ->
      fWrites W (Call (MapAndReadData m d x t n)) size (F_map_and_read_data m1 d1 size x1 t v1)
  | fw_requires_gradient_data_for : forall m d m1 d1 size,
      fName m m1 -> fName d d1 ->
      fWrites W (Call (RequiresGradientDataFor m d)) size (F_requires_gradient_data_for m1 d1)
  | fw_write_gradient_data : forall m d l v m1 d1 l1 v1 size,
      fName m m1 -> fName d d1 -> begins l l1 -> begins v v1 ->
      fWrites W (Call (WriteGradientData m d l v)) size (F_write_gradient_data m1 d1 size l1 v1)
  | fw_set_mesh_access_region : forall m x m1 x1 size,
      fName m m1 -> begins x x1 ->
      fWrites W (Call (SetMeshAccessRegion m x)) size (F_set_mesh_access_region m1 x1)
  | fw_get_mesh_vertex_ids_and_coordinates : forall m n k m1 i1 x1 size,
      fName m m1 -> holds n i1 -> holds k x1 ->
      fWrites W (Call (GetMeshVertexIDsAndCoordinates m n k)) size (F_get_mesh_vertex_ids_and_coordinates m1 size i1 x1)
  | fw_start_profiling_section : forall s s1 size,
      fName s s1 ->
      fWrites W (Call (StartProfilingSection s)) size (F_start_profiling_section s1)
  | fw_stop_last_profiling_section : forall size,
      fWrites W (Call StopLastProfilingSection) size F_stop_last_profiling_section.

(* What a Fortran program sees of the result. *)
Definition fSeen (c : fcall) (r : ret) : output :=
  match c, r with
  | F_set_mesh_vertices _ _ _ ids, RInts l | F_set_vertices _ _ _ ids, RInts l =>
      OInts (overwritten l ids)
  | F_read_data _ _ _ _ _ values, RDoubles v | F_map_and_read_data _ _ _ _ _ values, RDoubles v =>
      ODoubles (overwritten v values)
  | F_get_mesh_vertex_ids_and_coordinates _ _ ids coordinates, RBoth l v =>
      OBoth (overwritten l ids) (overwritten v coordinates)
  | _, _ => simple r
  end.

(* The names in a call. *)
Definition texts (c : call) : list (list char) :=
  match c with
  | GetMeshDimensions m | RequiresMeshConnectivityFor m | ResetMesh m | SetMeshVertex m _
  | SetMeshVertices m _ _ | GetMeshVertexSize m | SetMeshEdge m _ _ | SetMeshEdges m _
  | SetMeshTriangle m _ _ _ | SetMeshTriangles m _ | SetMeshQuad m _ _ _ _ | SetMeshQuads m _
  | SetMeshTetrahedron m _ _ _ _ | SetMeshTetrahedra m _ | SetMeshAccessRegion m _
  | GetMeshVertexIDsAndCoordinates m _ _ | StartProfilingSection m => [m]
  | GetDataDimensions m d | WriteData m d _ _ | ReadData m d _ _ _ | WriteAndMapData m d _ _
  | MapAndReadData m d _ _ _ | RequiresGradientDataFor m d | WriteGradientData m d _ _ => [m; d]
  | _ => []
  end.
