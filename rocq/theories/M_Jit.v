(** Just-in-time mapping: reading and writing at coordinates that are given with each
    call (ParticipantImpl::mapAndReadData and writeAndMapData, ReadDataContext,
    WriteDataContext, mapping/impl/MappingDataCache, NearestNeighborMapping,
    CoarseGrainingMapping).  Numbers are rationals: rounding is left out.  One data of
    a received mesh for reading and one for writing, one rank. *)
From Coq Require Import ZArith QArith Qabs Bool List Arith.
From Verif Require Import M_Mesh M_Quad M_Map.
Import ListNotations.
Open Scope nat_scope.

(** math::NUMERICAL_ZERO_DIFFERENCE, math/differences.hpp: equals, smallerEquals *)
Definition jitEps : Q := (1 # 100000000000000)%Q.
Definition jitEquals (a b : Q) : bool := Qle_bool (Qabs (a - b)) jitEps.
Definition jitSmallerEquals (a b : Q) : bool := Qle_bool a (b + jitEps).

(** the participant: the received mesh, the time, the largest next time step, the
    samples that Data::sampleAtTime gives, the cache of the data that is read, the
    buffer of the data that is written and the samples stored for sending *)
Record state := ST {
  s_mesh : mesh;
  s_time : Q;
  s_max : Q;
  s_wave : Q -> list Q;
  s_cacheTime : Q;
  s_cache : list Q;
  s_buffer : list Q;
  s_stored : list (Q * list Q)
}.
(** what happens in advance: the step; whether it reaches the end of the window; and
    the time, the largest step, the received samples and the mesh thereafter *)
Record advance := AD {
  a_dt : Q;
  a_atEnd : bool;
  a_time : Q;
  a_max : Q;
  a_wave : Q -> list Q;
  a_remesh : option mesh
}.
Inductive op := Read (relative : Q) (coordinates : list (list Q))
              | Write (coordinates : list (list Q)) (values : list Q)
              | Advance (a : advance).

Section Jit.
Variable dims : nat.
(** CouplingScheme::requiresSubsteps *)
Variable substeps : bool.
(** mapConsistentAt: mesh, coordinates, cached values; mapConservativeAt: mesh,
    coordinates, values, target *)
Variable readAt : mesh -> list (list Q) -> list Q -> option (list Q).
Variable writeAt : mesh -> list (list Q) -> list Q -> list Q -> option (list Q).

Definition isNil {A} (l : list A) : bool := match l with [] => true | _ => false end.
Definition zeroBuffer (m : mesh) : list Q := repeat 0%Q (length (m_verts m) * dims).

(** ReadDataContext.cpp 43-61, MappingDataCache.hpp 84-108, Mapping.cpp 270-279 *)
Definition mapAndReadValues (s : state) (readTime : Q) (coordinates : list (list Q)) : option (state * list Q) :=
  let s' := if jitEquals (s_cacheTime s) readTime then s
            else ST (s_mesh s) (s_time s) (s_max s) (s_wave s) readTime (s_wave s readTime) (s_buffer s) (s_stored s) in
  match readAt (s_mesh s') coordinates (s_cache s') with
  | Some out => Some (s', out)
  | None => None
  end.
(** ParticipantImpl.cpp 1257-1323.  None is a PRECICE_CHECK that fails.  The check of
    the access region and of the size of values is left out: [values] is an output. *)
Definition mapAndReadData (s : state) (relative : Q) (coordinates : list (list Q)) : option (state * list Q) :=
  if negb (jitSmallerEquals relative (s_max s)) then None
  else if negb (Qle_bool 0 relative) then None
  else if isNil (m_verts (s_mesh s)) then None
  else if isNil coordinates then Some (s, [])
  else mapAndReadValues s (s_time s + relative)%Q coordinates.
(** ParticipantImpl.cpp 1325-1386, WriteDataContext.cpp 42-57.  As above; the number of
    columns in line 52 is that of the components, only the first ones are used. *)
Definition writeAndMapData (s : state) (coordinates : list (list Q)) (values : list Q) : option state :=
  if isNil coordinates && isNil values then Some s
  else if negb (length coordinates * dims =? length values) then None
  else if isNil (m_verts (s_mesh s)) then None
  else match writeAt (s_mesh s) coordinates values (s_buffer s) with
       | Some b => Some (ST (s_mesh s) (s_time s) (s_max s) (s_wave s) (s_cacheTime s) (s_cache s) b (s_stored s))
       | None => None
       end.

(** ParticipantImpl.cpp 302-319, 1603-1621: the mesh is received again, the buffers get
    its size and are set to zero *)
Definition remesh (s : state) (m : mesh) : state :=
  ST m (s_time s) (s_max s) (s_wave s) (s_cacheTime s) (s_cache s) (zeroBuffer m) (s_stored s).
(** 468-494, 545-568: the buffer is stored if it is needed; it is zero afterwards.  The
    cache of written data is not used by these mappings. *)
Definition handleDataBeforeAdvance (s : state) (atEnd : bool) (timeSteppedTo : Q) : state :=
  ST (s_mesh s) timeSteppedTo (s_max s) (s_wave s) (s_cacheTime s) (s_cache s)
     (map (fun _ => 0%Q) (s_buffer s))
     (if atEnd || substeps then s_stored s ++ [(timeSteppedTo, s_buffer s)] else s_stored s).
(** 496-543, MappingDataCache.hpp 104-108 *)
Definition handleDataAfterAdvance (s : state) (a : advance) : state :=
  if a_atEnd a then ST (s_mesh s) (a_time a) (a_max a) (a_wave a) (-1)%Q (s_cache s) (s_buffer s) (s_stored s)
  else ST (s_mesh s) (s_time s) (a_max a) (s_wave s) (s_cacheTime s) (s_cache s) (s_buffer s) (s_stored s).
(** 392-465: the order of these *)
Definition doAdvance (s : state) (a : advance) : state :=
  let s1 := if a_atEnd a then match a_remesh a with Some m => remesh s m | None => s end else s in
  handleDataAfterAdvance (handleDataBeforeAdvance s1 (a_atEnd a) (s_time s1 + a_dt a)%Q) a.

Definition doOp (s : state) (x : op) : option state :=
  match x with
  | Read relative coordinates => option_map fst (mapAndReadData s relative coordinates)
  | Write coordinates values => writeAndMapData s coordinates values
  | Advance a => Some (doAdvance s a)
  end.
Fixpoint doOps (s : state) (l : list op) : option state :=
  match l with
  | [] => Some s
  | x :: r => match doOp s x with Some s' => doOps s' r | None => None end
  end.
(** after initialize: MappingDataCache.hpp 82-85, ParticipantImpl.cpp 1603-1621 *)
Definition initialized (m : mesh) (max : Q) (wave : Q -> list Q) : state := ST m 0 max wave (-1)%Q [] (zeroBuffer m) [].
End Jit.

(** * The mappings *)
Definition toVertex (x : list Q) : vertex := MkVertex x (-1) true false.
(** NearestNeighborMapping.cpp 29-48 *)
Definition nnReadAt (cv : mesh -> list Q -> nat) (dims : nat) (m : mesh) (coordinates : list (list Q)) (cache : list Q) : option (list Q) :=
  mapNNConsistentAt cv m dims (map toVertex coordinates) cache (repeat 0%Q (length coordinates * dims)).
Definition nnWriteAt (cv : mesh -> list Q -> nat) (dims : nat) (m : mesh) (coordinates : list (list Q)) (source target : list Q) : option (list Q) :=
  mapNNConservativeAt cv m dims (map toVertex coordinates) source target.

(** CoarseGrainingMapping.cpp 82-85 *)
Definition cgReadAt (m : mesh) (coordinates : list (list Q)) (cache : list Q) : option (list Q) := None.
Section CoarseGraining.
(** Index.cpp getVerticesInsideBox with the radius of the function *)
Variable inside : mesh -> list Q -> list nat.
(** the function, applied to the square of the distance *)
Variable kernel : Q -> Q.
Definition squaredDifference (a b : list Q) : Q := fold_right (fun p s => ((fst p - snd p) * (fst p - snd p) + s)%Q) 0%Q (combine a b).
(** CoarseGrainingMapping.cpp 87-102 *)
Fixpoint cgSpread (dims : nat) (m : mesh) (x c : list Q) (dest : list nat) (target : list Q) : option (list Q) :=
  match dest with
  | [] => Some target
  | d :: r =>
      match nth_error (m_verts m) d with
      | None => None
      | Some v =>
          match addCol dims d (map (Qmult (kernel (squaredDifference (v_coords v) x))) c) target with
          | None => None
          | Some t => cgSpread dims m x c r t
          end
      end
  end.
Fixpoint cgWrite (dims : nat) (m : mesh) (i : nat) (coordinates : list (list Q)) (source target : list Q) : option (list Q) :=
  match coordinates with
  | [] => Some target
  | x :: r =>
      match segment dims i source with
      | None => None
      | Some c => match cgSpread dims m x c (inside m x) target with
                  | None => None
                  | Some t => cgWrite dims m (S i) r source t
                  end
      end
  end.
Definition cgWriteAt (dims : nat) (m : mesh) (coordinates : list (list Q)) (source target : list Q) : option (list Q) :=
  cgWrite dims m 0 coordinates source target.
End CoarseGraining.
