(** How preCICE reads a configuration file: which participants, meshes, data,
    mappings, connections and coupling schemes are accepted, and what each
    participant then sets up.

    Simplifications.  Names are natural numbers: the code only compares them.
    The tags of a file come in the order data, meshes, connections,
    participants, coupling schemes; inside a participant in the order meshes,
    write-data, read-data, mappings, actions, watch points.  (A tag that names
    something defined later is refused by the code, so other orders accept
    less.)  A data field is identified by its mesh and its name, which is what
    its identifier stands for: every mesh gets a new identifier for every one
    of its data (mesh/config/MeshConfiguration.cpp:77).  Parameters of
    mappings, communications, exports, time limits and step sizes are left
    out. *)

From Coq Require Import List Bool Arith.
Import ListNotations.

(** What reading ends with: [Refused] is a PRECICE_CHECK or PRECICE_ERROR, and
    [Broken] a PRECICE_ASSERT that fails or, in release builds, the undefined
    behaviour behind it. *)
Inductive res (A : Type) : Type :=
| Good (a : A)
| Refused
| Broken.
Arguments Good {A} a.
Arguments Refused {A}.
Arguments Broken {A}.

Definition bind {A B} (r : res A) (k : A -> res B) : res B :=
  match r with Good a => k a | Refused => Refused | Broken => Broken end.

(** PRECICE_CHECK (logging/LogMacros.hpp:19-25). *)
Definition check {A} (b : bool) (r : res A) : res A := if b then r else Refused.

(** PRECICE_ASSERT (utils/assertion.hpp). *)
Definition ensure {A} (b : bool) (r : res A) : res A := if b then r else Broken.

(** Goes through a list from the front and keeps a state. *)
Fixpoint each {X S} (f : S -> X -> res S) (xs : list X) (s : S) : res S :=
  match xs with
  | [] => Good s
  | x :: more => bind (f s x) (each f more)
  end.

Definition isIn (x : nat) (xs : list nat) : bool := existsb (Nat.eqb x) xs.

Definition same2 (a b : nat * nat) : bool :=
  (fst a =? fst b) && (snd a =? snd b).

Definition isIn2 (x : nat * nat) (xs : list (nat * nat)) : bool := existsb (same2 x) xs.

(** ** What is in the file *)

(** [<mesh name dimensions> <use-data/> ... </mesh>]. *)
Record meshTag := MeshTag {
  m_name : nat;
  m_dims : nat;
  m_data : list nat
}.

(** [<provide-mesh/>] and [<receive-mesh from api-access/>]. *)
Inductive useTag :=
| Provide (mesh : nat)
| Receive (mesh from : nat) (access : bool).

Inductive direction := Reads | Writes.

Inductive constraint := Consistent | Conservative | Scaled.

(** [<mapping:... direction from to constraint/>]; a mesh left out makes the
    mapping a just-in-time mapping.  [mp_justInTime] says whether the type of
    the mapping supports that. *)
Record mapTag := MapTag {
  mp_dir : direction;
  mp_from : option nat;
  mp_to : option nat;
  mp_constraint : constraint;
  mp_justInTime : bool
}.

(** [<participant name>]: the data are pairs of a mesh and a data name, the
    watch points pairs of a mesh and the number of coordinates given. *)
Record partTag := PartTag {
  p_name : nat;
  p_uses : list useTag;
  p_writes : list (nat * nat);
  p_reads : list (nat * nat);
  p_maps : list mapTag;
  p_actions : list nat;
  p_watches : list (nat * nat)
}.

Inductive schemeKind :=
| SerialExplicit | ParallelExplicit | SerialImplicit | ParallelImplicit | Multi.

(** [<exchange data mesh from to initialize substeps/>]. *)
Record exchange := Exchange {
  e_data : nat;
  e_mesh : nat;
  e_from : nat;
  e_to : nat;
  e_initialize : bool;
  e_substeps : bool
}.

(** [<coupling-scheme:...>]: the participants, each with its [control] flag;
    the exchanges; the pairs of mesh and data of the convergence measures and
    of the acceleration, if there is one; and the maximum of iterations. *)
Record schemeTag := SchemeTag {
  s_kind : schemeKind;
  s_members : list (nat * bool);
  s_exchanges : list exchange;
  s_measures : list (nat * nat);
  s_acceleration : option (list (nat * nat));
  s_maxIterations : option nat
}.

(** The file.  [d_data] has the waveform degree of every data name. *)
Record file := File {
  d_remeshing : bool;
  d_data : list (nat * nat);
  d_meshes : list meshTag;
  d_m2ns : list (nat * nat);
  d_parts : list partTag;
  d_schemes : list schemeTag
}.

(** Who reads the file: the name of the participant and its number of ranks
    (xml::ConfigurationContext). *)
Record reader := Reader { r_name : nat; r_size : nat }.

(** ** Data and meshes *)

(** DataConfiguration::addData (mesh/config/DataConfiguration.cpp:167-181). *)
Definition addData (known : list (nat * nat)) (d : nat * nat) : res (list (nat * nat)) :=
  check (negb (isIn (fst d) (map fst known))) (Good (known ++ [d])).

(** MeshConfiguration::getMesh (mesh/config/MeshConfiguration.cpp:144-153):
    the first mesh of that name. *)
Definition getMesh (meshes : list meshTag) (n : nat) : option meshTag :=
  find (fun m => m_name m =? n) meshes.

Definition hasMesh (meshes : list meshTag) (n : nat) : bool :=
  match getMesh meshes n with Some _ => true | None => false end.

(** Mesh::hasDataName (mesh/Mesh.cpp:216-222) of the mesh with that name. *)
Definition hasData (meshes : list meshTag) (mesh data : nat) : bool :=
  match getMesh meshes mesh with Some m => isIn data (m_data m) | None => false end.

Definition dataOf (meshes : list meshTag) (mesh : nat) : list nat :=
  match getMesh meshes mesh with Some m => m_data m | None => [] end.

(** A [<use-data/>] of a mesh: MeshConfiguration::xmlTagCallback
    (mesh/config/MeshConfiguration.cpp:71-90) and Mesh::createData
    (mesh/Mesh.cpp:173-192). *)
Definition useData (known : list (nat * nat)) (have : list nat) (d : nat) : res (list nat) :=
  check (isIn d (map fst known))
    (check (negb (isIn d have)) (Good (have ++ [d]))).

(** MeshConfiguration::xmlTagCallback (mesh/config/MeshConfiguration.cpp:64-70)
    with insertMeshToMeshDimensionsMap (168-174): that the name is new is only
    asserted. *)
Definition addMesh (known : list (nat * nat)) (meshes : list meshTag) (m : meshTag)
  : res (list meshTag) :=
  ensure (negb (hasMesh meshes (m_name m)))
    (bind (each (useData known) (m_data m) [])
       (fun ds => Good (meshes ++ [MeshTag (m_name m) (m_dims m) ds]))).

(** ** Connections *)

(** Between two participants, in either order. *)
Definition linked (a b : nat) (c : nat * nat) : bool := same2 (a, b) c || same2 (b, a) c.

(** M2NConfiguration::isM2NConfigured (m2n/config/M2NConfiguration.cpp:123-129). *)
Definition isConnected (m2ns : list (nat * nat)) (a b : nat) : bool := existsb (linked a b) m2ns.

(** M2NConfiguration::checkDuplicates (m2n/config/M2NConfiguration.cpp:207-218). *)
Definition addM2N (m2ns : list (nat * nat)) (c : nat * nat) : res (list (nat * nat)) :=
  check (negb (isConnected m2ns (fst c) (snd c))) (Good (m2ns ++ [c])).

(** ** Participants *)

Definition useMesh (u : useTag) : nat :=
  match u with Provide m => m | Receive m _ _ => m end.

(** ParticipantState::isMeshUsed, isMeshProvided, isMeshReceived and
    isDirectAccessAllowed (precice/impl/ParticipantState.cpp:217-252). *)
Definition isUsed (us : list useTag) (m : nat) : bool := isIn m (map useMesh us).

Definition isProvided (us : list useTag) (m : nat) : bool :=
  existsb (fun u => match u with Provide x => x =? m | _ => false end) us.

Definition isReceived (us : list useTag) (m : nat) : bool :=
  existsb (fun u => match u with Receive x _ _ => x =? m | _ => false end) us.

Definition isAccessed (us : list useTag) (m : nat) : bool :=
  match find (fun u => match u with Receive x _ _ => x =? m | _ => false end) us with
  | Some (Receive _ _ a) => a
  | _ => false
  end.

(** ParticipantConfiguration::xmlTagCallback
    (precice/config/ParticipantConfiguration.cpp:266-305) and
    ParticipantState::provideMesh and receiveMesh
    (precice/impl/ParticipantState.cpp:60-96, 434-441).  That the participant a
    mesh is received from exists and provides it is not looked at. *)
Definition addUse (meshes : list meshTag) (self : nat) (us : list useTag) (u : useTag)
  : res (list useTag) :=
  check (hasMesh meshes (useMesh u))
    (check (match u with Provide _ => true | Receive _ from _ => negb (self =? from) end)
       (check (negb (isUsed us (useMesh u))) (Good (us ++ [u])))).

(** [<write-data/>] and [<read-data/>]
    (precice/config/ParticipantConfiguration.cpp:306-323, 412-422) and
    ParticipantState::checkDuplicatedData (precice/impl/ParticipantState.cpp:443-450);
    [other] are the data of the other direction.  That the participant uses
    the mesh is not looked at. *)
Definition addField (meshes : list meshTag) (other have : list (nat * nat)) (f : nat * nat)
  : res (list (nat * nat)) :=
  check (hasMesh meshes (fst f))
    (check (hasData meshes (fst f) (snd f))
       (check (negb (isIn2 f have) && negb (isIn2 f other)) (Good (have ++ [f])))).

Definition sameName (a b : option nat) : bool :=
  match a, b with
  | Some x, Some y => x =? y
  | None, None => true
  | _, _ => false
  end.

Definition sameDir (a b : direction) : bool :=
  match a, b with Reads, Reads => true | Writes, Writes => true | _, _ => false end.

Definition isNone (a : option nat) : bool := match a with None => true | Some _ => false end.

(** MappingConfiguration::checkDuplicates
    (mapping/config/MappingConfiguration.cpp:797-817).  All just-in-time meshes
    have the same name. *)
Definition newMap (old : list mapTag) (m : mapTag) : bool :=
  forallb (fun o => negb (sameName (mp_to m) (mp_to o) && sameName (mp_from m) (mp_from o))) old
  && forallb (fun o =>
       negb (sameName (mp_to m) (mp_to o)
             && (sameDir (mp_dir m) Writes && sameDir (mp_dir o) Writes)
             && (isNone (mp_from m) || isNone (mp_from o)))) old.

Definition dims (meshes : list meshTag) (n : nat) : nat :=
  match getMesh meshes n with Some m => m_dims m | None => 0 end.

(** MappingConfiguration::xmlTagCallback (mapping/config/MappingConfiguration.cpp:425-435,
    491-493) and createMapping (625-665). *)
Definition addMap (meshes : list meshTag) (old : list mapTag) (m : mapTag) : res (list mapTag) :=
  match mp_from m, mp_to m with
  | None, None => Refused
  | Some f, None =>
      check (sameDir (mp_dir m) Reads
             && match mp_constraint m with Consistent => true | _ => false end)
        (check (hasMesh meshes f)
           (check (mp_justInTime m) (check (newMap old m) (Good (old ++ [m])))))
  | None, Some t =>
      check (sameDir (mp_dir m) Writes
             && match mp_constraint m with Conservative => true | _ => false end)
        (check (hasMesh meshes t)
           (check (mp_justInTime m) (check (newMap old m) (Good (old ++ [m])))))
  | Some f, Some t =>
      check (hasMesh meshes f)
        (check (hasMesh meshes t)
           (check (dims meshes f =? dims meshes t)
              (check (newMap old m) (Good (old ++ [m])))))
  end.

Definition fields (meshes : list meshTag) (n : option nat) : list nat :=
  match n with Some m => dataOf meshes m | None => [] end.

(** The data names that both have, and that the participant uses in that
    direction: none may be left (precice/config/ParticipantConfiguration.cpp:812-838). *)
Definition clashFree (used : list nat) (a b : list nat) : bool :=
  forallb (fun d => negb (isIn d b && isIn d used)) a.

(** ParticipantConfiguration::checkIllDefinedMappings
    (precice/config/ParticipantConfiguration.cpp:797-842), with the mappings
    that are still to be compared.  It ends at the mapping itself. *)
Fixpoint wellDefined (meshes : list meshTag) (used : list nat) (m : mapTag) (all : list mapTag)
  : bool :=
  match all with
  | [] => true
  | o :: more =>
      let sameTo := sameName (mp_to m) (mp_to o) && negb (isNone (mp_to m)) in
      let sameFrom := sameName (mp_from m) (mp_from o) && negb (isNone (mp_from m)) in
      if sameTo && sameFrom then true
      else (if sameTo
            then clashFree used (fields meshes (mp_from m)) (fields meshes (mp_from o))
            else true)
           && wellDefined meshes used m more
  end.

(** ParticipantConfiguration::finishParticipantConfiguration
    (precice/config/ParticipantConfiguration.cpp:434-479): the checks of one
    mapping. *)
Definition mapFits (meshes : list meshTag) (r : reader) (self : nat) (us : list useTag)
    (writes reads : list (nat * nat)) (all : list mapTag) (m : mapTag) : res unit :=
  let used := map snd (match mp_dir m with Writes => writes | Reads => reads end) in
  check (wellDefined meshes used m all)
    (check
       (match mp_dir m, mp_from m, mp_to m with
        | Reads, Some f, Some t => isReceived us f && isProvided us t
        | Reads, Some f, None => isReceived us f
        | Reads, None, _ => false
        | Writes, Some f, Some t => isProvided us f && isReceived us t
        | Writes, None, Some t => isReceived us t
        | Writes, _, None => false
        end)
       (check
          (negb ((1 <? r_size r) && (r_name r =? self))
           || match mp_dir m, mp_constraint m with
              | Writes, Consistent => false
              | Reads, Conservative => false
              | _, Scaled => false
              | _, _ => true
              end)
          (check
             (negb (match mp_constraint m with Scaled => true | _ => false end
                    && (isNone (mp_from m) || isNone (mp_to m))))
             (Good tt)))).

(** A data field that a mapping fills or, with [fl_to = None] or
    [fl_from = None], that a just-in-time mapping works on. *)
Record flow := Flow {
  fl_dir : direction;
  fl_data : nat;
  fl_from : option nat;
  fl_to : option nat
}.

(** The data of the write mapping [m] (precice/config/ParticipantConfiguration.cpp:543-592):
    goes through the data the participant writes; keeps whether data was found
    and what the mapping is used for.  Line 583 stands behind the test for the
    mesh.  The data are visited in the order of their tags, in the code in the
    order of their names. *)
Definition writeFlow (meshes : list meshTag) (us : list useTag) (m : mapTag)
    (s : bool * list flow) (f : nat * nat) : res (bool * list flow) :=
  match mp_from m, mp_to m with
  | Some a, Some t =>
      if a =? fst f
      then ensure (isUsed us t)
             (if hasData meshes t (snd f)
              then check (isProvided us (fst f))
                     (Good (true, snd s ++ [Flow Writes (snd f) (Some a) (Some t)]))
              else Good s)
      else Good s
  | None, Some t =>
      if t =? fst f
      then ensure (isUsed us t) (Good (true, snd s ++ [Flow Writes (snd f) None (Some t)]))
      else Good (true, snd s)
  | _, None => Broken
  end.

(** The data of the read mapping [m] (precice/config/ParticipantConfiguration.cpp:595-640)
    with ReadDataContext::appendMappingConfiguration
    (precice/impl/ReadDataContext.cpp:14-26), which asserts that the data has no
    mapping yet; [fl] are the flows of the mappings before. *)
Definition readFlow (meshes : list meshTag) (us : list useTag) (fl : list flow) (m : mapTag)
    (s : bool * list flow) (f : nat * nat) : res (bool * list flow) :=
  match mp_from m, mp_to m with
  | Some a, Some t =>
      if t =? fst f
      then ensure (isUsed us a)
             (if hasData meshes a (snd f)
              then check (isProvided us (fst f))
                     (ensure
                        (negb (existsb (fun g => sameDir (fl_dir g) Reads
                                                 && (fl_data g =? snd f)
                                                 && sameName (fl_to g) (Some t)) fl))
                        (Good (true, snd s ++ [Flow Reads (snd f) (Some a) (Some t)])))
              else Good s)
      else Good s
  | Some a, None =>
      if a =? fst f
      then ensure (isUsed us a) (Good (true, snd s ++ [Flow Reads (snd f) (Some a) None]))
      else Good (true, snd s)
  | None, _ => Broken
  end.

(** One mapping of the given direction
    (precice/config/ParticipantConfiguration.cpp:543-640). *)
Definition mapFlows (meshes : list meshTag) (us : list useTag) (writes reads : list (nat * nat))
    (d : direction) (fl : list flow) (m : mapTag) : res (list flow) :=
  if sameDir (mp_dir m) d
  then
    bind
      (match d with
       | Writes => each (writeFlow meshes us m) writes (false, [])
       | Reads => each (readFlow meshes us fl m) reads (false, [])
       end)
      (fun s => check (fst s) (Good (fl ++ snd s)))
  else Good fl.

(** What a participant has after its tags were read. *)
Record participant := Participant {
  q_name : nat;
  q_uses : list useTag;
  q_writes : list (nat * nat);
  q_reads : list (nat * nat);
  q_flows : list flow
}.

(** The watch points of the reader itself
    (precice/config/ParticipantConfiguration.cpp:739-760). *)
Definition watchFits (meshes : list meshTag) (us : list useTag) (w : nat * nat) : bool :=
  isUsed us (fst w) && negb (isReceived us (fst w)) && (snd w =? dims meshes (fst w)).

(** The whole of [<participant>]. *)
Definition addPart (remeshing : bool) (meshes : list meshTag) (r : reader)
    (parts : list participant) (p : partTag) : res (list participant) :=
  bind (each (addUse meshes (p_name p)) (p_uses p) []) (fun us =>
  bind (each (addField meshes []) (p_writes p) []) (fun ws =>
  bind (each (addField meshes ws) (p_reads p) []) (fun rs =>
  bind (each (addMap meshes) (p_maps p) []) (fun ms =>
  bind (each (fun (_ : unit) m => mapFits meshes r (p_name p) us ws rs ms m) ms tt) (fun _ =>
  bind (each (mapFlows meshes us ws rs Writes) ms []) (fun fw =>
  bind (each (mapFlows meshes us ws rs Reads) ms fw) (fun fl =>
  check (forallb (isUsed us) (p_actions p))
    (check (forallb (fun f => isProvided us (fst f) || negb (isAccessed us (fst f) && remeshing)) ws)
       (check (negb (r_name r =? p_name p) || forallb (watchFits meshes us) (p_watches p))
          (Good (parts ++ [Participant (p_name p) us ws rs fl]))))))))))).

(** ParticipantConfiguration::getParticipant and hasParticipant
    (precice/config/ParticipantConfiguration.cpp:366-383). *)
Definition getPart (parts : list participant) (n : nat) : option participant :=
  find (fun q => q_name q =? n) parts.

Definition hasPart (parts : list participant) (n : nat) : bool :=
  match getPart parts n with Some _ => true | None => false end.

(** ** Coupling schemes *)

Definition isMulti (k : schemeKind) : bool := match k with Multi => true | _ => false end.

Definition isImplicit (k : schemeKind) : bool :=
  match k with SerialExplicit | ParallelExplicit => false | _ => true end.

Definition isSerial (k : schemeKind) : bool :=
  match k with SerialExplicit | SerialImplicit => true | _ => false end.

(** [<participants/>] and [<participant control/>]
    (cplscheme/config/CouplingSchemeConfiguration.cpp:165-200): the names and
    the controller. *)
Definition addMember (parts : list participant) (multi : bool)
    (s : list nat * option nat) (m : nat * bool) : res (list nat * option nat) :=
  check (hasPart parts (fst m))
    (check (negb (isIn (fst m) (fst s)))
       (if multi && snd m
        then check (isNone (snd s)) (Good (fst s ++ [fst m], Some (fst m)))
        else Good (fst s ++ [fst m], snd s))).

Definition sameExchange (a b : exchange) : bool :=
  (e_from a =? e_from b) && (e_to a =? e_to b) && (e_data a =? e_data b) && (e_mesh a =? e_mesh b).

(** [<exchange/>] (cplscheme/config/CouplingSchemeConfiguration.cpp:264-290). *)
Definition addExchange (meshes : list meshTag) (old : list exchange) (e : exchange)
  : res (list exchange) :=
  check (hasData meshes (e_mesh e) (e_data e))
    (check (negb (existsb (sameExchange e) old)) (Good (old ++ [e]))).

(** [<...-convergence-measure/>]: getData
    (cplscheme/config/CouplingSchemeConfiguration.cpp:778-786) asks for the mesh
    and takes the data of that name, which has to be there
    (mesh/Mesh.cpp:233-240). *)
Definition addMeasure (meshes : list meshTag) (old : list (nat * nat)) (f : nat * nat)
  : res (list (nat * nat)) :=
  check (hasMesh meshes (fst f))
    (ensure (hasData meshes (fst f) (snd f)) (Good (old ++ [f]))).

(** [<acceleration:...> <data/>]
    (acceleration/config/AccelerationConfiguration.cpp:190-216). *)
Definition addAcceleration (meshes : list meshTag) (old : list (nat * nat)) (f : nat * nat)
  : res (list (nat * nat)) :=
  check (negb (isIn2 f old)) (check (hasData meshes (fst f) (snd f)) (Good (old ++ [f]))).

(** An entry of the data of a scheme (cplscheme/CouplingData.hpp). *)
Record entry := Entry {
  n_field : nat * nat;
  n_sends : bool;
  n_initialize : bool;
  n_substeps : bool
}.

(** BaseCouplingScheme::addCouplingData (cplscheme/BaseCouplingScheme.cpp:228-251). *)
Definition addEntry (all : list entry) (n : entry) : res (list entry) :=
  match find (fun o => same2 (n_field o) (n_field n)) all with
  | None => Good (all ++ [n])
  | Some o =>
      check (eqb (n_sends o) (n_sends n))
        (check (n_sends n)
           (check (eqb (n_substeps o) (n_substeps n))
              (check (eqb (n_initialize o) (n_initialize n)) (Good all))))
  end.

(** The identifier of a data field: identifiers are given out in the order of
    the meshes and of their data (mesh/config/MeshConfiguration.cpp:77). *)
Definition fieldsOf (meshes : list meshTag) : list (nat * nat) :=
  flat_map (fun m => map (pair (m_name m)) (m_data m)) meshes.

Fixpoint position (f : nat * nat) (fs : list (nat * nat)) : nat :=
  match fs with
  | [] => 0
  | g :: more => if same2 f g then 0 else S (position f more)
  end.

Definition holds (f : nat * nat) (l : list entry) : bool :=
  existsb (fun o => same2 (n_field o) f) l.

Fixpoint insert (ids : list (nat * nat)) (n : entry) (l : list entry) : list entry :=
  match l with
  | [] => [n]
  | o :: more =>
      if position (n_field n) ids <? position (n_field o) ids then n :: o :: more
      else o :: insert ids n more
  end.

(** Puts an entry into a DataMap, a std::map from the identifier of the data
    (cplscheme/SharedPointer.hpp, CouplingScheme.hpp); nothing happens if the
    identifier is there. *)
Definition emplace (ids : list (nat * nat)) (n : entry) (l : list entry) : list entry :=
  if holds (n_field n) l then l else insert ids n l.

(** A coupling scheme of one participant: all its data, and the data it sends
    to and receives from each other participant.  A scheme of two participants
    has one map for either. *)
Record scheme := Scheme {
  h_owner : nat;
  h_kind : schemeKind;
  h_all : list entry;
  h_sends : list (nat * list entry);
  h_receives : list (nat * list entry);
  h_connections : list nat
}.

Fixpoint toward (partner : nat) (maps : list (nat * list entry)) : list entry :=
  match maps with
  | [] => []
  | (k, l) :: more => if k =? partner then l else toward partner more
  end.

Fixpoint store (ids : list (nat * nat)) (partner : nat) (n : entry)
    (maps : list (nat * list entry)) : list (nat * list entry) :=
  match maps with
  | [] => [(partner, [n])]
  | (k, l) :: more =>
      if k =? partner then (k, emplace ids n l) :: more
      else (k, l) :: store ids partner n more
  end.

(** CouplingSchemeConfiguration::checkSubstepExchangeWaveformDegree
    (cplscheme/config/CouplingSchemeConfiguration.cpp:977-1007) with
    ParticipantState::findMesh (precice/impl/ParticipantState.cpp:137-148): the
    degree belongs to the name of the data, so any mesh the participant reads
    it from will do. *)
Definition degreeFits (data : list (nat * nat)) (parts : list participant) (e : exchange) : bool :=
  match getPart parts (e_to e) with
  | None => false
  | Some q =>
      if existsb (fun f => (snd f =? e_data e) && isUsed (q_uses q) (fst f)) (q_reads q)
      then match find (fun d => fst d =? e_data e) data with
           | Some (_, 0) => negb (e_substeps e)
           | Some (_, S (S _)) => e_substeps e
           | _ => true
           end
      else true
  end.

(** What is known when a scheme ends. *)
Record known := Known {
  k_data : list (nat * nat);
  k_meshes : list meshTag;
  k_m2ns : list (nat * nat);
  k_parts : list participant
}.

(** addDataToBeExchanged and addMultiDataToBeExchanged
    (cplscheme/config/CouplingSchemeConfiguration.cpp:1009-1094) for one
    exchange, with BiCouplingScheme::addDataToSend and addDataToReceive
    (cplscheme/BiCouplingScheme.cpp:50-82) and those of MultiCouplingScheme
    (cplscheme/MultiCouplingScheme.cpp:176-204).  A multi scheme is not checked
    for access through the API nor for the waveform degree, and does not mind a
    data that comes twice. *)
Definition addDataToBeExchanged (k : known) (members : list nat) (h : scheme) (e : exchange)
  : res scheme :=
  let multi := isMulti (h_kind h) in
  let ids := fieldsOf (k_meshes k) in
  let n s := Entry (e_mesh e, e_data e) s (e_initialize e) (e_substeps e) in
  check (negb (e_to e =? e_from e))
    (check (isIn (e_from e) members)
       (check (isIn (e_to e) members)
          (check (multi || negb (e_initialize e
                     && match getPart (k_parts k) (e_from e) with
                        | Some q => isAccessed (q_uses q) (e_mesh e)
                        | None => false
                        end))
             (if e_from e =? h_owner h
              then bind (addEntry (h_all h) (n true)) (fun all =>
                   check (multi || negb (holds (e_mesh e, e_data e) (toward (e_to e) (h_sends h))))
                     (Good (Scheme (h_owner h) (h_kind h) all
                              (store ids (e_to e) (n true) (h_sends h)) (h_receives h)
                              (h_connections h))))
              else if e_to e =? h_owner h
              then check (multi || degreeFits (k_data k) (k_parts k) e)
                     (bind (addEntry (h_all h) (n false)) (fun all =>
                      check (multi || negb (holds (e_mesh e, e_data e) (toward (e_from e) (h_receives h))))
                        (Good (Scheme (h_owner h) (h_kind h) all (h_sends h)
                                 (store ids (e_from e) (n false) (h_receives h))
                                 (h_connections h)))))
              else Good h)))).

(** checkIfDataIsExchanged (cplscheme/config/CouplingSchemeConfiguration.cpp:1096-1128). *)
Definition isExchanged (es : list exchange) (who : nat) (f : nat * nat) : bool :=
  existsb (fun e => ((e_from e =? who) || (e_to e =? who)) && same2 (e_mesh e, e_data e) f) es.

(** checkSerialImplicitAccelerationData
    (cplscheme/config/CouplingSchemeConfiguration.cpp:1130-1160). *)
Definition comesFromSecond (es : list exchange) (second : nat) (f : nat * nat) : bool :=
  match find (fun e => same2 (e_mesh e, e_data e) f) es with
  | Some e => second =? e_from e
  | None => false
  end.

Definition hasAnySendData (h : scheme) : bool :=
  existsb (fun m => match snd m with [] => false | _ => true end) (h_sends h).

(** The connections a scheme is given: createMultiCouplingScheme takes those
    there are (cplscheme/config/CouplingSchemeConfiguration.cpp:907-915); the
    other schemes ask for the one of their two participants (800, 820, 845,
    877). *)
Definition connections (k : known) (multi : bool) (members : list nat) (owner : nat)
  : res (list nat) :=
  if multi
  then Good (filter (isConnected (k_m2ns k) owner) members)
  else match members with
       | [a; b] => check (isConnected (k_m2ns k) a b) (Good [if owner =? a then b else a])
       | _ => Broken
       end.

(** createSerialExplicitCouplingScheme and its four sisters
    (cplscheme/config/CouplingSchemeConfiguration.cpp:798-957) for one
    participant.  [judge] is the participant that measures convergence and
    accelerates.  (That the first participant of a serial scheme does not send
    data to be accelerated, 866-870, follows: no data goes both ways.)  A
    measure needs the data in the scheme it is added to
    (cplscheme/BaseCouplingScheme.cpp:675-688); a multi scheme only adds it at
    the controller. *)
Definition createScheme (k : known) (kind : schemeKind) (members : list nat) (judge : nat)
    (es : list exchange) (measures : list (nat * nat)) (acc : option (list (nat * nat)))
    (maxIterations : option nat) (owner : nat) : res scheme :=
  let multi := isMulti kind in
  bind (connections k multi members owner) (fun cs =>
  bind (each (addDataToBeExchanged k members) es (Scheme owner kind [] [] [] cs)) (fun h =>
  if isImplicit kind
  then
    check (hasAnySendData h)
      (check (match measures with [] => negb (isNone maxIterations) | _ => true end)
         (bind
            (if multi && negb (owner =? judge) then Good tt
             else each (fun (_ : unit) f =>
                          check (isExchanged es judge f) (ensure (holds f (h_all h)) (Good tt)))
                    measures tt)
            (fun _ =>
             check (match acc with
                    | None => true
                    | Some fs =>
                        forallb (isExchanged es judge) fs
                        && (negb (isSerial kind) || forallb (comesFromSecond es judge) fs)
                    end) (Good h))))
  else Good h)).

(** CouplingSchemeConfiguration::addCouplingScheme
    (cplscheme/config/CouplingSchemeConfiguration.cpp:393-427). *)
Definition addScheme (remeshing : bool) (hs : list scheme) (h : scheme) : res (list scheme) :=
  let mine := filter (fun o => h_owner o =? h_owner h) hs in
  check (match mine with [] => true | _ => negb remeshing end)
    (check (negb (isImplicit (h_kind h) && existsb (fun o => isImplicit (h_kind o)) mine))
       (Good (hs ++ [h]))).

(** What is collected while the schemes are read: the schemes and the meshes
    each participant needs (mesh/config/MeshConfiguration.cpp:155-166). *)
Record collected := Collected {
  c_schemes : list scheme;
  c_needed : list (nat * nat)
}.

(** The whole of [<coupling-scheme:...>]
    (cplscheme/config/CouplingSchemeConfiguration.cpp:157-391).  Explicit schemes
    have no tags for measures, acceleration and iterations (428-475). *)
Definition addSchemeTag (remeshing : bool) (k : known) (c : collected) (t : schemeTag)
  : res collected :=
  let multi := isMulti (s_kind t) in
  check (isImplicit (s_kind t)
         || match s_measures t, s_acceleration t, s_maxIterations t with
            | [], None, None => true
            | _, _, _ => false
            end)
  (bind (each (addMember (k_parts k) multi) (s_members t) ([], None)) (fun mc =>
  bind (each (addExchange (k_meshes k)) (s_exchanges t) []) (fun es =>
  bind (each (addMeasure (k_meshes k)) (s_measures t) []) (fun ms =>
  bind (match s_acceleration t with
        | None => Good None
        | Some fs => bind (each (addAcceleration (k_meshes k)) fs []) (fun l => Good (Some l))
        end) (fun acc =>
  check (negb (remeshing && (multi || isSerial (s_kind t))))
    (bind
       (if multi
        then match snd mc with Some j => Good j | None => Refused end
        else match fst mc with [_; b] => Good b | _ => Refused end)
       (fun judge =>
        let needed :=
          flat_map (fun e => [(e_from e, e_mesh e); (e_to e, e_mesh e)]) es
          ++ (if isImplicit (s_kind t)
              then map (fun f => (judge, fst f)) (ms ++ match acc with Some l => l | None => [] end)
              else []) in
        bind
          (each (fun hs owner =>
                   bind (createScheme k (s_kind t) (fst mc) judge es ms acc (s_maxIterations t) owner)
                        (addScheme remeshing hs))
             (fst mc) (c_schemes c))
          (fun hs => Good (Collected hs (c_needed c ++ needed)))))))))).

(** ** The whole file *)

(** What a file is turned into. *)
Record setup := Setup {
  u_known : known;
  u_schemes : list scheme
}.

(** Configuration::xmlEndTagCallback (precice/config/Configuration.cpp:87-126):
    the meshes needed are used, the ends of the connections exist. *)
Definition readFile (r : reader) (d : file) : res setup :=
  bind (each addData (d_data d) []) (fun ds =>
  bind (each (addMesh ds) (d_meshes d) []) (fun meshes =>
  bind (each addM2N (d_m2ns d) []) (fun m2ns =>
  bind (each (addPart (d_remeshing d) meshes r) (d_parts d) []) (fun parts =>
  let k := Known ds meshes m2ns parts in
  bind (each (addSchemeTag (d_remeshing d) k) (d_schemes d) (Collected [] [])) (fun c =>
  bind (each (fun (_ : unit) n =>
                match getPart parts (fst n) with
                | None => Broken
                | Some q => check (isUsed (q_uses q) (snd n)) (Good tt)
                end) (c_needed c) tt) (fun _ =>
  check (forallb (fun c => hasPart parts (fst c) && hasPart parts (snd c)) m2ns)
    (Good (Setup k (c_schemes c))))))))).

(** ** What a participant sets up *)

(** Configuration::configurePartitionsFor (precice/config/Configuration.cpp:172-219):
    the channels for the data of meshes, as pairs of the other participant and
    the mesh.  First the meshes provided, for every participant that receives
    them from here, then the meshes received. *)
Definition channelsOut (k : known) (self : nat) (us : list useTag) : list (nat * nat) :=
  flat_map (fun u =>
    match u with
    | Provide m =>
        flat_map (fun q =>
          flat_map (fun v =>
            match v with
            | Receive x from _ => if (from =? self) && (x =? m) then [(q_name q, m)] else []
            | Provide _ => []
            end) (q_uses q)) (k_parts k)
    | Receive _ _ _ => []
    end) us.

Definition channelsIn (us : list useTag) : list (nat * nat) :=
  flat_map (fun u => match u with Receive m from _ => [(from, m)] | Provide _ => [] end) us.

(** The constructor of the participant up to its coupling scheme
    (precice/impl/ParticipantImpl.cpp:205-229, 1777): the channels, which all
    need a connection (m2n/config/M2NConfiguration.cpp:112-121), and the
    schemes. *)
Definition join (u : setup) (self : nat) : res (list (nat * nat) * list scheme) :=
  let k := u_known u in
  match getPart (k_parts k) self with
  | None => Refused
  | Some q =>
      let cs := channelsOut k self (q_uses q) ++ channelsIn (q_uses q) in
      check (forallb (fun c => isConnected (k_m2ns k) self (fst c)) cs)
        (let mine := filter (fun h => h_owner h =? self) (u_schemes u) in
         check (match mine with [] => false | _ => true end) (Good (cs, mine)))
  end.

(** M2N::send and receive of the data of a mesh (m2n/M2N.cpp:263-288) need a
    channel; schemes of more than two participants look up the connection
    first (cplscheme/MultiCouplingScheme.cpp:88-110). *)
Definition canSend (cs : list (nat * nat)) (h : scheme) (partner mesh : nat) : bool :=
  isIn partner (h_connections h) && isIn2 (partner, mesh) cs.
