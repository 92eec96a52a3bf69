(** The configuration of data actions (action/config/ActionConfiguration.cpp) and Python actions
    (action/PythonAction.cpp).  Undefined behaviour and failing assertions are [Undefined], reported errors
    are [Reported]. *)
From Coq Require Import Bool String List Arith.
Import ListNotations.
Open Scope nat_scope.
Open Scope list_scope.

Inductive res (A : Type) := Ok (a : A) | Reported | Undefined.
Arguments Ok {A}. Arguments Reported {A}. Arguments Undefined {A}.
Definition bindR {A B} (x : res A) (f : A -> res B) : res B := match x with Ok a => f a | Reported => Reported | Undefined => Undefined end.
Definition check {B} (b : bool) (k : res B) : res B := if b then k else Reported.

(** mesh::Data and mesh::Mesh, what is used of them *)
Record data := Data { d_name : string; d_id : nat; d_dims : nat }.
Record mesh := Mesh { m_name : string; m_data : list data }.
(** Mesh::data and hasDataName, mesh/Mesh.cpp 207-240; MeshConfiguration::hasMeshName and getMesh *)
Definition dataByName (m : mesh) (name : string) : option data := find (fun d => String.eqb (d_name d) name) (m_data m).
Definition dataByID (m : mesh) (id : nat) : option data := find (fun d => d_id d =? id) (m_data m).
Definition meshByName (ms : list mesh) (name : string) : option mesh := find (fun m => String.eqb (m_name m) name) ms.

(** an action tag with its attributes, timing being one of the two options of 112-114, and its subtags, all of which have a name *)
Inductive actionType := MultiplyByArea | DivideByArea | Summation | Recorder | Python.
Inductive timing := WriteMappingPost | ReadMappingPost.
Inductive tag := SourceData | TargetData | ModulePath | ModuleName.
Record element := Element { e_type : actionType; e_timing : timing; e_mesh : string; e_tags : list (tag * string) }.

(** 41-110: the subtags of each tag; None: not a subtag *)
Inductive occurrence := Once | OnceOrMore | NotOrOnce.
Definition subtag (t : actionType) (k : tag) : option occurrence :=
  match t, k with
  | MultiplyByArea, TargetData | DivideByArea, TargetData | Summation, TargetData => Some Once
  | Summation, SourceData => Some OnceOrMore
  | Python, ModuleName => Some Once
  | Python, _ => Some NotOrOnce
  | _, _ => None
  end.
Definition tag_eqb (a b : tag) : bool :=
  match a, b with SourceData, SourceData | TargetData, TargetData | ModulePath, ModulePath | ModuleName, ModuleName => true | _, _ => false end.

(** ConfiguredAction, ActionConfiguration.hpp 64-74, without the unused numbers *)
Record configured := Configured { c_type : actionType; c_timing : timing; c_mesh : string; c_sources : list string; c_target : string; c_path : string; c_module : string }.
(** xmlTagCallback 125-150 for the tag and for a subtag *)
Definition fresh (e : element) : configured := Configured (e_type e) (e_timing e) (e_mesh e) [] "" "" "".
Definition xmlTagCallback (c : configured) (k : tag) (name : string) : configured :=
  match k with
  | SourceData => Configured (c_type c) (c_timing c) (c_mesh c) (c_sources c ++ [name]) (c_target c) (c_path c) (c_module c)
  | TargetData => Configured (c_type c) (c_timing c) (c_mesh c) (c_sources c) name (c_path c) (c_module c)
  | ModulePath => Configured (c_type c) (c_timing c) (c_mesh c) (c_sources c) (c_target c) name (c_module c)
  | ModuleName => Configured (c_type c) (c_timing c) (c_mesh c) (c_sources c) (c_target c) (c_path c) name
  end.
(** ConfigParser::connectTags, xml/ConfigParser.cpp 248-299: the loop over the subtags of an action; [used] are the tags
    that may occur once only and did *)
Fixpoint connectTags (used : list tag) (tags : list (tag * string)) (c : configured) : res configured :=
  match tags with
  | [] => Ok c
  | (k, name) :: r =>
      match subtag (c_type c) k with
      | None => Reported
      | Some OnceOrMore => connectTags used r (xmlTagCallback c k name)
      | Some _ => check (negb (existsb (tag_eqb k) used)) (connectTags (k :: used) r (xmlTagCallback c k name))
      end
  end.
(** XMLTag::areAllSubtagsConfigured, xml/XMLTag.cpp 229-253 *)
Definition areAllSubtagsConfigured (t : actionType) (tags : list (tag * string)) : bool :=
  forallb (fun k => match subtag t k with
                    | Some Once | Some OnceOrMore => existsb (fun p => tag_eqb k (fst p)) tags
                    | _ => true
                    end) [SourceData; TargetData; ModulePath; ModuleName].

(** an action: which class, and the members of all of them *)
Record action := Action { a_type : actionType; a_timing : timing; a_mesh : mesh; a_target : option data; a_sources : list data; a_path : string; a_module : string }.

Section Config.
(** std::filesystem::is_directory *)
Variable isDirectory : string -> bool.
(** PRECICE_NO_PYTHON is not defined *)
Variable python : bool.

(** 188-191 *)
Fixpoint sourceIDs (m : mesh) (names : list string) : res (list nat) :=
  match names with
  | [] => Ok []
  | name :: r => match dataByName m name with None => Reported | Some d => bindR (sourceIDs m r) (fun ids => Ok (d_id d :: ids)) end
  end.
(** the constructors look the data up again; id -1 (None) is never found *)
Definition lookUp (m : mesh) (id : option nat) : res data :=
  match id with None => Undefined | Some i => match dataByID m i with None => Undefined | Some d => Ok d end end.
Fixpoint lookUps (m : mesh) (ids : list nat) : res (list data) :=
  match ids with [] => Ok [] | i :: r => bindR (lookUp m (Some i)) (fun d => bindR (lookUps m r) (fun ds => Ok (d :: ds))) end.
(** the constructors: ScaleByAreaAction.cpp 15-24, SummationAction.cpp 13-28, RecorderAction.cpp 8-11, PythonAction.cpp 55-77;
    196-219 calls them, [sourceDataIDs.back()] needs an element *)
Definition construct (c : configured) (m : mesh) (target : option nat) (sources : list nat) : res action :=
  match c_type c with
  | MultiplyByArea | DivideByArea => bindR (lookUp m target) (fun d => Ok (Action (c_type c) (c_timing c) m (Some d) [] "" ""))
  | Summation => bindR (lookUp m target) (fun d => bindR (lookUps m sources) (fun ds =>
      check (forallb (fun s => d_dims s =? d_dims d) ds) (Ok (Action (c_type c) (c_timing c) m (Some d) ds "" ""))))
  | Recorder => Ok (Action (c_type c) (c_timing c) m None [] "" "")
  | Python =>
      if python then
        match rev sources with
        | [] => Undefined
        | last :: _ =>
            check (isDirectory (c_path c))
              (bindR (match target with None => Ok None | Some i => bindR (lookUp m (Some i)) (fun d => Ok (Some d)) end) (fun t =>
               bindR (lookUp m (Some last)) (fun s => Ok (Action Python (c_timing c) m t [s] (c_path c) (c_module c)))))
        end
      else Undefined
  end.
(** createAction 167-221 *)
Definition createAction (ms : list mesh) (c : configured) : res action :=
  match meshByName ms (c_mesh c) with
  | None => Reported
  | Some m =>
      bindR (if String.eqb (c_target c) "" then Ok None else match dataByName m (c_target c) with None => Reported | Some d => Ok (Some (d_id d)) end) (fun target =>
      bindR (sourceIDs m (c_sources c)) (construct c m target))
  end.
(** one action tag, ConfigParser.cpp 289-297 *)
Definition configureAction (ms : list mesh) (e : element) : res action :=
  bindR (connectTags [] (e_tags e) (fresh e)) (fun c => check (areAllSubtagsConfigured (e_type e) (e_tags e)) (createAction ms c)).
Fixpoint configureActions (ms : list mesh) (es : list element) : res (list action) :=
  match es with [] => Ok [] | e :: r => bindR (configureAction ms e) (fun a => bindR (configureActions ms r) (fun l => Ok (a :: l))) end.
(** finishParticipantConfiguration, ParticipantConfiguration.cpp 641-651: [used] are the names of the meshes of the participant *)
Definition participantActions (ms : list mesh) (used : list string) (es : list element) : res (list action) :=
  bindR (configureActions ms es) (fun l => check (forallb (fun a => existsb (String.eqb (m_name (a_mesh a))) used) l) (Ok l)).
End Config.

(** * Python actions at work *)
Section Run.
Variables time values : Type.
(** math::equals on time stamps *)
Variable sameTime : time -> time -> bool.
(** performAction of the module: time, source values if there are any, target values; None: an error occurred.  The
    module may have no such function *)
Variable script : option (time -> option values -> values -> option values).

(** the samples of each data, and the one that is not stored in the waveform *)
Record store := Store { samples : nat -> list (time * values); global : nat -> option values }.
(** PythonAction.cpp 98-118, without a source: the values are changed in place *)
Fixpoint runTarget (f : time -> option values -> values -> option values) (l : list (time * values)) : res (list (time * values)) :=
  match l with
  | [] => Ok []
  | (t, v) :: r => match f t None v with None => Reported | Some v' => bindR (runTarget f r) (fun r' => Ok ((t, v') :: r')) end
  end.
(** 127-153, with a source of as many samples *)
Fixpoint runBoth (f : time -> option values -> values -> option values) (sources l : list (time * values)) : res (list (time * values)) :=
  match sources, l with
  | (s, u) :: sources', (t, v) :: r =>
      if sameTime s t then match f t (Some u) v with None => Reported | Some v' => bindR (runBoth f sources' r) (fun r' => Ok ((t, v') :: r')) end else Reported
  | _, _ => Ok []
  end.
(** performAction 90-155.  The sample is set at 117 and 153; without samples there is none at the back, without target
    [_targetData] is a null pointer.  A module without function gives a warning only (174-178), then nullptr is called. *)
Definition performPython (target source : option nat) (s : store) : res store :=
  match target with
  | None => Undefined
  | Some d =>
      bindR (match source with
             | None => match samples s d, script with [], _ => Ok [] | _, None => Undefined | l, Some f => runTarget f l end
             | Some u =>
                 check (length (samples s d) =? length (samples s u))
                   (match samples s d, script with [], _ => Ok [] | _, None => Undefined | l, Some f => runBoth f (samples s u) l end)
             end) (fun l =>
      match rev l with
      | [] => Undefined
      | (_, v) :: _ => Ok (Store (fun k => if k =? d then l else samples s k) (fun k => if k =? d then Some v else global s k))
      end)
  end.
(** ParticipantImpl::performDataActions 1731-1739: the actions with the timing, one after the other; what each does is [perform] *)
Variable perform : action -> store -> res store.
Definition timing_eqb (a b : timing) : bool := match a, b with WriteMappingPost, WriteMappingPost | ReadMappingPost, ReadMappingPost => true | _, _ => false end.
Fixpoint performDataActions (t : timing) (l : list action) (s : store) : res store :=
  match l with
  | [] => Ok s
  | a :: r => bindR (if timing_eqb (a_timing a) t then perform a s else Ok s) (performDataActions t r)
  end.
End Run.
Arguments Store {_ _}. Arguments samples {_ _}. Arguments global {_ _}. Arguments runTarget {_ _}. Arguments runBoth {_ _}.
Arguments performPython {_ _}. Arguments performDataActions {_ _}.
