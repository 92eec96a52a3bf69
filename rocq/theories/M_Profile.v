(** Profiling: the events of a participant and the file they are written to
    (src/profiling/Event.cpp, EventUtils.cpp, config/ProfilingConfiguration.cpp and the events in
    src/precice/impl/ParticipantImpl.cpp).

    [None] is a failed assertion or a failed check.  A file is the list of its records, without the
    header and without compression.  Times are the numbers of the readings of the clock. *)
From Coq Require Import String Ascii List Arith Bool ZArith DecimalString.
Import ListNotations.
Open Scope string_scope.
Open Scope list_scope.
Open Scope nat_scope.

Definition bind {A B} (x : option A) (f : A -> option B) : option B := match x with Some y => f y | None => None end.
(** EventUtils.hpp 26-31, Event.hpp 15-19 *)
Inductive mode := All | API | Fundamental | Off.
Inductive group := GDefault | GFundamental | GAPI.
Definition isOff (m : mode) : bool := match m with Off => true | _ => false end.
(** EventUtils.hpp 129-142 *)
Definition accepting (m : mode) (g : group) : bool :=
  match m with
  | Off => false
  | All => true
  | Fundamental => match g with GFundamental => true | _ => false end
  | API => match g with GFundamental | GAPI => true | _ => false end
  end.
(** EventUtils.hpp 39-71: StartEntry, StopEntry, DataEntry, NameEntry *)
Inductive record := Begins (eid t : nat) | Ends (eid t : nat) | Datum (eid t did : nat) (value : Z) | Name (name : string) (id : nat).
Definition isStart (r : record) : bool := match r with Begins _ _ => true | _ => false end.
(** the state of the stream: never opened, broken by a write that failed, open, closed *)
Inductive stream := NotOpen | Bad | Open | Closed.
(** EventUtils.hpp 151-203.  [r_dict]: the names, at the position of their ids; [r_files]: the
    contents of the files, the latest one first; [r_sync]: precice::syncMode *)
Record registry := Registry { r_mode : mode; r_max : nat; r_parallel : bool; r_sync : bool; r_global : nat; r_initialized : bool; r_finalized : bool; r_running : bool;
  r_stream : stream; r_files : list (list record); r_dict : list string; r_queue : list record; r_clock : nat }.
Definition unused : registry := Registry Fundamental 0 false false 0 false false false NotOpen [] [] [] 0.
Definition setConfig (s : registry) (m : mode) (max : nat) (sync : bool) : registry :=
  Registry m max (r_parallel s) sync (r_global s) (r_initialized s) (r_finalized s) (r_running s) (r_stream s) (r_files s) (r_dict s) (r_queue s) (r_clock s).
Definition setNames (s : registry) (d : list string) (q : list record) : registry :=
  Registry (r_mode s) (r_max s) (r_parallel s) (r_sync s) (r_global s) (r_initialized s) (r_finalized s) (r_running s) (r_stream s) (r_files s) d q (r_clock s).
Definition setOutput (s : registry) (running : bool) (o : stream) (files : list (list record)) (q : list record) : registry :=
  Registry (r_mode s) (r_max s) (r_parallel s) (r_sync s) (r_global s) (r_initialized s) (r_finalized s) running o files (r_dict s) q (r_clock s).
Definition setPhase (s : registry) (initialized finalized : bool) : registry :=
  Registry (r_mode s) (r_max s) (r_parallel s) (r_sync s) (r_global s) initialized finalized (r_running s) (r_stream s) (r_files s) (r_dict s) (r_queue s) (r_clock s).
(** Clock::now() *)
Definition tick (s : registry) : registry :=
  Registry (r_mode s) (r_max s) (r_parallel s) (r_sync s) (r_global s) (r_initialized s) (r_finalized s) (r_running s) (r_stream s) (r_files s) (r_dict s) (r_queue s) (S (r_clock s)).

(** EventUtils.cpp 319-330 *)
Fixpoint index (name : string) (d : list string) : option nat :=
  match d with [] => None | x :: r => if String.eqb name x then Some 0 else option_map S (index name r) end.
Definition nameToID (s : registry) (name : string) : registry * nat :=
  match index name (r_dict s) with
  | Some id => (s, id)
  | None => (setNames s (r_dict s ++ [name]) (r_queue s ++ [Name name (length (r_dict s))]), length (r_dict s))
  end.
(** 284-317: a stream that is not open is broken by the write, the queue is cleared all the same; 290 is
    an assertion on the state of the stream *)
Definition flush (s : registry) : option registry :=
  if isOff (r_mode s) || (length (r_queue s) =? 0) then Some s else
  match r_stream s with
  | Bad => None
  | Open => match r_files s with [] => None | f :: o => Some (setOutput s (r_running s) Open ((f ++ r_queue s) :: o) []) end
  | NotOpen | Closed => Some (setOutput s (r_running s) Bad (r_files s) [])
  end.
(** 242-282: the text of the records, with the number of the reading as the time *)
Definition dec (n : nat) : string := NilZero.string_of_uint (Nat.to_uint n).
Definition decZ (z : Z) : string := ((if (z <? 0)%Z then "-" else "") ++ dec (Z.abs_nat z))%string.
Definition newline : string := String "010" "".
Definition text1 (r : record) : string :=
  match r with
  | Begins i t => "B" ++ dec i ++ ":" ++ dec t ++ newline
  | Ends i t => "E" ++ dec i ++ ":" ++ dec t ++ newline
  | Datum i t d v => "D" ++ dec i ++ ":" ++ dec t ++ ":" ++ dec d ++ ":" ++ decZ v ++ newline
  | Name n i => "N" ++ dec i ++ ":" ++ n ++ newline
  end%string.
Definition text (l : list record) : string := String.concat "" (map text1 l).
(** 222-234 *)
Definition put (s : registry) (e : record) : option registry :=
  if isOff (r_mode s) then None else
  let skipFlush := negb (r_max s =? 1) && isStart e in
  let s' := setNames s (r_dict s) (r_queue s ++ [e]) in
  if negb skipFlush && (0 <? r_max s) && (r_max s <? length (r_queue s')) then flush s' else Some s'.
(** 236-240 *)
Definition putCritical (s : registry) (e : record) : option registry :=
  if isOff (r_mode s) then None else Some (setNames s (r_dict s) (r_queue s ++ [e])).
(** 170-202 *)
Definition stopBackend (s : registry) : option registry :=
  if isOff (r_mode s) || negb (r_running s) then Some s else
  bind (put (tick s) (Ends (r_global s) (r_clock s))) (fun s =>
  bind (flush s) (fun s => Some (setNames (setOutput s false Closed (r_files s) (r_queue s)) [] (r_queue s)))).
(** 63-86 *)
Definition initialize (s : registry) (parallel : bool) : option registry :=
  let t := r_clock s in
  let s := Registry (r_mode s) (r_max s) parallel (r_sync s) (r_global s) (r_initialized s) (r_finalized s) (r_running s) (r_stream s) (r_files s) [] [] (S (r_clock s)) in
  let (s, id) := nameToID s "_GLOBAL" in
  let s := Registry (r_mode s) (r_max s) parallel (r_sync s) id true false (r_running s) (r_stream s) (r_files s) (r_dict s) (r_queue s ++ [Begins id t]) (r_clock s) in
  if r_running s then stopBackend s else Some s.
(** 119-168, with a directory and a file that can be written *)
Definition startBackend (s : registry) : option registry :=
  if isOff (r_mode s) then Some s else
  if r_running s then None else Some (setOutput s true Open ([] :: r_files s) (r_queue s)).
(** 204-214 *)
Definition finalizeRegistry (s : registry) : option registry :=
  if r_finalized s || negb (r_initialized s) then Some s else
  bind (stopBackend s) (fun s => Some (setPhase s false true)).
(** ProfilingConfiguration.cpp 91-104 and 70-89; the tag is optional *)
Definition applyDefaults (s : registry) : registry := setConfig s Fundamental 50 false.
Definition profilingTag := option (mode * nat * bool).
Definition configured (s : registry) (c : profilingTag) : registry := match c with Some (m, max, sync) => setConfig s m max sync | None => s end.

(** * Events: Event.hpp 46-109 *)
Record event := Event { e_id : nat; e_sid : option nat; e_running : bool; e_group : group; e_sync : bool }.
Definition hasSlash (s : string) : bool := match String.index 0 "/" s with Some _ => true | None => false end.
(** Event.cpp 28-49 *)
Definition start (s : registry) (e : event) : option (registry * event) :=
  if e_running e then None else
  let e := Event (e_id e) (e_sid e) true (e_group e) (e_sync e) in
  if negb (accepting (r_mode s) (e_group e)) then Some (s, e) else
  if e_sync e && r_parallel s && r_sync s then
    bind (e_sid e) (fun sid =>
    bind (putCritical (tick s) (Begins sid (r_clock s))) (fun s =>
    let t := r_clock s in
    bind (putCritical (tick s) (Ends sid t)) (fun s =>
    bind (put s (Begins (e_id e) t)) (fun s => Some (s, e)))))
  else bind (put (tick s) (Begins (e_id e) (r_clock s))) (fun s => Some (s, e)).
(** 8-19 *)
Definition newEvent (s : registry) (name : string) (g : group) (sync : bool) : option (registry * event) :=
  if hasSlash name then None else
  let (s, id) := nameToID s name in
  let (s, sid) := if sync && r_parallel s then let (s, i) := nameToID s (name ++ ".sync") in (s, Some i) else (s, None) in
  start s (Event id sid false g sync).
(** 51-61 *)
Definition stop (s : registry) (e : event) : option (registry * event) :=
  let t := r_clock s in
  let s := tick s in
  if negb (e_running e) then None else
  let e := Event (e_id e) (e_sid e) false (e_group e) (e_sync e) in
  if accepting (r_mode s) (e_group e) then bind (put s (Ends (e_id e) t)) (fun s => Some (s, e)) else Some (s, e).
(** 21-26 *)
Definition destroy (s : registry) (e : event) : option registry := if e_running e then option_map fst (stop s e) else Some s.
(** 63-75 *)
Definition addData (s : registry) (e : event) (key : string) (value : Z) : option registry :=
  let t := r_clock s in
  let s := tick s in
  if negb (e_running e) then None else
  if accepting (r_mode s) (e_group e) then let (s, did) := nameToID s key in put s (Datum (e_id e) t did value) else Some s.

(** What is done while an event is running: data are added to it, or another event is created, used and
    destroyed.  Events of the code that are not strictly nested are not covered. *)
Inductive work := Finish | Note (key : string) (value : Z) (rest : work) | Inside (name : string) (g : group) (sync : bool) (inner rest : work).
Fixpoint perform (s : registry) (e : event) (w : work) : option registry :=
  match w with
  | Finish => Some s
  | Note key value rest => bind (addData s e key value) (fun s => perform s e rest)
  | Inside name g sync inner rest =>
      bind (newEvent s name g sync) (fun '(s, e') =>
      bind (perform s e' inner) (fun s =>
      bind (destroy s e') (fun s => perform s e rest)))
  end.
(** an event for a piece of work *)
Definition during (s : registry) (name : string) (g : group) (sync : bool) (w : work) : option registry :=
  bind (newEvent s name g sync) (fun '(s, e) => bind (perform s e w) (fun s => bind (stop s e) (fun '(s, e) => destroy s e))).

(** * The participant: ParticipantImpl.hpp 509-512 *)
Inductive phase := Constructed | Initialized | Finalized.
Record participant := Participant { p_phase : phase; p_user : list event; p_init : option event; p_advance : option event }.
(** ParticipantImpl.cpp 117-153: up to the start of the backend; [mpi]: built with MPI *)
Definition constructBegin (s : registry) (mpi parallel : bool) (c : profilingTag) : option (registry * event) :=
  bind (initialize s parallel) (fun s =>
  let s := applyDefaults s in
  bind (newEvent s "construction" GFundamental false) (fun '(s, e) =>
  bind (if mpi then bind (newEvent s "com.initializeMPI" GFundamental false) (fun '(s, e3) => option_map fst (stop s e3)) else Some s) (fun s =>
  bind (newEvent s "configure" GFundamental false) (fun '(s, e1) =>
  let s := configured s c in
  bind (stop s e1) (fun '(s, _) =>
  bind (newEvent s "startProfilingBackend" GDefault false) (fun '(s, e2) =>
  bind (startBackend s) (fun s =>
  bind (stop s e2) (fun '(s, _) => Some (s, e))))))))).
(** 155-163: [w] is the initialization of the communication *)
Definition construct (s : registry) (mpi parallel : bool) (c : profilingTag) (w : work) : option (registry * participant) :=
  bind (constructBegin s mpi parallel c) (fun '(s, e) =>
  bind (perform s e w) (fun s =>
  bind (stop s e) (fun '(s, _) =>
  bind (newEvent s "solver.initialize" GFundamental true) (fun '(s, i) => Some (s, Participant Constructed [] (Some i) None))))).

(** the calls of the interface between construction and finalize; [Call] is any call with an event of
    its own *)
Inductive call := StartSection (name : string) | StopSection | Call (name : string) (w : work) | Initialize (w : work) | Advance (w : work).
Definition destroyOption (s : registry) (e : option event) : option registry := match e with Some e => destroy s e | None => Some s end.
Definition doCall (s : registry) (p : participant) (c : call) : option (registry * participant) :=
  match c with
  | StartSection name => (* 1958-1964 *)
      bind (newEvent s name GFundamental false) (fun '(s, e) => Some (s, Participant (p_phase p) (e :: p_user p) (p_init p) (p_advance p)))
  | StopSection => (* 1966-1970 *)
      match p_user p with [] => None | e :: u => bind (destroy s e) (fun s => Some (s, Participant (p_phase p) u (p_init p) (p_advance p))) end
  | Call name w => bind (during s name GAPI false w) (fun s => Some (s, p))
  | Initialize w => (* 261-299 *)
      match p_phase p, p_user p with
      | Constructed, [] =>
          bind (destroyOption s (p_init p)) (fun s =>
          bind (during s "initialize" GFundamental true w) (fun s =>
          bind (newEvent s "solver.advance" GFundamental true) (fun '(s, a) => Some (s, Participant Initialized [] None (Some a)))))
      | _, _ => None
      end
  | Advance w => (* 393-466 *)
      match p_phase p, p_user p, p_advance p with
      | Initialized, [], Some a =>
          bind (stop s a) (fun '(s, a) =>
          bind (during s "advance" GFundamental true w) (fun s =>
          bind (start s a) (fun '(s, a) => Some (s, Participant Initialized [] (p_init p) (Some a)))))
      | _, _, _ => None
      end
  end.
Fixpoint doCalls (s : registry) (p : participant) (cs : list call) : option (registry * participant) :=
  match cs with [] => Some (s, p) | c :: r => bind (doCall s p c) (fun '(s, p) => doCalls s p r) end.
Fixpoint destroyAll (s : registry) (l : list event) : option registry := match l with [] => Some s | e :: r => bind (destroy s e) (fun s => destroyAll s r) end.
(** 586-637 *)
Definition finalize (s : registry) (p : participant) (w : work) : option (registry * participant) :=
  match p_phase p with
  | Finalized => None
  | _ =>
      bind (destroyAll s (p_user p)) (fun s =>
      bind (destroyOption s (p_advance p)) (fun s =>
      bind (during s "finalize" GFundamental false w) (fun s =>
      bind (finalizeRegistry s) (fun s => Some (s, Participant Finalized [] (p_init p) None)))))
  end.
