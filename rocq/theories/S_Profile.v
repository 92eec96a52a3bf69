(** What the profiling file should contain. *)
From Coq Require Import String List Arith Bool ZArith.
From Verif Require Import M_Profile.
Import ListNotations.
Open Scope string_scope.
Open Scope list_scope.
Open Scope nat_scope.

(** what happened, in terms of names *)
Inductive happening := Opens (name : string) | Closes (name : string) | Notes (name key : string) (value : Z).

(** Reading a file: names get consecutive ids and are announced once, before they are used.  [d]: the
    names so far. *)
Definition known (d : list string) (name : string) : bool := if in_dec string_dec name d then true else false.
Fixpoint decode (d : list string) (l : list record) : option (list string * list happening) :=
  match l with
  | [] => Some (d, [])
  | Name name id :: r => if (id =? length d) && negb (known d name) then decode (d ++ [name]) r else None
  | Begins id _ :: r => match nth_error d id, decode d r with Some n, Some (d', h) => Some (d', Opens n :: h) | _, _ => None end
  | Ends id _ :: r => match nth_error d id, decode d r with Some n, Some (d', h) => Some (d', Closes n :: h) | _, _ => None end
  | Datum id _ did v :: r => match nth_error d id, nth_error d did, decode d r with Some n, Some k, Some (d', h) => Some (d', Notes n k v :: h) | _, _, _ => None end
  end.
Definition reads (l : list record) : option (list happening) := option_map snd (decode [] l).

(** the times of records *)
Definition ticks (l : list record) : list nat := flat_map (fun r => match r with Begins _ t | Ends _ t | Datum _ t _ _ => [t] | Name _ _ => [] end) l.
Fixpoint ascends (lo : nat) (l : list nat) (hi : nat) : Prop := match l with [] => lo <= hi | t :: r => lo <= t /\ ascends t r hi end.

(** What happens: in mode [fundamental] the steering of the coupling and the sections of the user, in
    mode [api] also the calls of the interface, in mode [all] everything.  [y]: synchronization points
    are shown. *)
Definition shown (m : mode) (g : group) : bool :=
  match m, g with Off, _ => false | All, _ => true | _, GFundamental => true | API, GAPI => true | _, _ => false end.
Definition opening (y : bool) (name : string) (sync : bool) : list happening :=
  (if y && sync then [Opens (name ++ ".sync"); Closes (name ++ ".sync")] else []) ++ [Opens name].
Fixpoint happens (m : mode) (y : bool) (name : string) (g : group) (w : work) : list happening :=
  match w with
  | Finish => []
  | Note key v r => (if shown m g then [Notes name key v] else []) ++ happens m y name g r
  | Inside n g' sync inner r =>
      (if shown m g' then opening y n sync else []) ++ happens m y n g' inner ++ (if shown m g' then [Closes n] else []) ++ happens m y name g r
  end.
Definition section (m : mode) (y : bool) (name : string) (g : group) (sync : bool) (w : work) : list happening := happens m y name g (Inside name g sync w Finish).
Definition atStart (m : mode) (y mpi : bool) (w : work) : list happening :=
  [Opens "_GLOBAL"; Opens "construction"] ++ (if mpi then [Opens "com.initializeMPI"; Closes "com.initializeMPI"] else []) ++
  [Opens "configure"; Closes "configure"] ++ section m y "startProfilingBackend" GDefault false Finish ++ happens m y "construction" GFundamental w ++ [Closes "construction"] ++ opening y "solver.initialize" true.
(** the calls that are allowed: sections are closed before the coupling goes on *)
Record status := Status { started : bool; sections : list string }.
Definition during1 (m : mode) (y : bool) (st : status) (c : call) : option (status * list happening) :=
  match c with
  | StartSection n => if hasSlash n then None else Some (Status (started st) (n :: sections st), [Opens n])
  | StopSection => match sections st with [] => None | n :: r => Some (Status (started st) r, [Closes n]) end
  | Call n w => Some (st, section m y n GAPI false w)
  | Initialize w => if started st then None else match sections st with [] => Some (Status true [], [Closes "solver.initialize"] ++ section m y "initialize" GFundamental true w ++ opening y "solver.advance" true) | _ => None end
  | Advance w => if started st then match sections st with [] => Some (st, [Closes "solver.advance"] ++ section m y "advance" GFundamental true w ++ opening y "solver.advance" true) | _ => None end else None
  end.
Fixpoint duringAll (m : mode) (y : bool) (st : status) (cs : list call) : option (status * list happening) :=
  match cs with
  | [] => Some (st, [])
  | c :: r => match during1 m y st c with None => None | Some (st1, h) => match duringAll m y st1 r with None => None | Some (st2, h') => Some (st2, h ++ h') end end
  end.
Definition atEnd (m : mode) (y : bool) (st : status) (w : work) : list happening :=
  map Closes (sections st) ++ (if started st then [Closes "solver.advance"] else []) ++ section m y "finalize" GFundamental false w ++ [Closes "_GLOBAL"].

(** names without slashes *)
Fixpoint plain (w : work) : Prop := match w with Finish => True | Note _ _ r => plain r | Inside n _ _ i r => hasSlash n = false /\ plain i /\ plain r end.
Definition plainCall (c : call) : Prop := match c with Call n w => hasSlash n = false /\ plain w | Initialize w | Advance w => plain w | _ => True end.

(** the last opened section is closed first: [open] are the sections that are open *)
Fixpoint nests (open : list string) (l : list happening) : option (list string) :=
  match l with
  | [] => Some open
  | Opens n :: r => nests (n :: open) r
  | Closes n :: r => match open with x :: o => if String.eqb n x then nests o r else None | [] => None end
  | Notes n _ _ :: r => if existsb (String.eqb n) open then nests open r else None
  end.
