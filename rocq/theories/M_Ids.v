(** The numbers of meshes and data: utils/ManageUniqueIDs.cpp and its use in mesh/config/MeshConfiguration.cpp. *)
From Coq Require Import Bool String List Arith ZArith.
Import ListNotations.
Local Open Scope Z_scope.
Local Open Scope list_scope.

Inductive res (A : Type) := Ok (a : A) | Reported | Undefined.
Arguments Ok {A}. Arguments Reported {A}. Arguments Undefined {A}.
Definition bindR {A B} (x : res A) (f : A -> res B) : res B := match x with Ok a => f a | Reported => Reported | Undefined => Undefined end.

(** ManageUniqueIDs.hpp 27-32: boost::container::flat_set<int>, sorted, and the limit *)
Record manager := Manager { ids : list Z; lowerLimit : Z }.
Definition fresh : manager := Manager [] 0.
(** flat_set::find and insert; the hint does not matter *)
Definition find (z : Z) (l : list Z) : bool := existsb (Z.eqb z) l.
Fixpoint insert (z : Z) (l : list Z) : list Z :=
  match l with [] => [z] | y :: r => if z <? y then z :: l else if z =? y then l else y :: insert z r end.
(** signed addition of one to an int overflows *)
Definition increment (z : Z) : res Z := if z <? 2 ^ 31 - 1 then Ok (z + 1) else Undefined.
(** the loop of getFreeID, ManageUniqueIDs.cpp 8-14; None: it does not end within [fuel] rounds *)
Fixpoint search (fuel : nat) (l : list Z) (limit : Z) : option (res Z) :=
  match fuel with
  | O => None
  | S f => match increment limit with
           | Ok next => if find limit l then search f l next else Some (Ok next)
           | Reported => Some Reported | Undefined => Some Undefined
           end
  end.
(** getFreeID 6-17; a loop that does not end is undefined behaviour as well *)
Definition getFreeID (m : manager) : res (manager * Z) :=
  match search (S (length (ids m))) (ids m) (lowerLimit m) with
  | None => Undefined
  | Some r => bindR r (fun limit => Ok (Manager (insert (limit - 1) (ids m)) limit, limit - 1))
  end.
(** insertID 19-27 and resetIDs 29-33 *)
Definition insertID (m : manager) (z : Z) : manager * bool :=
  if find z (ids m) then (m, false) else (Manager (insert z (ids m)) (lowerLimit m), true).
Definition resetIDs (m : manager) : manager := Manager [] 0.

(** a history of calls and what they return *)
Inductive op := GetFree | Insert (z : Z) | Reset.
Inductive answer := Number (z : Z) | Inserted (z : Z) (b : bool) | Done.
Definition perform (m : manager) (o : op) : res (manager * answer) :=
  match o with
  | GetFree => bindR (getFreeID m) (fun p => Ok (fst p, Number (snd p)))
  | Insert z => let p := insertID m z in Ok (fst p, Inserted z (snd p))
  | Reset => Ok (resetIDs m, Done)
  end.
Fixpoint history (m : manager) (os : list op) : res (list answer) :=
  match os with [] => Ok [] | o :: r => bindR (perform m o) (fun p => bindR (history (fst p) r) (fun l => Ok (snd p :: l))) end.

(** MeshConfiguration::xmlTagCallback 64-96: mesh tags with the names of their use-data subtags; [known] are the names of data tags;
    both managers are members.  Other parameters of meshes and data, and the checks of repeated names ([M_Wiring]), are left out. *)
Record mesh := Mesh { m_name : string; m_id : Z; m_data : list (string * Z) }.
Record state := State { meshes : list mesh; meshIDs : manager; dataIDs : manager }.
Fixpoint useData (known : list string) (s : manager) (names : list string) : res (manager * list (string * Z)) :=
  match names with
  | [] => Ok (s, [])
  | n :: r => if existsb (String.eqb n) known
              then bindR (getFreeID s) (fun p => bindR (useData known (fst p) r) (fun q => Ok (fst q, (n, snd p) :: snd q)))
              else Reported
  end.
Fixpoint configure (known : list string) (s : state) (tags : list (string * list string)) : res state :=
  match tags with
  | [] => Ok s
  | (name, names) :: r =>
      bindR (getFreeID (meshIDs s)) (fun p =>
      bindR (useData known (dataIDs s) names) (fun q =>
      configure known (State (meshes s ++ [Mesh name (snd p) (snd q)]) (fst p) (fst q)) r))
  end.
