(** Mapping the samples of a time window: which time stamps are mapped when.

    Modelled code: src/precice/impl/DataContext.cpp 110-174 (mapData),
    ReadDataContext.cpp 67-93, WriteDataContext.cpp 21-30 and 128-131, and of
    src/precice/impl/ParticipantImpl.cpp: handleDataBeforeAdvance 468-494,
    handleDataAfterAdvance 496-543, samplizeWriteData 545-568, trimOldDataBefore
    570-578, trimSendDataAfter 580-585, mapInitialWrittenData 1644-1658,
    mapWrittenData 1660-1674, trimReadMappedData 1676-1693, mapInitialReadData
    1695-1711, mapReadData 1713-1729; cplscheme/ImplicitData.hpp.

    Simplifications: samples are abstract, a mapping is a function on samples and
    the norm test of line 150 a predicate (see M_Map for the mappings
    themselves).  Actions, exports, initial guesses and the caches of just-in-time
    mappings are left out.  All waveforms of a participant are in one store,
    addressed by the ID of the data. *)
From Coq Require Import ZArith Bool List Arith.
From Verif Require Import M_Time M_Wave.
Import ListNotations.
Open Scope nat_scope.

Section MapTime.
Context {X : Type}.
Variable eps : Z.
Variable small : X -> bool.      (* utils::IntraComm::l2norm(values) < NUMERICAL_ZERO_DIFFERENCE *)

(** impl::MappingContext: source, target, the mapping and the zeros of the output mesh *)
Record context := Ctx { cx_from : nat; cx_to : nat; cx_map : X -> X; cx_zero : X }.

(** all waveforms *)
Definition store := nat -> wave X.
Definition upd (s : store) (d : nat) (w : wave X) : store := fun e => if e =? d then w else s e.

(** a result, an error reported to the user (PRECICE_CHECK), a failing assertion *)
Inductive res (A : Type) := Ok (a : A) | Reported | Asserted.
Arguments Ok {A} a.
Arguments Reported {A}.
Arguments Asserted {A}.
Definition bindR {A B} (r : res A) (f : A -> res B) : res B :=
  match r with Ok a => f a | Reported => Reported | Asserted => Asserted end.

(** DataContext.cpp 126-131: the times are taken once, before the loop *)
Definition timestampExists (times : list Z) (lookup : Z) : bool := existsb (fun t => equals eps t lookup) times.

(** the loop of lines 137-172; the number counts executed mappings *)
Fixpoint mapStamples (c : context) (after : option Z) (skipZero : bool) (times : list Z) (l to : wave X) (n : nat)
  : res (wave X * nat) :=
  match l with
  | [] => Ok (to, n)
  | (t, x) :: r =>
      let skip := match after with Some a => smallerEquals eps t a | None => false end in
      if skip then mapStamples c after skipZero times r to n
      else if timestampExists times t then mapStamples c after skipZero times r to n
      else
        let skipMapping := skipZero && small x in
        let out := if skipMapping then cx_zero c else cx_map c x in
        match w_set eps to t out with
        | None => Asserted
        | Some to' => mapStamples c after skipZero times r to' (if skipMapping then n else S n)
        end
  end.

(** one turn of the loop of lines 118-173 *)
Definition mapContext (after : option Z) (skipZero : bool) (c : context) (s : store) : res (store * nat) :=
  match s (cx_from c) with
  | [] => Reported
  | l => bindR (mapStamples c after skipZero (map fst (s (cx_to c))) l (s (cx_to c)) 0)
               (fun r => Ok (upd s (cx_to c) (fst r), snd r))
  end.

(** DataContext.cpp 110-174 *)
Fixpoint mapData (after : option Z) (skipZero : bool) (contexts : list context) (s : store) (n : nat) : res (store * nat) :=
  match contexts with
  | [] => Ok (s, n)
  | c :: r => bindR (mapContext after skipZero c s) (fun q => mapData after skipZero r (fst q) (n + snd q))
  end.

(** * A participant *)

(** WriteDataContext: the data that is written, its dimension-free buffer is an
    argument below, and its mappings *)
Record writeContext := WCtx { wc_data : nat; wc_mappings : list context }.
(** the read contexts that have a mapping have exactly one (ReadDataContext.cpp 14-27) *)
Record participant := Part { readContexts : list context; writeContexts : list writeContext }.

(** ImplicitData: for the data received by an implicit scheme, is its last sample to be kept *)
Definition implicitData := nat -> option bool.

(** ParticipantImpl.cpp 545-568: [buffer d] are the values written for data [d] *)
Fixpoint samplize (cs : list writeContext) (t : Z) (buffer : nat -> X) (s : store) : res store :=
  match cs with
  | [] => Ok s
  | c :: r => match w_set eps (s (wc_data c)) t (buffer (wc_data c)) with
              | None => Asserted
              | Some w => samplize r t buffer (upd s (wc_data c) w)
              end
  end.

(** 1660-1674 and 1644-1658 *)
Fixpoint mapWritten (cs : list writeContext) (after : option Z) (skipZero : bool) (s : store) (n : nat) : res (store * nat) :=
  match cs with
  | [] => Ok (s, n)
  | c :: r => bindR (mapData after skipZero (wc_mappings c) s n) (fun q => mapWritten r after skipZero (fst q) (snd q))
  end.

(** 1713-1729 and 1695-1711 *)
Definition mapRead (p : participant) (skipZero : bool) (s : store) : res (store * nat) :=
  mapData None skipZero (readContexts p) s 0.

(** 570-578 *)
Definition trimOldDataBefore (t : Z) (s : store) : store := fun d => w_trimBefore eps (s d) t.

(** WriteDataContext.cpp 21-30 and ParticipantImpl.cpp 580-585 *)
Definition trimSend (c : writeContext) (t : Z) (s : store) : store :=
  fold_left (fun s d => upd s d (w_trimAfter eps (s d) t)) (wc_data c :: map cx_to (wc_mappings c)) s.
Definition trimSendDataAfter (p : participant) (t : Z) (s : store) : store :=
  fold_left (fun s c => trimSend c t s) (writeContexts p) s.

(** ReadDataContext.cpp 67-81 and 83-93, ParticipantImpl.cpp 1676-1693 *)
Definition trimRead (complete : bool) (t : Z) (rcv : implicitData) (s : store) (c : context) : store :=
  match rcv (cx_from c) with
  | None => s
  | Some keep =>
      upd s (cx_to c) (if complete then (if keep then w_clearExceptLast (s (cx_to c)) else w_clear (s (cx_to c)))
                       else w_trimAfter eps (s (cx_to c)) t)
  end.
Definition trimReadMappedData (p : participant) (t : Z) (complete : bool) (rcv : implicitData) (s : store) : store :=
  fold_left (trimRead complete t rcv) (readContexts p) s.

(** 468-494; [windowStart] is the start of the current window *)
Definition handleDataBeforeAdvance (p : participant) (atEnd substeps : bool) (t windowStart : Z) (buffer : nat -> X) (s : store)
  : res store :=
  bindR (if atEnd || substeps then samplize (writeContexts p) t buffer s else Ok s)
  (fun s1 => if atEnd then bindR (mapWritten (writeContexts p) (Some windowStart) false s1 0) (fun q => Ok (fst q)) else Ok s1).

(** 496-543; [windowStart] after the advance, [timeSteppedTo] before and
    [timeAfterAdvance] after it *)
Definition handleDataAfterAdvance (p : participant) (atEnd complete : bool) (timeSteppedTo timeAfterAdvance windowStart : Z)
  (rcv : implicitData) (s : store) : res store :=
  if negb atEnd then Ok s else
  if complete then
    if greaterEquals eps timeAfterAdvance timeSteppedTo then
      bindR (mapRead p false (trimReadMappedData p timeAfterAdvance true rcv (trimOldDataBefore windowStart s))) (fun q => Ok (fst q))
    else Asserted
  else
    if greater eps timeSteppedTo timeAfterAdvance then
      bindR (mapRead p false (trimReadMappedData p timeAfterAdvance false rcv (trimSendDataAfter p timeAfterAdvance s))) (fun q => Ok (fst q))
    else Asserted.
End MapTime.
Arguments Ok {A} a.
Arguments Reported {A}.
Arguments Asserted {A}.
Arguments context X : clear implicits.
Arguments store X : clear implicits.
Arguments participant X : clear implicits.
Arguments writeContext X : clear implicits.
