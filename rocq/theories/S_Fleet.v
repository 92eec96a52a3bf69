(** Which compositions of explicit schemes can be executed (C71). *)
From Coq Require Import ZArith Bool List Arith Sorted.
From Verif Require Import M_Net M_Time M_Cpl M_Comp S_Cpl S_Comp M_Fleet.
Import ListNotations.
Open Scope Z_scope.

(** [n] participants, all windows of size [w], the same limits everywhere, and both sides of every coupling agree *)
Record well_configured (n : nat) (eps w : Z) (T M : option Z) (cs : list coupling) : Prop := {
  wc_eps : 0 <= eps < w;
  wc_T : forall t, T = Some t -> eps < t;
  wc_M : forall m, M = Some m -> 1 <= m;
  wc_limited : T <> None \/ M <> None;
  wc_couplings : forall x, In x cs ->
    (cp_first x < n)%nat /\ (cp_second x < n)%nat /\ cp_first x <> cp_second x /\
    c_partner (cp_A x) = cp_second x /\ c_partner (cp_B x) = cp_first x /\
    c_first (cp_A x) = true /\ c_first (cp_B x) = false /\
    c_recv (cp_B x) = c_send (cp_A x) /\ c_recv (cp_A x) = c_send (cp_B x) /\
    forall c, c = cp_A x \/ c = cp_B x -> c_implicit c = false /\ c_eps c = eps /\ c_maxTime c = T /\ c_maxWindows c = M /\ fixed (cp_kind x) c w
}.

(** the second participant of a serial coupling waits for the first one *)
Definition waits (i : nat) (x : coupling) : bool := match cp_kind x with Serial => (cp_second x =? i)%nat | Parallel => false end.
Definition initialized (x : coupling) : bool := sendsInitialized (cp_A x) || sendsInitialized (cp_B x).

(** A timetable: when the data of the first participant and the answer of the second are exchanged in the first
    window of each coupling, the period of the windows, and when initial data is exchanged. *)
Record timetable := Timetable { tt_data : nat -> Z; tt_answer : nat -> Z; tt_initial : nat -> Z; tt_period : Z }.
(** in every call of advance a participant first does its early and then its late exchanges, each in the order of the configuration *)
Definition early (tt : timetable) (i : nat) (p : nat * coupling) : Z := if waits i (snd p) then tt_answer tt (fst p) else tt_data tt (fst p).
Definition late (tt : timetable) (i : nat) (p : nat * coupling) : Z := if waits i (snd p) then tt_data tt (fst p) + tt_period tt else tt_answer tt (fst p).
(** in initialize: initial data, and the wait for the first window *)
Definition at_start (tt : timetable) (i : nat) (p : nat * coupling) : list Z :=
  (if initialized (snd p) then [tt_initial tt (fst p)] else []) ++ (if waits i (snd p) then [tt_data tt (fst p)] else []).
(** all participants can keep the timetable *)
Definition kept (tt : timetable) (cs : list coupling) : Prop := forall i,
  let l := mine cs i in
  StronglySorted Z.lt (map (early tt i) l ++ map (late tt i) l) /\
  (forall p q, In p l -> In q l -> late tt i p < early tt i q + tt_period tt) /\
  StronglySorted Z.lt (flat_map (at_start tt i) l) /\
  (forall t q, In t (flat_map (at_start tt i) l) -> In q l -> t < early tt i q).

(** Levels: the second participant of a serial coupling is one level above the first, participants of a parallel
    coupling are on the same level. *)
Definition levelled (lv : nat -> Z) (cs : list coupling) : Prop := forall x, In x cs ->
  lv (cp_second x) = match cp_kind x with Serial => lv (cp_first x) + 1 | Parallel => lv (cp_first x) end.
(** nobody waits for a first window before it exchanges initial data *)
Definition initial_first (cs : list coupling) : Prop := forall i a x b y, nth_error cs a = Some x -> nth_error cs b = Some y ->
  (a < b)%nat -> waits i x = true -> initialized y = true -> cp_first y <> i /\ cp_second y <> i.

(** couplings that form trees: each one brings a new participant *)
Inductive tree : list coupling -> Prop :=
| tree_nil : tree []
| tree_cons x cs : tree cs -> cp_first x <> cp_second x ->
    (forall y, In y cs -> cp_first y <> cp_second x /\ cp_second y <> cp_second x) \/ (forall y, In y cs -> cp_first y <> cp_first x /\ cp_second y <> cp_first x) -> tree (x :: cs).
