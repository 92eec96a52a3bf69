(** Communicating processes.

    Ranks and participants of preCICE talk through blocking point-to-point
    calls: [Communication::send]/[receive] (src/com/Communication.hpp) and
    [M2N::send]/[receive] (src/m2n/M2N.cpp 150-454).  A program is a tree of
    such calls.  Where preCICE raises an error ([PRECICE_CHECK]) or trips an
    internal assertion ([PRECICE_ASSERT]) the program ends in [PErr].

    Simplification: addresses are process numbers; a connection between two
    processes is a pair of directed channels.  Messages never get lost
    (TCP / MPI guarantee). *)
From Coq Require Import List Arith Lia.
Import ListNotations.

Inductive err :=
| ECheck (code : nat)    (* PRECICE_CHECK / PRECICE_ERROR: reported to the user *)
| EAssert (code : nat).  (* PRECICE_ASSERT: internal invariant violated *)

Inductive proc (M A : Type) : Type :=
| PRet (a : A)
| PErr (e : err)
| PSend (dst : nat) (m : M) (k : proc M A)
| PRecv (src : nat) (k : M -> proc M A).
Arguments PRet {M A}. Arguments PErr {M A}. Arguments PSend {M A}. Arguments PRecv {M A}.

Fixpoint bind {M A B} (p : proc M A) (f : A -> proc M B) : proc M B :=
  match p with
  | PRet a => f a
  | PErr e => PErr e
  | PSend d m k => PSend d m (bind k f)
  | PRecv s k => PRecv s (fun m => bind (k m) f)
  end.

Definition send {M} (d : nat) (m : M) : proc M unit := PSend d m (PRet tt).
Definition recv {M} (s : nat) : proc M M := PRecv s (fun m => PRet m).

Declare Scope proc_scope.
Delimit Scope proc_scope with proc.
Notation "x <- p ;; q" := (bind p (fun x => q))
  (at level 61, p at next level, right associativity) : proc_scope.
Notation "p ;;; q" := (bind p (fun _ => q))
  (at level 61, right associativity) : proc_scope.

(** PRECICE_CHECK / PRECICE_ASSERT: src/logging/LogMacros.hpp, src/utils/assertion.hpp *)
Definition check {M} (b : bool) (e : err) : proc M unit := if b then PRet tt else PErr e.

Fixpoint upd {A} (n : nat) (x : A) (l : list A) : list A :=
  match l, n with
  | [], _ => []
  | _ :: r, O => x :: r
  | y :: r, S n' => y :: upd n' x r
  end.

(** A network: process [i], when it has returned local state [s], goes on with
    [body i s] if that is [Some p], and has finished if it is [None].  This is
    the solver's loop around the preCICE API. *)
Section Semantics.
Context {M S : Type}.
Variable body : nat -> S -> option (proc M S).

Definition net := list (proc M S).

(** Rendezvous semantics: a send completes only together with the matching
    receive (the weakest guarantee an MPI or socket send gives).  The label
    names the sender and the receiver; (i,i) is a local loop step. *)
Inductive sstep : nat * nat -> net -> net -> Prop :=
| ss_comm i j m ki kj c :
    i <> j ->
    nth_error c i = Some (PSend j m ki) ->
    nth_error c j = Some (PRecv i kj) ->
    sstep (i, j) c (upd j (kj m) (upd i ki c))
| ss_loop i s p c :
    nth_error c i = Some (PRet s) ->
    body i s = Some p ->
    sstep (i, i) c (upd i p c).

(** Buffered semantics: unbounded FIFO channel per ordered pair. *)
Definition chans := list (list M).
Definition chidx (n i j : nat) := i * n + j.
Definition chget (n i j : nat) (q : chans) : list M := nth (chidx n i j) q [].
Definition chset (n i j : nat) (l : list M) (q : chans) : chans := upd (chidx n i j) l q.
Definition emptych (n : nat) : chans := repeat [] (n * n).

Inductive astep : nat -> net * chans -> net * chans -> Prop :=
| as_send i j m k c q :
    i <> j -> j < length c ->
    nth_error c i = Some (PSend j m k) ->
    astep i (c, q) (upd i k c, chset (length c) i j (chget (length c) i j q ++ [m]) q)
| as_recv i j m k c q r :
    i <> j -> j < length c ->
    nth_error c i = Some (PRecv j k) ->
    chget (length c) j i q = m :: r ->
    astep i (c, q) (upd i (k m) c, chset (length c) j i r q)
| as_loop i s p c q :
    nth_error c i = Some (PRet s) ->
    body i s = Some p ->
    astep i (c, q) (upd i p c, q).

Definition finished (i : nat) (p : proc M S) : Prop :=
  exists s, p = PRet s /\ body i s = None.

Definition all_finished (c : net) : Prop :=
  forall i p, nth_error c i = Some p -> finished i p.

Definition some_error (c : net) : Prop := exists i e, nth_error c i = Some (PErr e).

End Semantics.

(** Labelled runs of a step relation. *)
Inductive lrun {L C : Type} (step : L -> C -> C -> Prop) : list L -> C -> C -> Prop :=
| lr_nil c : lrun step [] c c
| lr_cons l w c1 c2 c3 : step l c1 c2 -> lrun step w c2 c3 -> lrun step (l :: w) c1 c3.

Definition reaches {L C : Type} (step : L -> C -> C -> Prop) (c c' : C) : Prop :=
  exists w, lrun step w c c'.
