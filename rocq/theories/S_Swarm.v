(** Specification vocabulary for the connections between participants. *)
From Coq Require Import List Arith String Ascii Bool.
From Verif Require Import M_Net S_Term M_Swarm.
Import ListNotations.
Open Scope nat_scope.

(** participants [i] and [j] are named together in an <m2n> tag *)
Definition linked (tags : list m2nTag) (i j : nat) : Prop :=
  In (mkTag i j) tags \/ In (mkTag j i) tags.

(** no tag connects a participant with itself *)
Definition no_self_link (tags : list m2nTag) : Prop := forall t, In t tags -> acceptor t <> connector t.

(** the connections of all [n] participants of a configuration that preCICE accepts *)
Definition configured (n : nat) (tags : list m2nTag) (m2ns : nat -> list bm2n) : Prop :=
  configuredM2Ns tags = Some tags /\ forall i, i < n -> getBoundM2NsFor n i tags = Some (m2ns i).

(** the same connections once the primary, and the secondary ranks, are connected *)
Definition connected (sec : bool) (m2ns : list bm2n) : list bm2n :=
  map (fun b => mkB (remote b) (isRequesting b) true sec) m2ns.
Definition closed (m2ns : list bm2n) : list bm2n :=
  map (fun b => mkB (remote b) (isRequesting b) false false) m2ns.

(** [s] contains no semicolon *)
Fixpoint no_semicolon (s : string) : Prop :=
  match s with EmptyString => True | String c r => c <> ";"%char /\ no_semicolon r end.

(** a program that reports how it ended instead of failing *)
Fixpoint outcome {M A} (p : proc M A) : proc M (A + err) :=
  match p with
  | PRet a => PRet (inl a)
  | PErr e => PRet (inr e)
  | PSend d m k => PSend d m (outcome k)
  | PRecv s k => PRecv s (fun m => outcome (k m))
  end.

(** participants that may or may not have called a function yet: [Waiting] has
    not, [Done x] has returned from it with [x] *)
Inductive caller (A : Type) := Waiting | Done (a : A).
Arguments Waiting {A}. Arguments Done {A}.
Definition calls {M A} (prog : nat -> proc M A) (i : nat) (s : caller A) : option (proc M (caller A)) :=
  match s with Waiting => Some (bind (prog i) (fun a => PRet (Done a))) | Done _ => None end.
