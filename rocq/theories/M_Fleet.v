(** Many participants with several explicit coupling schemes.

    Models how src/cplscheme/config/CouplingSchemeConfiguration.cpp 394-427 gives every participant its
    side of the <coupling-scheme> elements, in the order of the configuration, and the solvers that run
    with the composition (M_Comp).

    Simplifications: those of M_Comp.  A participant with one scheme also runs it as a composition; the
    code then uses the scheme itself (lines 399-404), which does the same calls. *)
From Coq Require Import ZArith Bool List Arith.
From Verif Require Import M_Net M_Time M_Wave M_Cpl M_Comp.
Import ListNotations.
Open Scope nat_scope.

(** a <coupling-scheme:serial-explicit> or <coupling-scheme:parallel-explicit> element: its participants
    and what is configured for each of them *)
Record coupling := Coupling { cp_kind : kind; cp_first : nat; cp_second : nat; cp_A : conf; cp_B : conf }.
(** the couplings of participant [i], with their numbers in the configuration *)
Definition mine (cs : list coupling) (i : nat) : list (nat * coupling) :=
  filter (fun p => (cp_first (snd p) =? i) || (cp_second (snd p) =? i)) (combine (seq 0 (length cs)) cs).
Definition side (i : nat) (x : coupling) : scheme := (cp_kind x, if cp_first x =? i then cp_A x else cp_B x).
(** CouplingSchemeConfiguration.cpp 394-427 *)
Definition composition (cs : list coupling) (i : nat) : cconf := CConf (map (fun p => side i (snd p)) (mine cs i)) None.

Section Fleet.
Context {V : Type}.
Variables (gnone vzero : V).
Notation cst := (cst (V:=V)).
Notation env := (env (V:=V)).
(** the values and the steps of the solvers *)
Variable Es : nat -> nat -> env.
Variable step : nat -> cst -> Z.
Variable cs : list coupling.

(** the loop of the solvers around the API, as in M_Cpl *)
Definition fleetLoop (i : nat) (s : cst) : option (proc (msg V) cst) :=
  if cOngoing (composition cs i) s then Some (cAdvance gnone (Es i) (composition cs i) (step i s) (cAnswer s)) else None.
Definition fleetStart (i : nat) : proc (msg V) cst := cInitialize gnone vzero (Es i) (composition cs i).
Definition fleet (n : nat) : net (M:=msg V) (S:=cst) := map fleetStart (seq 0 n).
End Fleet.
