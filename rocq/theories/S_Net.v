(** Specification of a coupling of two participants, each running
      initialize(); while (isCouplingOngoing()) { answer requests; advance(dt) }. *)
From Coq Require Import ZArith Bool List.
From Verif Require Import M_Net M_Time M_Wave M_Cpl S_Prog S_Cpl.
Import ListNotations.
Open Scope Z_scope.

(** the two sides of one <coupling-scheme> element; [cA] is the first and [cB]
    the second participant *)
Record partners (cA cB : conf) : Prop := {
  pt_eps : c_eps cB = c_eps cA;
  pt_eps0 : 0 <= c_eps cA;
  pt_implicit : c_implicit cB = c_implicit cA;
  pt_firstA : c_first cA = true;
  pt_firstB : c_first cB = false;
  pt_maxTime : c_maxTime cB = c_maxTime cA;
  pt_maxWindows : c_maxWindows cB = c_maxWindows cA;
  pt_pA : c_partner cA = 1%nat;
  pt_pB : c_partner cB = 0%nat;
  pt_AB : c_recv cB = c_send cA;
  pt_BA : c_recv cA = c_send cB;
  pt_T : forall T, c_maxTime cA = Some T -> c_eps cA < T;
  pt_N : forall n, c_maxWindows cA = Some n -> 1 <= n
}.

(** method="fixed" with time-window-size [w] *)
Definition fixed_window (w : Z) (cA cB : conf) : Prop :=
  c_tws cA = Some w /\ c_tws cB = Some w /\ c_eps cA < w /\
  c_sets cA = false /\ c_recvs cA = false /\ c_sets cB = false /\ c_recvs cB = false.

(** method="first-participant" *)
Definition first_participant (cA cB : conf) : Prop :=
  c_tws cA = None /\ c_tws cB = None /\
  c_sets cA = true /\ c_recvs cA = false /\ c_sets cB = false /\ c_recvs cB = true.

Section Net.
Context {V : Type}.
Variables (gnone vzero : V).
Notation st := (st (V:=V)).
Notation env := (env (V:=V)).

(** the solver uses the maximal step or one that leaves more than the tolerance;
    a participant that sets the window size ends the window with each step *)
Definition exact_solver (c : conf) (E : env) : Prop :=
  forall s, isCouplingOngoing c s = true -> th_max (s_time s) = c_maxTime c ->
  (c_sets c = true -> s_tws s = None /\ th_prog (s_time s) = 0) ->
  match getMaxTimeStepSize c s with
  | None => c_eps c < e_dt E s
  | Some m => c_eps c < m -> c_eps c < e_dt E s /\ (e_dt E s = m \/ e_dt E s < m - c_eps c)
  end.

(** one outcome per convergence measure; strict measures converge in time *)
Definition measures_ok (c : conf) (E : env) : Prop :=
  forall s, length (e_measure E s) = length (c_measures c) /\
  (strict_failed (combine (c_measures c) (e_measure E s)) -> exists mx, c_maxIt c = Some mx /\ s_it s < mx).

(** the step size depends on the window only, not on the iteration.  Every run
    of an explicit coupling is also a run of such a solver, because each window
    is computed once. *)
Definition repeats_steps (E : env) : Prop := exists f, forall s, e_dt E s = f (th_start (s_time s)).

(** no window is cut short by max-time, or all data from the first to the
    second participant is exchanged with substeps *)
Definition cut_safe (w : Z) (cA : conf) : Prop :=
  (forall d, In d (c_send cA) -> d_sub d = true) \/ (forall T, c_maxTime cA = Some T -> (w | T)).

Definition couple (k : kind) (cA cB : conf) (EA EB : env) (i : nat) (s : st) : option (proc (msg V) st) :=
  match i with
  | 0%nat => solverLoop gnone k EA cA s
  | 1%nat => solverLoop gnone k EB cB s
  | _ => None
  end.
Definition start (k : kind) (cA cB : conf) (EA EB : env) : net (M:=msg V) (S:=st) :=
  [solverStart gnone vzero k EA cA; solverStart gnone vzero k EB cB].

(** Both participants see the same sequence of window iterations (time at the
    start of the next iteration, window number, completed?, ongoing?), and the
    n-th data block received is the n-th data block sent by the partner. *)
Definition agree (sA sB : st) : Prop :=
  (forall n x y, nth_error (s_hist sA) n = Some x -> nth_error (s_hist sB) n = Some y -> x = y) /\
  (forall n x y, nth_error (s_sent sA) n = Some x -> nth_error (s_rcvd sB) n = Some y -> x = y) /\
  (forall n x y, nth_error (s_sent sB) n = Some x -> nth_error (s_rcvd sA) n = Some y -> x = y).
Definition agree_fully (sA sB : st) : Prop :=
  s_hist sA = s_hist sB /\ s_sent sA = s_rcvd sB /\ s_sent sB = s_rcvd sA.

(** what must hold in every configuration [c] of the coupled processes *)
Record coupled_ok (body : nat -> st -> option (proc (msg V) st)) (can_step : Prop) (c : net) : Prop := {
  ok_no_error : ~ some_error c;
  ok_no_deadlock : all_finished body c \/ can_step;
  ok_agree : forall sA sB, c = [PRet sA; PRet sB] -> agree sA sB;
  ok_finished : forall sA sB, c = [PRet sA; PRet sB] -> all_finished body c -> agree_fully sA sB
}.

(** ... for blocking sends that wait for the receiver, and for buffered sends *)
Definition coupling_correct (k : kind) (cA cB : conf) (EA EB : env) : Prop :=
  let body := couple k cA cB EA EB in
  (forall c, reaches (sstep body) (start k cA cB EA EB) c ->
     coupled_ok body (exists l c', sstep body l c c') c) /\
  (forall x, reaches (astep body) (start k cA cB EA EB, emptych 2) x ->
     coupled_ok body (exists l x', astep body l x x') (fst x)).
End Net.
