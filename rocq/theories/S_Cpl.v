(** Specification of a single participant's coupling API, in terms of what the
    user calls and observes. *)
From Coq Require Import ZArith Bool List.
From Verif Require Import M_Net M_Time M_Cpl S_Prog.
Import ListNotations.
Open Scope Z_scope.

(** what the user can query after initialize() or advance():
    isTimeWindowComplete, requiresReadingCheckpoint, requiresWritingCheckpoint,
    isCouplingOngoing, getMaxTimeStepSize (None: no limit) *)
Record obs := Obs { o_complete : bool; o_read : bool; o_write : bool;
                    o_ongoing : bool; o_maxdt : option Z }.

(** API calls with the observation after the call; a history is a list of
    calls, latest first *)
Inductive event :=
| Initialized (o : obs)
| AskedRead                 (* requiresReadingCheckpoint() *)
| AskedWrite                (* requiresWritingCheckpoint() *)
| Advanced (dt : Z) (o : obs).
Definition history := list event.

(** the last observation of a history *)
Fixpoint last_obs (h : history) : option obs :=
  match h with
  | [] => None
  | Initialized o :: _ => Some o
  | Advanced _ o :: _ => Some o
  | _ :: r => last_obs r
  end.

(** number of windows the user saw completed *)
Fixpoint completed (h : history) : Z :=
  match h with
  | [] => 0
  | Advanced _ o :: r => (if o_complete o then 1 else 0) + completed r
  | _ :: r => completed r
  end.

(** time stepped since the last completed window or the last repetition *)
Fixpoint progress (h : history) : Z :=
  match h with
  | [] => 0
  | Advanced dt o :: r => if o_complete o || o_read o then 0 else dt + progress r
  | _ :: r => progress r
  end.

(** iterations of the current window, counting the one going on *)
Fixpoint iteration (h : history) : Z :=
  match h with
  | [] => 1
  | Advanced _ o :: r => if o_complete o then 1 else if o_read o then 1 + iteration r else iteration r
  | _ :: r => iteration r
  end.

(** every step was at most the observed maximal step size *)
Fixpoint follows_max (h : history) : Prop :=
  match h with
  | [] => True
  | Advanced dt _ :: r =>
      match last_obs r with
      | Some o => match o_maxdt o with Some m => dt <= m | None => True end
      | None => True
      end /\ follows_max r
  | _ :: r => follows_max r
  end.

(** requests that were not yet queried *)
Fixpoint pending_read (h : history) : bool :=
  match h with
  | [] => false
  | Initialized o :: _ => o_read o
  | Advanced _ o :: _ => o_read o
  | AskedRead :: _ => false
  | AskedWrite :: r => pending_read r
  end.
Fixpoint pending_write (h : history) : bool :=
  match h with
  | [] => false
  | Initialized o :: _ => o_write o
  | Advanced _ o :: _ => o_write o
  | AskedWrite :: _ => false
  | AskedRead :: r => pending_write r
  end.

(** the smaller of two step limits; no limit is [None] *)
Definition min_limit (a b : option Z) : option Z :=
  match a, b with
  | None, x => x
  | x, None => x
  | Some x, Some y => Some (Z.min x y)
  end.

Section Run.
Context {V : Type}.
Variables (gnone vzero : V).

Definition observe (c : conf) (s : st (V:=V)) : obs :=
  Obs (s_compl s) (a_read (s_req s)) (a_write (s_req s)) (isCouplingOngoing c s) (getMaxTimeStepSize c s).

(** All histories of API calls of one participant that raised no error, for
    arbitrary partners (any received messages), arbitrary written data and
    arbitrary outcomes of measures and acceleration (a new [env] per call). *)
Inductive run (k : kind) (c : conf) : history -> st (V:=V) -> Prop :=
| run_init E s' :
    returns (p_initialize gnone vzero k E c (st0 c)) s' ->
    run k c [Initialized (observe c s')] s'
| run_init_asked E s' : (* requiresInitialData() was queried before *)
    returns (p_initialize gnone vzero k E c (answerInit (st0 c))) s' ->
    run k c [Initialized (observe c s')] s'
| run_ask_read h s : run k c h s -> run k c (AskedRead :: h) (answerRead s)
| run_ask_write h s : run k c h s -> run k c (AskedWrite :: h) (answerWrite s)
| run_adv h s E dt s' :
    run k c h s ->
    returns (p_advance gnone k E c dt s) s' ->
    run k c (Advanced dt (observe c s') :: h) s'.

End Run.

(** The documented convergence rule.  [ms]: for each measure (suffices, strict,
    converged). *)
Definition converged (minIt it : Z) (maxIt : option Z) (ms : list (bool * bool * bool)) : Prop :=
  (ms <> [] /\ minIt <= it /\
   ((forall m, In m ms -> snd m = true) \/
    ((exists m, In m ms /\ fst (fst m) = true /\ snd m = true) /\
     (forall m, In m ms -> snd (fst m) = true -> snd m = true))))
  \/ maxIt = Some it.

(** some strict measure has not converged *)
Definition strict_failed (ms : list (bool * bool * bool)) : Prop :=
  exists m, In m ms /\ snd (fst m) = true /\ snd m = false.


(** configurations the parser can produce: only the first participant of a
    serial scheme sets the window size, only the second one receives it *)
Definition wf_method (k : kind) (c : conf) : Prop :=
  (c_sets c = true -> k = Serial /\ c_first c = true /\ c_tws c = None) /\
  (c_recvs c = true -> k = Serial /\ c_first c = false /\ c_tws c = None) /\
  (c_tws c = None -> c_sets c = true \/ c_recvs c = true).


(** a participant with a configured time-window-size [w] *)
Definition fixed (k : kind) (c : conf) (w : Z) : Prop :=
  wf_method k c /\ 0 <= c_eps c /\ c_tws c = Some w.


(** stepping by [dt] reaches, up to the tolerance, the end of the window or
    max-time *)
Definition window_end (c : conf) (w : Z) (h : history) (dt : Z) : Prop :=
  Z.abs (w - (progress h + dt)) <= c_eps c \/ 
  (exists T, c_maxTime c = Some T /\ Z.abs (T - (completed h * w + progress h + dt)) <= c_eps c).

(** every step is the maximal one or smaller by more than the tolerance *)
Fixpoint exact_steps (eps : Z) (h : history) : Prop :=
  match h with
  | [] => True
  | Advanced dt _ :: r =>
      match last_obs r with
      | Some o => match o_maxdt o with Some m => dt = m \/ dt < m - eps | None => True end
      | None => True
      end /\ exact_steps eps r
  | _ :: r => exact_steps eps r
  end.


(** errors of an advance() that are not about the time step or about ignored
    requests: no samples to send, the first participant changed the window size
    within a window, a strict measure failed *)
Definition comm_codes (n : nat) : Prop := n = 21%nat \/ n = 22%nat \/ n = 24%nat.
