(** Coupling schemes of one participant.

    Models src/cplscheme/BaseCouplingScheme.cpp, SerialCouplingScheme.cpp,
    ParallelCouplingScheme.cpp, BiCouplingScheme.cpp and the parts of
    src/precice/impl/ParticipantImpl.cpp that call them (initialize, advance).

    Simplifications:
    - one process per participant (the ranks of a participant act as one; the
      distribution to ranks is modelled separately);
    - all exchanged data is written and read directly (no mapping, no actions,
      no remeshing, no just-in-time mapping);
    - convergence measures and acceleration are arbitrary functions of the
      participant's state ([e_measure], [e_accel]); acceleration may change
      sample values but not time stamps;
    - the storage of the previous iteration (CouplingData.cpp 177-184) is only
      used by measures and acceleration and therefore not part of the state;
    - text log files are not modelled;
    - window and iteration counters are unbounded integers. *)
From Coq Require Import ZArith Bool List Lia.
From Verif Require Import M_Net M_Time M_Wave.
Import ListNotations.
Open Scope Z_scope.
Open Scope proc_scope.

(** CouplingScheme::Action, src/cplscheme/CouplingScheme.hpp *)
Record acts := Acts { a_init : bool; a_read : bool; a_write : bool }.
Definition no_acts := Acts false false false.

(** one exchanged data: substeps (CouplingData::exchangeSubsteps),
    initialization required, gradients *)
Record dspec := DSpec { d_sub : bool; d_init : bool; d_grad : bool }.

(** time::Sample: values and gradients *)
Definition smp (V : Type) : Type := V * V.

(** what a receiver is meant to see: time stamps and samples if substeps are
    exchanged, the last sample otherwise *)
Definition view (V : Type) : Type := (list Z * list (smp V))%type.

Inductive msg (V : Type) :=
| MInt (n : Z) | MTime (t : Z) | MTimes (l : list Z)
| MVals (l : list V) | MGrads (l : list V) | MBool (b : bool).
Arguments MInt {V}. Arguments MTime {V}. Arguments MTimes {V}.
Arguments MVals {V}. Arguments MGrads {V}. Arguments MBool {V}.

(** ghost record of an iteration: window start and window counter after it,
    was it converged/complete, is the coupling ongoing *)
Record hist := Hist { h_start : Z; h_windows : Z; h_complete : bool; h_ongoing : bool }.

(** static configuration of one participant's scheme (constructor arguments,
    BaseCouplingScheme.cpp 35-90, SerialCouplingScheme.cpp 21-47) *)
Record conf := Conf {
  c_eps : Z;                        (* NUMERICAL_ZERO_DIFFERENCE *)
  c_implicit : bool;                (* _couplingMode *)
  c_first : bool;                   (* doesFirstStep *)
  c_sets : bool;                    (* _participantSetsTimeWindowSize *)
  c_recvs : bool;                   (* _participantReceivesTimeWindowSize *)
  c_maxTime : option Z;
  c_maxWindows : option Z;
  c_tws : option Z;
  c_minIt : Z;
  c_maxIt : option Z;               (* None = INFINITE_MAX_ITERATIONS *)
  c_measures : list (bool * bool);  (* suffices, strict *)
  c_partner : nat;
  c_send : list dspec;
  c_recv : list dspec
}.

Section Scheme.
Context {V : Type}.
Variable gnone : V. (* empty gradient matrix *)
Variable vzero : V. (* zero-initialized values *)

Record st := St {
  s_time : thandler (* _time (BaseCouplingScheme.hpp) *);
  s_windows : Z (* _timeWindows *);
  s_tws : option Z (* _timeWindowSize; None = UNDEFINED_TIME_WINDOW_SIZE (-1) *);
  s_next : option Z (* _nextTimeWindowSize *);
  s_it : Z (* _iterations *);
  s_tot : Z (* _totalIterations *);
  s_conv : bool (* _hasConverged *);
  s_compl : bool (* _isTimeWindowComplete *);
  s_recvd : bool (* _hasDataBeenReceived *);
  s_req : acts (* _requiredActions *);
  s_ful : acts (* _fulfilledActions *);
  s_send : list (wave (smp V)) (* waveforms of _sendData, in data ID order *);
  s_recv : list (wave (smp V)) (* waveforms of _receiveData, in data ID order *);
  s_hist : list hist (* ghost: one entry per advance() that ended a window iteration *);
  s_sent : list (list (view V)) (* ghost: what each sendData handed over *);
  s_rcvd : list (list (view V)) (* ghost: what each receiveData left in the storage *)
}.

Definition set_s_time (x : thandler) (s : st) : st :=
  St x (s_windows s) (s_tws s) (s_next s) (s_it s) (s_tot s) (s_conv s) (s_compl s) (s_recvd s) (s_req s) (s_ful s) (s_send s) (s_recv s) (s_hist s) (s_sent s) (s_rcvd s).
Definition set_s_windows (x : Z) (s : st) : st :=
  St (s_time s) x (s_tws s) (s_next s) (s_it s) (s_tot s) (s_conv s) (s_compl s) (s_recvd s) (s_req s) (s_ful s) (s_send s) (s_recv s) (s_hist s) (s_sent s) (s_rcvd s).
Definition set_s_tws (x : option Z) (s : st) : st :=
  St (s_time s) (s_windows s) x (s_next s) (s_it s) (s_tot s) (s_conv s) (s_compl s) (s_recvd s) (s_req s) (s_ful s) (s_send s) (s_recv s) (s_hist s) (s_sent s) (s_rcvd s).
Definition set_s_next (x : option Z) (s : st) : st :=
  St (s_time s) (s_windows s) (s_tws s) x (s_it s) (s_tot s) (s_conv s) (s_compl s) (s_recvd s) (s_req s) (s_ful s) (s_send s) (s_recv s) (s_hist s) (s_sent s) (s_rcvd s).
Definition set_s_it (x : Z) (s : st) : st :=
  St (s_time s) (s_windows s) (s_tws s) (s_next s) x (s_tot s) (s_conv s) (s_compl s) (s_recvd s) (s_req s) (s_ful s) (s_send s) (s_recv s) (s_hist s) (s_sent s) (s_rcvd s).
Definition set_s_tot (x : Z) (s : st) : st :=
  St (s_time s) (s_windows s) (s_tws s) (s_next s) (s_it s) x (s_conv s) (s_compl s) (s_recvd s) (s_req s) (s_ful s) (s_send s) (s_recv s) (s_hist s) (s_sent s) (s_rcvd s).
Definition set_s_conv (x : bool) (s : st) : st :=
  St (s_time s) (s_windows s) (s_tws s) (s_next s) (s_it s) (s_tot s) x (s_compl s) (s_recvd s) (s_req s) (s_ful s) (s_send s) (s_recv s) (s_hist s) (s_sent s) (s_rcvd s).
Definition set_s_compl (x : bool) (s : st) : st :=
  St (s_time s) (s_windows s) (s_tws s) (s_next s) (s_it s) (s_tot s) (s_conv s) x (s_recvd s) (s_req s) (s_ful s) (s_send s) (s_recv s) (s_hist s) (s_sent s) (s_rcvd s).
Definition set_s_recvd (x : bool) (s : st) : st :=
  St (s_time s) (s_windows s) (s_tws s) (s_next s) (s_it s) (s_tot s) (s_conv s) (s_compl s) x (s_req s) (s_ful s) (s_send s) (s_recv s) (s_hist s) (s_sent s) (s_rcvd s).
Definition set_s_req (x : acts) (s : st) : st :=
  St (s_time s) (s_windows s) (s_tws s) (s_next s) (s_it s) (s_tot s) (s_conv s) (s_compl s) (s_recvd s) x (s_ful s) (s_send s) (s_recv s) (s_hist s) (s_sent s) (s_rcvd s).
Definition set_s_ful (x : acts) (s : st) : st :=
  St (s_time s) (s_windows s) (s_tws s) (s_next s) (s_it s) (s_tot s) (s_conv s) (s_compl s) (s_recvd s) (s_req s) x (s_send s) (s_recv s) (s_hist s) (s_sent s) (s_rcvd s).
Definition set_s_send (x : list (wave (smp V))) (s : st) : st :=
  St (s_time s) (s_windows s) (s_tws s) (s_next s) (s_it s) (s_tot s) (s_conv s) (s_compl s) (s_recvd s) (s_req s) (s_ful s) x (s_recv s) (s_hist s) (s_sent s) (s_rcvd s).
Definition set_s_recv (x : list (wave (smp V))) (s : st) : st :=
  St (s_time s) (s_windows s) (s_tws s) (s_next s) (s_it s) (s_tot s) (s_conv s) (s_compl s) (s_recvd s) (s_req s) (s_ful s) (s_send s) x (s_hist s) (s_sent s) (s_rcvd s).
Definition set_s_hist (x : list hist) (s : st) : st :=
  St (s_time s) (s_windows s) (s_tws s) (s_next s) (s_it s) (s_tot s) (s_conv s) (s_compl s) (s_recvd s) (s_req s) (s_ful s) (s_send s) (s_recv s) x (s_sent s) (s_rcvd s).
Definition set_s_sent (x : list (list (view V))) (s : st) : st :=
  St (s_time s) (s_windows s) (s_tws s) (s_next s) (s_it s) (s_tot s) (s_conv s) (s_compl s) (s_recvd s) (s_req s) (s_ful s) (s_send s) (s_recv s) (s_hist s) x (s_rcvd s).
Definition set_s_rcvd (x : list (list (view V))) (s : st) : st :=
  St (s_time s) (s_windows s) (s_tws s) (s_next s) (s_it s) (s_tot s) (s_conv s) (s_compl s) (s_recvd s) (s_req s) (s_ful s) (s_send s) (s_recv s) (s_hist s) (s_sent s) x.

(** behaviour of the environment of one participant; all fields arbitrary *)
Record env := Env {
  e_dt : st -> Z;                               (* solver: next time step size *)
  e_write : st -> nat -> smp V;                 (* solver: values written to send data n *)
  e_write0 : nat -> smp V;                      (* values before initialize() *)
  e_measure : st -> list bool;                  (* outcome of each convergence measure *)
  e_accel : st -> bool -> nat -> Z -> smp V -> smp V (* accelerated value of send(true)/receive(false) data n at a stample *)
}.

Notation prog := (proc (msg V)).
Definition eassert {A} (n : nat) : prog A := PErr (EAssert n).
Definition echeck {A} (n : nat) : prog A := PErr (ECheck n).
Definition check_ (b : bool) (n : nat) : prog unit := if b then PRet tt else echeck n.
Definition assert_ (b : bool) (n : nat) : prog unit := if b then PRet tt else eassert n.

(** BaseCouplingScheme.cpp 548-552 *)
Definition isCouplingOngoing (c : conf) (s : st) : bool :=
  (match c_maxWindows c with None => true | Some n => s_windows s <=? n end)
  && negb (th_reachedEnd (c_eps c) (s_time s)).

(** BaseCouplingScheme.cpp 432-435 (the sentinel -1.0 is [None]) *)
Definition hasTWS (s : st) : bool := match s_tws s with None => false | Some _ => true end.

(** BaseCouplingScheme.cpp 799-806 *)
Definition reachedEndOfTimeWindow (c : conf) (s : st) : bool :=
  match s_tws s with
  | None => true
  | Some w => th_reachedEndOfWindow (c_eps c) (s_time s) w
  end.

(** BaseCouplingScheme.cpp 535-546; [None] = numeric_limits<double>::max() *)
Definition getMaxTimeStepSize (c : conf) (s : st) : option Z :=
  if isCouplingOngoing c s then
    match s_tws s with
    | Some w => Some (th_untilWindowEnd (s_time s) w)
    | None => th_untilEnd (s_time s)
    end
  else Some 0.

(** BaseCouplingScheme.cpp 888-895; without window size and max-time the code
    adds numeric_limits<double>::max(): [None] *)
Definition getWindowEndTime (s : st) : option Z :=
  match s_tws s with
  | Some w => Some (th_time (s_time s) + th_untilWindowEnd (s_time s) w)
  | None => match th_untilEnd (s_time s) with None => None | Some d => Some (th_time (s_time s) + d) end
  end.

(** the assertion math::equals(getTime(), getWindowEndTime()) *)
Definition atWindowEnd (c : conf) (s : st) : bool :=
  match getWindowEndTime s with None => false | Some e => equals (c_eps c) (th_time (s_time s)) e end.

(** BaseCouplingScheme.cpp 453-479.  Line 460 (timeToAdd < DBL_MAX) always
    holds for an integer time step. *)
Definition addComputedTime (c : conf) (dt : Z) (s : st) : prog st :=
  assert_ (isCouplingOngoing c s) 1 ;;;
  check_ (match getMaxTimeStepSize c s with None => true | Some m => greaterEquals (c_eps c) m dt end) 2 ;;;
  PRet (set_s_time (th_progressBy dt (s_time s)) s).

(** BaseCouplingScheme.cpp 585-594 and ParticipantImpl.cpp 698-718: the solver
    asks whether a checkpoint is required, which marks the action fulfilled *)
Definition answerRead (s : st) : st :=
  if a_read (s_req s) then set_s_ful (Acts (a_init (s_ful s)) true (a_write (s_ful s))) s else s.
Definition answerWrite (s : st) : st :=
  if a_write (s_req s) then set_s_ful (Acts (a_init (s_ful s)) (a_read (s_ful s)) true) s else s.
(** ParticipantImpl.cpp 687-696 *)
Definition answerInit (s : st) : st :=
  if a_init (s_req s) then set_s_ful (Acts true (a_read (s_ful s)) (a_write (s_ful s))) s else s.

(** BaseCouplingScheme.cpp 596-600 *)
Definition requireRead (s : st) : st := set_s_req (Acts (a_init (s_req s)) true (a_write (s_req s))) s.
Definition requireWrite (s : st) : st := set_s_req (Acts (a_init (s_req s)) (a_read (s_req s)) true) s.

(** BaseCouplingScheme.cpp 621-635 *)
Definition checkCompleteness (s : st) : prog st :=
  check_ (negb (a_init (s_req s)) || a_init (s_ful s)) 3 ;;;
  check_ (negb (a_read (s_req s)) || a_read (s_ful s)) 4 ;;;
  check_ (negb (a_write (s_req s)) || a_write (s_ful s)) 5 ;;;
  PRet (set_s_ful no_acts (set_s_req no_acts s)).

(** samples without gradient data carry an empty gradient *)
Definition norm (d : dspec) (x : smp V) : smp V := if d_grad d then x else (fst x, gnone).

(** ghost: the part of a storage that is exchanged *)
Definition viewOf (d : dspec) (w : wave (smp V)) : view V :=
  if d_sub d then (map fst w, map (fun p => norm d (snd p)) w)
  else ([], match w_last w with None => [] | Some p => [norm d (snd p)] end).
Fixpoint viewsOf (ds : list dspec) (ws : list (wave (smp V))) : list (view V) :=
  match ds, ws with
  | d :: ds', w :: ws' => viewOf d w :: viewsOf ds' ws'
  | _, _ => []
  end.

(** BaseCouplingScheme.cpp 103-150, one data item.  The packing of values into
    one vector (SerializedStamples) is modelled in M_Serial.v. *)
Definition sendOne (to : nat) (d : dspec) (w : wave (smp V)) : prog unit :=
  if d_sub d then
    assert_ (negb (match w with [] => true | _ => false end)) 10 ;;;
    send to (MInt (Z.of_nat (length w))) ;;;
    send to (MTimes (map fst w)) ;;;
    send to (MVals (map (fun p => fst (snd p)) w)) ;;;
    (if d_grad d then send to (MGrads (map (fun p => snd (snd p)) w)) else PRet tt)
  else
    match w_last w with
    | None => eassert 11
    | Some (_, x) =>
        send to (MVals [fst x]) ;;;
        (if d_grad d then send to (MGrads [snd x]) else PRet tt)
    end.

Fixpoint sendAll (to : nat) (ds : list dspec) (ws : list (wave (smp V))) : prog unit :=
  match ds, ws with
  | [], [] => PRet tt
  | d :: ds', w :: ws' => sendOne to d w ;;; sendAll to ds' ws'
  | _, _ => eassert 12
  end.

Definition recvInt (from : nat) : prog Z :=
  m <- recv from ;; match m with MInt n => PRet n | _ => eassert 13 end.
Definition recvTime (from : nat) : prog Z :=
  m <- recv from ;; match m with MTime n => PRet n | _ => eassert 13 end.
Definition recvTimes (from : nat) : prog (list Z) :=
  m <- recv from ;; match m with MTimes n => PRet n | _ => eassert 13 end.
Definition recvVals (from : nat) : prog (list V) :=
  m <- recv from ;; match m with MVals n => PRet n | _ => eassert 13 end.
Definition recvGrads (from : nat) : prog (list V) :=
  m <- recv from ;; match m with MGrads n => PRet n | _ => eassert 13 end.
Definition recvBool (from : nat) : prog bool :=
  m <- recv from ;; match m with MBool n => PRet n | _ => eassert 13 end.

Definition lift (o : option (wave (smp V))) (n : nat) : prog (wave (smp V)) :=
  match o with Some w => PRet w | None => eassert n end.

(** BaseCouplingScheme.cpp 152-204, one data item; [now] is getTime().
    Deserialization clears the storage first (SerializedStamples.cpp 72-100). *)
Definition recvOne (eps now : Z) (from : nat) (d : dspec) (w : wave (smp V)) : prog (wave (smp V)) :=
  if d_sub d then
    n <- recvInt from ;;
    assert_ (0 <? n) 14 ;;;
    ts <- recvTimes from ;;
    vs <- recvVals from ;;
    gs <- (if d_grad d then recvGrads from else PRet (map (fun _ => gnone) vs)) ;;
    assert_ ((Z.of_nat (length ts) =? n) && (Z.of_nat (length vs) =? n) && (Z.of_nat (length gs) =? n)) 15 ;;;
    lift (w_setMany eps (w_clear w) (combine ts (combine vs gs))) 16
  else
    vs <- recvVals from ;;
    gs <- (if d_grad d then recvGrads from else PRet [gnone]) ;;
    match vs, gs with
    | [v], [g] => lift (w_set eps w now (v, g)) 17
    | _, _ => eassert 15
    end.

Fixpoint recvAll (eps now : Z) (from : nat) (ds : list dspec) (ws : list (wave (smp V)))
  : prog (list (wave (smp V))) :=
  match ds, ws with
  | [], [] => PRet []
  | d :: ds', w :: ws' =>
      w' <- recvOne eps now from d w ;;
      r <- recvAll eps now from ds' ws' ;;
      PRet (w' :: r)
  | _, _ => eassert 12
  end.

(** BaseCouplingScheme::sendData / receiveData on the send / receive map *)
Definition sendData (c : conf) (s : st) : prog st :=
  sendAll (c_partner c) (c_send c) (s_send s) ;;;
  PRet (set_s_sent (s_sent s ++ [viewsOf (c_send c) (s_send s)]) s).
Definition receiveData (c : conf) (s : st) : prog st :=
  r <- recvAll (c_eps c) (th_time (s_time s)) (c_partner c) (c_recv c) (s_recv s) ;;
  PRet (set_s_rcvd (s_rcvd s ++ [viewsOf (c_recv c) r]) (set_s_recv r s)).

(** BaseCouplingScheme.cpp 206-217.  Without a next window size the code would
    progress by -1.0; this is never used and modelled as an assertion. *)
Definition receiveDataForWindowEnd (c : conf) (s : st) : prog st :=
  match s_next s with
  | None => eassert 18
  | Some w =>
      let old := s_time s in
      s' <- receiveData c (set_s_time (th_progressBy w old) s) ;;
      PRet (set_s_time old s')
  end.

(** BaseCouplingScheme.cpp 499-503 *)
Definition notifyDataHasBeenReceived (s : st) : prog st :=
  assert_ (negb (s_recvd s)) 19 ;;; PRet (set_s_recvd true s).

Definition zero_smp (d : dspec) : smp V := if d_grad d then (vzero, vzero) else (vzero, gnone).

(** BaseCouplingScheme.cpp 219-226 *)
Fixpoint zeroAll (eps now : Z) (ds : list dspec) (ws : list (wave (smp V))) : prog (list (wave (smp V))) :=
  match ds, ws with
  | [], [] => PRet []
  | d :: ds', w :: ws' =>
      w' <- lift (w_set eps w now (zero_smp d)) 20 ;;
      r <- zeroAll eps now ds' ws' ;;
      PRet (w' :: r)
  | _, _ => eassert 12
  end.
Definition initializeWithZeroInitialData (c : conf) (s : st) : prog st :=
  r <- zeroAll (c_eps c) (th_time (s_time s)) (c_recv c) (s_recv s) ;; PRet (set_s_recv r s).

(** BaseCouplingScheme.cpp 822-841 *)
Definition sendsInitialized (c : conf) : bool := existsb d_init (c_send c).
Definition receivesInitialized (c : conf) : bool := existsb d_init (c_recv c).

(** BaseCouplingScheme.cpp 424-430 with CouplingData.cpp 232-240 *)
Definition moveToNextWindow (s : st) : st :=
  set_s_recv (map d_moveToNextWindow (s_recv s)) (set_s_send (map d_moveToNextWindow (s_send s)) s).

(** BaseCouplingScheme.cpp 808-820: only the check that samples exist *)
Definition storeIteration (s : st) : prog st :=
  check_ (forallb (fun w : wave (smp V) => negb (match w with [] => true | _ => false end)) (s_send s ++ s_recv s)) 21 ;;;
  PRet s.

(** SerialCouplingScheme.cpp 61-70 *)
Definition sendTimeWindowSize (c : conf) (s : st) : prog st :=
  if c_sets c then
    let w := th_prog (s_time s) in
    send (c_partner c) (MTime w) ;;;
    PRet (set_s_next None (set_s_tws (Some w) s))
  else PRet s.

(** SerialCouplingScheme.cpp 72-89 *)
Definition receiveAndSetTimeWindowSize (c : conf) (s : st) : prog st :=
  if c_recvs c then
    dt <- recvTime (c_partner c) ;;
    check_ (match s_tws s with
            | Some w => if c_implicit c && negb (s_conv s) then dt =? w else true
            | None => true
            end) 22 ;;;
    PRet (set_s_next (Some dt) s)
  else PRet s.

(** BaseCouplingScheme.cpp 690-749: fold over the measures; the strict check of
    line 726 is raised as soon as a strict measure has not converged.  With
    unlimited iterations the assertion of line 724 fails. *)
Fixpoint measureLoop (it : Z) (maxIt : option Z) (ms : list (bool * bool)) (os : list bool)
  (all oneSuff oneStrict : bool) : prog (bool * bool * bool) :=
  match ms, os with
  | [], _ => PRet (all, oneSuff, oneStrict)
  | (suff, strict) :: ms', o :: os' =>
      if o then measureLoop it maxIt ms' os' all (oneSuff || suff) oneStrict
      else if strict then
        match maxIt with
        | None => eassert 23
        | Some mx => check_ (it <? mx) 24 ;;; measureLoop it maxIt ms' os' false oneSuff true
        end
      else measureLoop it maxIt ms' os' false oneSuff oneStrict
  | _ :: _, [] => eassert 25
  end.
Definition measureConvergence (c : conf) (os : list bool) (s : st) : prog bool :=
  match c_measures c with
  | [] => PRet false
  | ms =>
      r <- measureLoop (s_it s) (c_maxIt c) ms os true false false ;;
      let '(all, oneSuff, oneStrict) := r in
      PRet ((c_minIt c <=? s_it s) && (all || (oneSuff && negb oneStrict)))
  end.

Fixpoint mapi {A B} (f : nat -> A -> B) (n : nat) (l : list A) : list B :=
  match l with [] => [] | x :: r => f n x :: mapi f (S n) r end.

(** effect of Acceleration::performAcceleration on the stored samples *)
Definition accelerate (E : env) (onRecv : bool) (s : st) : st :=
  let f b n (w : wave (smp V)) := map (fun p => (fst p, e_accel E s b n (fst p) (snd p))) w in
  let s1 := set_s_send (mapi (f true) 0%nat (s_send s)) s in
  if onRecv then set_s_recv (mapi (f false) 0%nat (s_recv s)) s1 else s1.

(** BaseCouplingScheme.cpp 843-865; [onRecv]: getAccelerationData() also
    contains the received data (parallel and multi coupling) *)
Definition doImplicitStep (E : env) (onRecv : bool) (c : conf) (s : st) : prog st :=
  b <- measureConvergence c (e_measure E s) s ;;
  let conv := b || (match c_maxIt c with Some mx => s_it s =? mx | None => false end) in
  let s1 := set_s_conv conv s in
  if conv then PRet s1 else PRet (accelerate E onRecv s1).

(** BaseCouplingScheme.cpp 867-881 *)
Definition sendConvergence (c : conf) (s : st) : prog unit := send (c_partner c) (MBool (s_conv s)).
Definition receiveConvergence (c : conf) (s : st) : prog st :=
  b <- recvBool (c_partner c) ;; PRet (set_s_conv b s).

(** SerialCouplingScheme.cpp 91-119 *)
Definition ser_initial (c : conf) (s : st) : prog st :=
  if c_first c then
    s1 <- (if receivesInitialized c then s' <- receiveData c s ;; notifyDataHasBeenReceived s'
           else initializeWithZeroInitialData c s) ;;
    if sendsInitialized c then sendData c s1 else PRet s1
  else
    s1 <- (if sendsInitialized c then sendData c s else PRet s) ;;
    s2 <- (if receivesInitialized c then receiveData c s1 else PRet s1) ;;
    s3 <- receiveAndSetTimeWindowSize c s2 ;;
    s4 <- receiveDataForWindowEnd c (set_s_tws (s_next s3) s3) ;;
    notifyDataHasBeenReceived s4.

(** SerialCouplingScheme.cpp 121-152 *)
Definition ser_first (E : env) (c : conf) (s : st) : prog st :=
  if c_first c then
    s1 <- sendTimeWindowSize c s ;;
    assert_ (atWindowEnd c s1) 26 ;;;
    sendData c s1
  else if c_implicit c then
    s1 <- doImplicitStep E false c s ;;
    sendConvergence c s1 ;;;
    assert_ (atWindowEnd c s1) 26 ;;;
    sendData c s1
  else
    assert_ (atWindowEnd c s) 26 ;;;
    sendData c s.

(** SerialCouplingScheme.cpp 154-209 *)
Definition ser_second (c : conf) (s : st) : prog st :=
  if c_implicit c then
    s1 <- (if c_first c then
             sa <- receiveConvergence c s ;;
             assert_ (atWindowEnd c sa) 26 ;;;
             sb <- receiveData c sa ;;
             notifyDataHasBeenReceived sb
           else PRet s) ;;
    s2 <- storeIteration (if s_conv s1 then moveToNextWindow s1 else s1) ;;
    if negb (c_first c) && (isCouplingOngoing c s2 || negb (s_conv s2)) then
      s3 <- receiveAndSetTimeWindowSize c s2 ;;
      assert_ (atWindowEnd c s3) 26 ;;;
      s4 <- (if s_conv s3 then receiveDataForWindowEnd c s3 else receiveData c s3) ;;
      notifyDataHasBeenReceived s4
    else PRet s2
  else
    s1 <- (if c_first c then
             assert_ (atWindowEnd c s) 26 ;;;
             sa <- receiveData c s ;;
             notifyDataHasBeenReceived sa
           else PRet s) ;;
    let s2 := moveToNextWindow s1 in
    if negb (c_first c) && isCouplingOngoing c s2 then
      s3 <- receiveAndSetTimeWindowSize c s2 ;;
      assert_ (atWindowEnd c s3) 26 ;;;
      s4 <- receiveDataForWindowEnd c s3 ;;
      notifyDataHasBeenReceived s4
    else PRet s2.

(** ParallelCouplingScheme.cpp 35-60 *)
Definition par_initial (c : conf) (s : st) : prog st :=
  let rcv s0 := if receivesInitialized c then s' <- receiveData c s0 ;; notifyDataHasBeenReceived s'
                else initializeWithZeroInitialData c s0 in
  let snd s0 := if sendsInitialized c then sendData c s0 else PRet s0 in
  if c_first c then s1 <- snd s ;; rcv s1 else s1 <- rcv s ;; snd s1.

(** ParallelCouplingScheme.cpp 62-73 *)
Definition par_first (c : conf) (s : st) : prog st :=
  assert_ (atWindowEnd c s) 26 ;;;
  if c_first c then sendData c s
  else s1 <- receiveData c s ;; notifyDataHasBeenReceived s1.

(** ParallelCouplingScheme.cpp 75-112 *)
Definition par_second (E : env) (c : conf) (s : st) : prog st :=
  assert_ (atWindowEnd c s) 26 ;;;
  if c_implicit c then
    s1 <- (if c_first c then
             sa <- receiveConvergence c s ;;
             sb <- receiveData c sa ;;
             notifyDataHasBeenReceived sb
           else
             sa <- doImplicitStep E true c s ;;
             sendConvergence c sa ;;;
             sendData c sa) ;;
    storeIteration (if s_conv s1 then moveToNextWindow s1 else s1)
  else
    s1 <- (if c_first c then s' <- receiveData c s ;; notifyDataHasBeenReceived s'
           else sendData c s) ;;
    PRet (moveToNextWindow s1).

(** BaseCouplingScheme.cpp 341-357 *)
Definition firstExchange (ex1 : st -> prog st) (c : conf) (s : st) : prog st :=
  s1 <- checkCompleteness s ;;
  let s2 := set_s_compl false (set_s_recvd false s1) in
  if reachedEndOfTimeWindow c s2 then ex1 (set_s_windows (s_windows s2 + 1) s2) else PRet s2.

(** BaseCouplingScheme.cpp 364-422, after exchangeSecondData *)
Definition afterSecond (c : conf) (s1 : st) : prog st :=
  s2 <- (if c_implicit c then
           let s' :=
             if s_conv s1 then
               let sc := set_s_compl true s1 in
               if isCouplingOngoing c sc then requireWrite sc else sc
             else set_s_compl false (set_s_windows (s_windows s1 - 1) (requireRead s1)) in
           assert_ (s_conv s1 || greater (c_eps c) (th_time (s_time s1)) (th_start (s_time s1))) 27 ;;;
           PRet (set_s_it (if s_conv s1 then 1 else s_it s1 + 1) (set_s_tot (s_tot s1 + 1) s'))
         else PRet (set_s_compl true s1)) ;;
  assert_ (negb (isCouplingOngoing c s2) || s_recvd s2) 28 ;;;
  s3 <- (if s_compl s2 then
           match s_tws s2 with
           | None => eassert 29
           | Some w => match th_completeTimeWindow (c_eps c) (s_time s2) w with
                       | Some h => PRet (set_s_time h s2)
                       | None => eassert 30
                       end
           end
         else PRet (set_s_time (th_resetProgress (s_time s2)) s2)) ;;
  PRet (set_s_tws (s_next s3) s3).

Definition logIteration (c : conf) (s : st) : st :=
  set_s_hist (s_hist s ++ [Hist (th_start (s_time s)) (s_windows s) (s_compl s) (isCouplingOngoing c s)]) s.

Definition secondExchange (ex2 : st -> prog st) (c : conf) (s : st) : prog st :=
  s0 <- checkCompleteness s ;;
  assert_ (negb (s_compl s0)) 31 ;;;
  if reachedEndOfTimeWindow c s0 then
    s1 <- ex2 s0 ;;
    s2 <- afterSecond c s1 ;;
    PRet (logIteration c s2)
  else PRet s0.

(** BaseCouplingScheme.cpp 897-906 *)
Definition requiresSubsteps (c : conf) : bool := existsb d_sub (c_send c).

Fixpoint writeAll (eps t : Z) (f : nat -> smp V) (n : nat) (ws : list (wave (smp V)))
  : prog (list (wave (smp V))) :=
  match ws with
  | [] => PRet []
  | w :: r => w' <- lift (w_set eps w t (f n)) 32 ;;
              r' <- writeAll eps t f (S n) r ;;
              PRet (w' :: r')
  end.

(** ParticipantImpl.cpp 468-494 (samplizeWriteData) *)
Definition handleDataBeforeAdvance (E : env) (c : conf) (atEnd : bool) (s0 s : st) : prog st :=
  if atEnd || requiresSubsteps c then
    ws <- writeAll (c_eps c) (th_time (s_time s)) (e_write E s0) 0%nat (s_send s) ;;
    PRet (set_s_send ws s)
  else PRet s.

(** ParticipantImpl.cpp 496-543: trimming *)
Definition handleDataAfterAdvance (c : conf) (atEnd : bool) (steppedTo : Z) (s : st) : prog st :=
  if negb atEnd then PRet s
  else if s_compl s then
    assert_ (greaterEquals (c_eps c) (th_time (s_time s)) steppedTo) 33 ;;;
    let f := fun w : wave (smp V) => w_trimBefore (c_eps c) w (th_start (s_time s)) in
    PRet (set_s_recv (map f (s_recv s)) (set_s_send (map f (s_send s)) s))
  else
    assert_ (greater (c_eps c) steppedTo (th_time (s_time s))) 34 ;;;
    PRet (set_s_send (map (fun w => w_trimAfter (c_eps c) w (th_time (s_time s))) (s_send s)) s).

(** ParticipantImpl.cpp 392-466 and 1814-1826 (coupling part) *)
Definition advance (E : env) (ex1 ex2 : st -> prog st) (c : conf) (dt : Z) (s : st) : prog st :=
  check_ (isCouplingOngoing c s) 40 ;;;
  check_ (negb (equals (c_eps c) dt 0)) 41 ;;;
  check_ (0 <? dt) 42 ;;;
  s1 <- addComputedTime c dt s ;;
  let atEnd := reachedEndOfTimeWindow c s1 in
  let steppedTo := th_time (s_time s1) in
  s2 <- handleDataBeforeAdvance E c atEnd s s1 ;;
  s3 <- firstExchange ex1 c s2 ;;
  s4 <- secondExchange ex2 c s3 ;;
  handleDataAfterAdvance c atEnd steppedTo s4.

(** constructor state, BaseCouplingScheme.cpp 44-54, 84-89; the InitializeData
    action is required if some send data needs initialization (822-828) *)
Definition st0 (c : conf) : st :=
  St (TH (c_maxTime c) 0 0) 1 (c_tws c) (c_tws c) 1 1 false false false
     (Acts (sendsInitialized c) false false) no_acts
     (map (fun _ => []) (c_send c)) (map (fun _ => []) (c_recv c)) [] [] [].

(** BaseCouplingScheme.cpp 275-307 and ParticipantImpl.cpp 248-300: store the
    data written before initialize() at time 0, zero the received data, then
    exchange initial data. *)
Definition initialize (E : env) (exI : st -> prog st) (c : conf) (s : st) : prog st :=
  check_ (negb (a_init (s_req s)) || a_init (s_ful s)) 43 ;;;
  ws <- writeAll (c_eps c) 0 (e_write0 E) 0%nat (s_send s) ;;
  let sa := set_s_send ws s in
  s1 <- initializeWithZeroInitialData c (set_s_time (th_resetTo 0 (s_time sa)) sa) ;;
  let s2 := set_s_recvd false (set_s_windows 1 s1) in
  check_ (forallb (fun w : wave (smp V) => negb (match w with [] => true | _ => false end)) (s_send s2)) 44 ;;;
  s3 <- (if c_implicit c then s' <- storeIteration s2 ;; PRet (requireWrite s') else PRet s2) ;;
  exI s3.

Inductive kind := Serial | Parallel.
Definition exI (k : kind) := match k with Serial => ser_initial | Parallel => par_initial end.
Definition ex1 (k : kind) (E : env) := match k with Serial => ser_first E | Parallel => par_first end.
Definition ex2 (k : kind) (E : env) := match k with Serial => ser_second | Parallel => par_second E end.

(** one participant of a bi-coupling *)
Definition p_initialize (k : kind) (E : env) (c : conf) (s : st) : prog st := initialize E (exI k c) c s.
Definition p_advance (k : kind) (E : env) (c : conf) (dt : Z) (s : st) : prog st :=
  advance E (ex1 k E c) (ex2 k E c) c dt s.

(** a solver that asks for the required actions, writes data and advances as
    long as the coupling is ongoing *)
Definition solverLoop (k : kind) (E : env) (c : conf) (s : st) : option (prog st) :=
  if isCouplingOngoing c s then
    Some (p_advance k E c (e_dt E s) (answerWrite (answerRead s)))
  else None.
Definition solverStart (k : kind) (E : env) (c : conf) : prog st :=
  p_initialize k E c (answerInit (st0 c)).

End Scheme.
