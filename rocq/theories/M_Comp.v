(** Several coupling schemes of one participant.

    Models src/cplscheme/CompositionalCouplingScheme.cpp and what
    ParticipantImpl::initialize and advance do with it, on top of M_Cpl.

    Simplifications:
    - the schemes exchange different data: each scheme has its own waveforms;
    - _activeSchemes is not stored: after initialize() and after every call of
      updateActiveSchemes() (438-462) it follows from _explicitOnHold;
    - the synchronization calls do nothing (BaseCouplingScheme.cpp 331-339, 359-362);
    - those of M_Cpl. *)
From Coq Require Import ZArith Bool List.
From Verif Require Import M_Net M_Time M_Wave M_Cpl.
Import ListNotations.
Open Scope Z_scope.
Open Scope proc_scope.

(** one scheme: serial or parallel, and its configuration *)
Definition scheme : Type := kind * conf.
(** _explicitSchemes and _implicitScheme *)
Record cconf := CConf { cc_expl : list scheme; cc_impl : option scheme }.

(** 51-69: explicit schemes are collected in order, a second implicit scheme trips
    the assertion of line 61; the warning about window sizes (20-49) has no effect *)
Definition addCouplingScheme (x : scheme) (cc : cconf) : option cconf :=
  if c_implicit (snd x) then
    match cc_impl cc with None => Some (CConf (cc_expl cc) (Some x)) | Some _ => None end
  else Some (CConf (cc_expl cc ++ [x]) (cc_impl cc)).

Section Comp.
Context {V : Type}.
Variables (gnone vzero : V).
Notation st := (st (V:=V)).
Notation prog := (proc (msg V)).
Notation env := (env (V:=V)).

(** the schemes' states and _explicitOnHold *)
Record cst := CSt { cx_expl : list st; cx_impl : option st; cx_hold : bool }.

(** a loop over the explicit schemes; [Es (S n)] is the environment of the [n]-th,
    [Es 0] that of the implicit scheme *)
Fixpoint each (f : nat -> scheme -> st -> prog st) (n : nat) (cs : list scheme) (ss : list st) : prog (list st) :=
  match cs, ss with
  | [], [] => PRet []
  | c :: cs', s :: ss' => s' <- f n c s ;; r <- each f (S n) cs' ss' ;; PRet (s' :: r)
  | _, _ => PErr (EAssert 50)
  end.
Fixpoint anyOf (f : scheme -> st -> bool) (cs : list scheme) (ss : list st) : bool :=
  match cs, ss with c :: cs', s :: ss' => f c s || anyOf f cs' ss' | _, _ => false end.
Definition front (s : cst) : prog st := match cx_expl s with x :: _ => PRet x | [] => PErr (EAssert 51) end.

(** the implicit scheme, if there is one *)
Definition onImpl (f : scheme -> st -> prog st) (cc : cconf) (s : cst) : prog cst :=
  match cc_impl cc, cx_impl s with
  | Some c, Some i => i' <- f c i ;; PRet (CSt (cx_expl s) (Some i') (cx_hold s))
  | None, None => PRet s
  | _, _ => PErr (EAssert 50)
  end.
Definition onExpl (f : nat -> scheme -> st -> prog st) (cc : cconf) (s : cst) : prog cst :=
  es <- each f 1 (cc_expl cc) (cx_expl s) ;; PRet (CSt es (cx_impl s) (cx_hold s)).
Definition anyExpl (f : scheme -> st -> bool) (cc : cconf) (s : cst) : bool := anyOf f (cc_expl cc) (cx_expl s).
Definition ofImpl (f : scheme -> st -> bool) (cc : cconf) (s : cst) : bool :=
  match cc_impl cc, cx_impl s with Some c, Some i => f c i | _, _ => false end.
Definition isImplicit (cc : cconf) : bool := match cc_impl cc with Some _ => true | None => false end.
Definition setHold (b : bool) (s : cst) : cst := CSt (cx_expl s) (cx_impl s) b.

Definition atEnd (c : scheme) (s : st) : bool := reachedEndOfTimeWindow (snd c) s.
(** 104-142; the second component is the return value *)
Definition cAddComputedTime (cc : cconf) (dt : Z) (s : cst) : prog (cst * bool) :=
  if negb (isImplicit cc) then
    s1 <- onExpl (fun _ c => addComputedTime (snd c) dt) cc s ;;
    PRet (s1, anyExpl atEnd cc s1)
  else
    s1 <- onImpl (fun c => addComputedTime (snd c) dt) cc s ;;
    let implicitAtWindowEnd := ofImpl atEnd cc s1 in
    if cx_hold s1 then PRet (s1, implicitAtWindowEnd) else
    s2 <- onExpl (fun _ c => addComputedTime (snd c) dt) cc s1 ;;
    let explicitAtWindowEnd := anyExpl atEnd cc s2 in
    PRet (if implicitAtWindowEnd then setHold true s2 else s2, implicitAtWindowEnd || explicitAtWindowEnd).

Definition first1 (E : env) (c : scheme) (s : st) : prog st := firstExchange (ex1 gnone (fst c) E (snd c)) (snd c) s.
Definition second1 (E : env) (c : scheme) (s : st) : prog st := secondExchange (ex2 gnone (fst c) E (snd c)) (snd c) s.

(** 157-178 *)
Definition cFirstExchange (Es : nat -> env) (cc : cconf) (s : cst) : prog cst :=
  if negb (isImplicit cc) then onExpl (fun n => first1 (Es n)) cc s else
  s1 <- onImpl (first1 (Es 0%nat)) cc s ;;
  if cx_hold s1 then PRet s1 else onExpl (fun n => first1 (Es n)) cc s1.

Definition timeOf (s : st) : Z := th_time (s_time s).
(** 192-230 *)
Definition cSecondExchange (Es : nat -> env) (cc : cconf) (s : cst) : prog cst :=
  if negb (isImplicit cc) then onExpl (fun n => second1 (Es n)) cc s else
  s1 <- onImpl (second1 (Es 0%nat)) cc s ;;
  e <- front s1 ;;
  let iterating := match cx_impl s1 with Some i => timeOf i <? timeOf e | None => false end in
  if iterating then assert_ (cx_hold s1) 52 ;;; PRet s1 else
  s2 <- onExpl (fun n => first1 (Es n)) cc s1 ;;
  s3 <- onExpl (fun n => second1 (Es n)) cc s2 ;;
  PRet (setHold false s3).

(** _activeSchemes: 71-79, 438-462 (the order does not matter for its uses) *)
Definition active (cc : cconf) (s : cst) : list (scheme * st) :=
  match cc_impl cc, cx_impl s with
  | Some c, Some i => (c, i) :: if cx_hold s then [] else combine (cc_expl cc) (cx_expl s)
  | _, _ => combine (cc_expl cc) (cx_expl s)
  end.
Definition allSchemes (cc : cconf) (s : cst) : list (scheme * st) :=
  combine (cc_expl cc) (cx_expl s) ++ match cc_impl cc, cx_impl s with Some c, Some i => [(c, i)] | _, _ => [] end.

(** 278-289 *)
Definition cTime (s : cst) : Z :=
  match cx_impl s with Some i => timeOf i | None => match cx_expl s with e :: _ => timeOf e | [] => 0 end end.
(** the smallest of the values; [None]: infinite *)
Definition leastOf (l : list (option Z)) : option Z :=
  fold_left (fun a b => match a, b with None, x => x | x, None => x | Some x, Some y => Some (Z.min x y) end) l None.
(** 291-301 *)
Definition cWindowStart (cc : cconf) (s : cst) : option Z :=
  leastOf (map (fun x => Some (th_start (s_time (snd x)))) (allSchemes cc s)).
(** 303-314 *)
Definition cWindows (cc : cconf) (s : cst) : option Z := leastOf (map (fun x => Some (s_windows (snd x))) (allSchemes cc s)).
(** 333-357 *)
Definition cMaxTimeStepSize (cc : cconf) (s : cst) : option Z :=
  leastOf (map (fun x => getMaxTimeStepSize (snd (fst x)) (snd x)) (active cc s)).
(** 359-368 *)
Definition cOngoing (cc : cconf) (s : cst) : bool :=
  match cc_impl cc, cx_impl s with
  | Some c, Some i => isCouplingOngoing (snd c) i
  | _, _ => match cc_expl cc, cx_expl s with c :: _, e :: _ => isCouplingOngoing (snd c) e | _, _ => false end
  end.
(** 370-378 *)
Definition cComplete (cc : cconf) (s : cst) : bool := existsb (fun x => s_compl (snd x)) (active cc s).
(** 486-494 *)
Definition cRequiresSubsteps (cc : cconf) (s : cst) : bool := existsb (fun x => requiresSubsteps (snd (fst x))) (allSchemes cc s).

(** requiresReadingCheckpoint(), requiresWritingCheckpoint(): 410-420 *)
Definition cAnswer (s : cst) : cst :=
  let f := fun x : st => answerWrite (answerRead x) in
  CSt (if cx_hold s then cx_expl s else map f (cx_expl s)) (option_map f (cx_impl s)) (cx_hold s).

(** ParticipantImpl.cpp 468-494: the written data of all schemes is stored at the
    time of the composition *)
Definition cBefore (Es : nat -> env) (cc : cconf) (atEnd : bool) (t : Z) (s : cst) : prog cst :=
  let write E c (x : st) := ws <- writeAll (c_eps (snd c)) t (e_write E x) 0%nat (s_send x) ;; PRet (set_s_send ws x) in
  if atEnd || cRequiresSubsteps cc s then
    s1 <- onImpl (fun c => write (Es 0%nat) c) cc s ;; onExpl (fun n => write (Es n)) cc s1
  else PRet s.
(** ParticipantImpl.cpp 496-543 *)
Definition cAfter (cc : cconf) (atEnd : bool) (steppedTo : Z) (s : cst) : prog cst :=
  if negb atEnd then PRet s else
  let eps := match cc_impl cc, cc_expl cc with Some c, _ => c_eps (snd c) | None, c :: _ => c_eps (snd c) | None, [] => 0 end in
  if cComplete cc s then
    assert_ (greaterEquals eps (cTime s) steppedTo) 33 ;;;
    match cWindowStart cc s with
    | None => PErr (EAssert 53)
    | Some t =>
        let f := fun w : wave (smp V) => w_trimBefore eps w t in
        let trim := fun x : st => set_s_recv (map f (s_recv x)) (set_s_send (map f (s_send x)) x) in
        PRet (CSt (map trim (cx_expl s)) (option_map trim (cx_impl s)) (cx_hold s))
    end
  else
    assert_ (greater eps steppedTo (cTime s)) 34 ;;;
    let trim := fun x : st => set_s_send (map (fun w => w_trimAfter eps w (cTime s)) (s_send x)) x in
    PRet (CSt (map trim (cx_expl s)) (option_map trim (cx_impl s)) (cx_hold s)).

(** ParticipantImpl.cpp 392-466, 1814-1826 *)
Definition cAdvance (Es : nat -> env) (cc : cconf) (dt : Z) (s : cst) : prog cst :=
  let eps := match cc_impl cc, cc_expl cc with Some c, _ => c_eps (snd c) | None, c :: _ => c_eps (snd c) | None, [] => 0 end in
  check_ (cOngoing cc s) 40 ;;;
  check_ (negb (equals eps dt 0)) 41 ;;;
  check_ (0 <? dt) 42 ;;;
  r <- cAddComputedTime cc dt s ;;
  let s1 := fst r in
  let isAtWindowEnd := snd r in
  let timeSteppedTo := cTime s1 in
  s2 <- cBefore Es cc isAtWindowEnd timeSteppedTo s1 ;;
  s3 <- cFirstExchange Es cc s2 ;;
  s4 <- cSecondExchange Es cc s3 ;;
  cAfter cc isAtWindowEnd timeSteppedTo s4.

(** 71-79: all schemes in order, the implicit one last; requiresInitialData() was
    asked before *)
Definition cInitialize (Es : nat -> env) (cc : cconf) : prog cst :=
  es <- each (fun n c s => p_initialize gnone vzero (fst c) (Es n) (snd c) s) 1 (cc_expl cc) (map (fun c => answerInit (st0 (snd c))) (cc_expl cc)) ;;
  match cc_impl cc with
  | None => PRet (CSt es None false)
  | Some c => i <- p_initialize gnone vzero (fst c) (Es 0%nat) (snd c) (answerInit (st0 (snd c))) ;; PRet (CSt es (Some i) false)
  end.
End Comp.
