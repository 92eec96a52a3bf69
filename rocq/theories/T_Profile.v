(** C83: profiling *)
From Coq Require Import String List Arith Bool ZArith Lia.
From Verif Require Import M_Profile S_Profile P_Profile.
Import ListNotations.
Open Scope string_scope.
Open Scope list_scope.
Open Scope nat_scope.

(** The records written and pending, for any settings other than flush-every from 1 to 9 (from 1 to 6
    without MPI): constructing a participant and making calls succeeds exactly if the calls are
    allowed; what was written so far followed by what is pending reads as what happened. *)
Theorem C83_records s0 mpi parallel c w cs : r_running s0 = false -> modeOf c <> Off -> maxOf c = 0 \/ early mpi <= maxOf c -> plain w -> Forall plainCall cs ->
  match duringAll (modeOf c) (parallel && syncOf c) (Status false []) cs with
  | Some (st, h) => exists s1 p1 s p f, construct s0 mpi parallel c w = Some (s1, p1) /\ doCalls s1 p1 cs = Some (s, p) /\ r_files s = f :: r_files s0 /\
      reads (f ++ r_queue s) = Some (atStart (modeOf c) (parallel && syncOf c) mpi w ++ h) /\ ascends 0 (ticks (f ++ r_queue s)) (r_clock s)
  | None => exists s1 p1, construct s0 mpi parallel c w = Some (s1, p1) /\ doCalls s1 p1 cs = None
  end.
Proof.
  intros R M X P Pc. destruct (construct_ok s0 mpi parallel c w R M X P) as (s1 & p1 & E & I & T & M1 & Y1 & O1 & _). pose proof (calls_ok cs s1 _ p1 _ I T Pc) as H. rewrite M1, Y1 in H.
  destruct (duringAll _ _ _ cs) as [[st h]|]; [|exists s1, p1; auto]. destruct H as (s & p & Ec & I2 & S2 & _). pose proof I2 as [_ _ _ _ _ (f & o & Ef & D & A)]. exists s1, p1, s, p, f. split; [exact E|]. split; [exact Ec|].
  split; [rewrite Ef; f_equal; pose proof (s_old _ _ S2) as Q; rewrite Ef in Q; cbn [tl] in Q; congruence|]. split; [|exact A]. unfold reads. rewrite D. reflexivity.
Qed.

(** At whatever point the program stops, the file has the beginning of it *)
Theorem C83_crash s0 mpi parallel c w cs s1 p1 s p f o : r_running s0 = false -> modeOf c <> Off -> maxOf c = 0 \/ early mpi <= maxOf c -> plain w -> Forall plainCall cs ->
  construct s0 mpi parallel c w = Some (s1, p1) -> doCalls s1 p1 cs = Some (s, p) -> r_files s = f :: o ->
  exists st h done missing, duringAll (modeOf c) (parallel && syncOf c) (Status false []) cs = Some (st, h) /\ reads f = Some done /\ done ++ missing = atStart (modeOf c) (parallel && syncOf c) mpi w ++ h.
Proof.
  intros R M X P Pc E Ec Ef. pose proof (C83_records s0 mpi parallel c w cs R M X P Pc) as H. destruct (duringAll _ _ _ cs) as [[st h]|].
  - destruct H as (s1' & p1' & s' & p' & f' & E' & Ec' & Ef' & D & _). rewrite E in E'. injection E' as <- <-. rewrite Ec in Ec'. injection Ec' as <- <-. rewrite Ef in Ef'. injection Ef' as <- _.
    unfold reads in D. rewrite decode_app in D. destruct (decode [] f) as [[d1 h1]|] eqn:D1; [|discriminate D]. destruct (decode d1 (r_queue s)) as [[d2 h2]|]; [|discriminate D]. injection D as D. exists st, h, h1, h2. split; [reflexivity|]. split; [unfold reads; rewrite D1; reflexivity|exact D].
  - destruct H as (s1' & p1' & E' & Ec'). rewrite E in E'. injection E' as <- <-. congruence.
Qed.

(** and at the end of a section, at most as many records are missing as configured (0: any number) *)
Theorem C83_pending s0 mpi parallel c w cs s1 p1 s p t p' : r_running s0 = false -> modeOf c <> Off -> maxOf c = 0 \/ early mpi <= maxOf c -> plain w -> Forall plainCall cs ->
  construct s0 mpi parallel c w = Some (s1, p1) -> doCalls s1 p1 cs = Some (s, p) -> doCall s p StopSection = Some (t, p') ->
  maxOf c = 0 \/ length (r_queue t) <= maxOf c.
Proof.
  intros R M X P Pc E Ec Es. destruct (construct_ok s0 mpi parallel c w R M X P) as (s1' & p1' & E' & I & T & M1 & Y1 & O1 & X1). rewrite E in E'. injection E' as <- <-.
  pose proof (calls_ok cs s1 _ p1 _ I T Pc) as H. destruct (duringAll _ _ _ cs) as [[st h]|]; [|congruence]. destruct H as (s' & q' & Ec' & I2 & S2 & [_ U _ _]). rewrite Ec in Ec'. injection Ec' as <- <-.
  cbn [doCall] in Es. inversion U as [E1 E2|e n u r L F E1 E2]; rewrite <- E1 in Es; [discriminate Es|]. destruct (destroy_ok s _ e n _ _ I2 L) as (t' & Et & _ & _ & Q). rewrite Et in Es. injection Es as <- _. rewrite (shown_fund _ _ I2) in Q. specialize (Q eq_refl). rewrite (s_max _ _ S2), X1 in Q. exact Q.
Qed.

(** After finalize the file has all of it, with times in order, and stays as it is whatever is called *)
Theorem C83_file s0 mpi parallel c w cs w' st h : r_running s0 = false -> modeOf c <> Off -> maxOf c = 0 \/ early mpi <= maxOf c -> plain w -> Forall plainCall cs -> plain w' ->
  duringAll (modeOf c) (parallel && syncOf c) (Status false []) cs = Some (st, h) ->
  exists s1 p1 s p s' p' f, construct s0 mpi parallel c w = Some (s1, p1) /\ doCalls s1 p1 cs = Some (s, p) /\ finalize s p w' = Some (s', p') /\ r_files s' = f :: r_files s0 /\
    reads f = Some (atStart (modeOf c) (parallel && syncOf c) mpi w ++ h ++ atEnd (modeOf c) (parallel && syncOf c) st w') /\ ascends 0 (ticks f) (r_clock s') /\
    r_running s' = false /\ forall cs' t q, doCalls s' p' cs' = Some (t, q) -> r_files t = f :: r_files s0.
Proof.
  intros R M X P Pc P' D. destruct (construct_ok s0 mpi parallel c w R M X P) as (s1 & p1 & E & I & T & M1 & Y1 & O1 & _). pose proof (calls_ok cs s1 _ p1 _ I T Pc) as H. rewrite M1, Y1, D in H.
  destruct H as (s & p & Ec & I2 & S2 & T2). destruct (finalize_ok s _ p st w' I2 T2 P') as (s' & p' & f & Ef & Fi & Rd & A & Ru & St & _). rewrite (s_mode _ _ S2), (y_same _ _ S2), M1, Y1, <- app_assoc in Rd. rewrite (s_old _ _ S2), O1 in Fi.
  exists s1, p1, s, p, s', p', f. split; [exact E|]. split; [exact Ec|]. split; [exact Ef|]. split; [exact Fi|]. split; [exact Rd|]. split; [exact A|]. split; [exact Ru|]. intros cs' t q H.
  destruct (kept_calls cs' s' p' t q) as [K _]; [right; congruence|exact H|]. congruence.
Qed.

(** The sections of the file are nested, all are closed, data belong to an open section, if
    initialize() was called; if not, they are not nested *)
Theorem C83_nested m y mpi w cs w' st h : m <> Off -> duringAll m y (Status false []) cs = Some (st, h) ->
  nests [] (atStart m y mpi w ++ h ++ atEnd m y st w') = if started st then Some [] else None.
Proof. intros M D. rewrite nests_app, nests_start, nests_app by exact M. rewrite (nests_calls _ _ _ _ _ _ D). apply nests_end. Qed.

(** switched off, there is no file *)
Theorem C83_off s0 mpi parallel max sync w cs w' s1 p1 s p s' p' : r_running s0 = false ->
  construct s0 mpi parallel (Some (Off, max, sync)) w = Some (s1, p1) -> doCalls s1 p1 cs = Some (s, p) -> finalize s p w' = Some (s', p') -> r_files s' = r_files s0.
Proof.
  intros R E Ec Ef. unfold construct in E. destruct (constructBegin s0 mpi parallel _) as [[t e]|] eqn:Eb; [|discriminate E]. destruct (off_begin _ _ _ _ _ _ _ R Eb) as [F M]. cbn [bind] in E.
  assert (S : silent t) by (left; exact M). destruct (perform t e w) as [t1|] eqn:E1; [|discriminate E]. cbn [bind] in E. destruct (stop t1 e) as [[t2 e2]|] eqn:E2; [|discriminate E]. cbn [bind] in E. destruct (newEvent t2 _ _ _) as [[t3 e3]|] eqn:E3; [|discriminate E]. injection E as <- <-.
  pose proof (kept_perform _ _ _ _ S E1) as K1. pose proof (kept_silent _ _ K1 S) as S1. pose proof (kept_stop _ _ _ _ S1 E2) as K2. pose proof (kept_silent _ _ K2 S1) as S2. pose proof (kept_new _ _ _ _ _ _ S2 E3) as K3. pose proof (kept_silent _ _ K3 S2) as S3.
  pose proof (kept_calls _ _ _ _ _ S3 Ec) as K4. destruct (kept_trans _ _ _ (kept_trans _ _ _ K1 K2) (kept_trans _ _ _ K3 K4)) as (A & B & _). rewrite (off_finalize s p w' s' p'); [congruence|congruence|exact Ef].
Qed.

(** a name with a slash, such as that of a mesh, is an assertion *)
Theorem C83_slash s p n w : hasSlash n = true -> doCall s p (Call n w) = None.
Proof. intros H. cbn [doCall]. unfold during, newEvent. rewrite H. reflexivity. Qed.

(** * What goes wrong *)
Definition runAll (c : profilingTag) (cs : list call) : option (list (list record)) :=
  bind (construct unused true false c Finish) (fun '(s, p) => bind (doCalls s p cs) (fun '(s, p) => bind (finalize s p Finish) (fun '(s, _) => Some (r_files s)))).
Definition opens (n : string) (h : list happening) : bool := existsb (fun x => match x with Opens m => String.eqb m n | _ => false end) h.
Definition closes (n : string) (h : list happening) : bool := existsb (fun x => match x with Closes m => String.eqb m n | _ => false end) h.
Lemma opens_in n h : opens n h = true <-> In (Opens n) h.
Proof.
  unfold opens. rewrite existsb_exists. split.
  - intros (x & H & E). destruct x as [m|m|m k v]; try discriminate E. apply String.eqb_eq in E. subst. exact H.
  - intros H. exists (Opens n). split; [exact H|apply String.eqb_refl].
Qed.
Lemma closes_in n h : closes n h = true <-> In (Closes n) h.
Proof.
  unfold closes. rewrite existsb_exists. split.
  - intros (x & H & E). destruct x as [m|m|m k v]; try discriminate E. apply String.eqb_eq in E. subst. exact H.
  - intros H. exists (Closes n). split; [exact H|apply String.eqb_refl].
Qed.
(** flush-every from 1 to 9: the first records are flushed before the file is opened; the names of
    events that are still running are lost with them, so the file cannot be read *)
Definition unreadable (r : option (list (list record))) : bool := match r with Some [f] => match reads f with None => true | Some _ => false end | _ => false end.
Lemma unreadable_spec r : unreadable r = true -> exists f, r = Some [f] /\ reads f = None.
Proof. intros C. destruct r as [[|f [|? ?]]|]; try discriminate C. exists f. split; [reflexivity|]. unfold unreadable in C. destruct (reads f); [discriminate C|reflexivity]. Qed.
Lemma unreadable_all : forallb (fun m => forallb (fun max => unreadable (runAll (Some (m, max, false)) [Initialize Finish; Advance Finish])) (seq 1 9)) [Fundamental; API] = true.
Proof. vm_compute. reflexivity. Qed.
Theorem C83_flush_refuted : forall m max, m = Fundamental \/ m = API -> 1 <= max <= 9 -> exists f, runAll (Some (m, max, false)) [Initialize Finish; Advance Finish] = Some [f] /\ reads f = None.
Proof.
  intros m max H X. apply unreadable_spec. pose proof (proj1 (forallb_forall _ _) unreadable_all m) as A. assert (I : In m [Fundamental; API]) by (destruct H as [->| ->]; [left|right; left]; reflexivity). specialize (A I).
  apply (proj1 (forallb_forall _ _) A max). apply in_seq. lia.
Qed.
(** with flush-every 1 and all events, the second flush before the file is opened is an assertion *)
Theorem C83_flush_all_refuted : construct unused true false (Some (All, 1, false)) Finish = None.
Proof. vm_compute. reflexivity. Qed.
(** finalize without initialize: the section of the solver's initialization is never closed *)
Definition unclosed (r : option (list (list record))) : bool := match r with Some [f] => match reads f with Some h => opens "solver.initialize" h && negb (closes "solver.initialize" h) && match nests [] h with None => true | _ => false end | None => false end | _ => false end.
Lemma unclosed_spec r : unclosed r = true -> exists f h, r = Some [f] /\ reads f = Some h /\ In (Opens "solver.initialize") h /\ ~ In (Closes "solver.initialize") h /\ nests [] h = None.
Proof.
  intros C. destruct r as [[|f [|? ?]]|]; try discriminate C. unfold unclosed in C. destruct (reads f) as [h|] eqn:R; [|discriminate C].
  apply andb_prop in C. destruct C as [C C3]. apply andb_prop in C. destruct C as [C1 C2]. exists f, h. split; [reflexivity|]. split; [exact R|]. split; [apply opens_in, C1|]. split; [rewrite <- closes_in; destruct (closes _ _); [discriminate C2|discriminate]|]. destruct (nests [] h); [discriminate C3|reflexivity].
Qed.
Theorem C83_uninitialized_refuted : exists f h, runAll None [] = Some [f] /\ reads f = Some h /\ In (Opens "solver.initialize") h /\ ~ In (Closes "solver.initialize") h /\ nests [] h = None.
Proof. apply unclosed_spec. vm_compute. reflexivity. Qed.
(** a second participant in the same process: the records pending are lost, what the first one does
    goes to the file of the second one, under other names *)
Definition two : option (list (list record)) :=
  bind (construct unused true false None Finish) (fun '(s, p) =>
  bind (doCalls s p [StartSection "mine"]) (fun '(s, p) =>
  bind (construct s true false None Finish) (fun '(s, q) =>
  bind (doCalls s q [Initialize Finish]) (fun '(s, q) =>
  bind (doCalls s p [StopSection; Initialize Finish]) (fun '(s, p) =>
  bind (finalize s q Finish) (fun '(s, _) => bind (finalize s p Finish) (fun '(s, _) => Some (r_files s)))))))).
Definition mixed (r : option (list (list record))) : bool := match r with Some [f2; f1] => match reads f1, reads f2 with Some [Opens a; Closes b], Some h2 => String.eqb a "_GLOBAL" && String.eqb b "_GLOBAL" && negb (opens "_GLOBAL" h2) && negb (closes "mine" h2) && match nests [] h2 with None => true | _ => false end | _, _ => false end | _ => false end.
Lemma mixed_spec r : mixed r = true -> exists f1 f2 h2, r = Some [f2; f1] /\ reads f1 = Some [Opens "_GLOBAL"; Closes "_GLOBAL"] /\ reads f2 = Some h2 /\ ~ In (Opens "_GLOBAL") h2 /\ ~ In (Closes "mine") h2 /\ nests [] h2 = None.
Proof.
  intros C. destruct r as [[|f2 [|f1 [|? ?]]]|]; try discriminate C. unfold mixed in C. destruct (reads f1) as [[|[a|a|a k v] [|[b|b|b k' v'] [|? ?]]]|] eqn:R1; try discriminate C. destruct (reads f2) as [h2|] eqn:R2; [|discriminate C].
  apply andb_prop in C. destruct C as [C C5]. apply andb_prop in C. destruct C as [C C4]. apply andb_prop in C. destruct C as [C C3]. apply andb_prop in C. destruct C as [C1 C2]. apply String.eqb_eq in C1, C2. subst a b.
  exists f1, f2, h2. split; [reflexivity|]. split; [exact R1|]. split; [exact R2|]. split; [rewrite <- opens_in; destruct (opens _ _); [discriminate C3|discriminate]|]. split; [rewrite <- closes_in; destruct (closes _ _); [discriminate C4|discriminate]|]. destruct (nests [] h2); [discriminate C5|reflexivity].
Qed.
Theorem C83_second_refuted : exists f1 f2 h2, two = Some [f2; f1] /\ reads f1 = Some [Opens "_GLOBAL"; Closes "_GLOBAL"] /\ reads f2 = Some h2 /\ ~ In (Opens "_GLOBAL") h2 /\ ~ In (Closes "mine") h2 /\ nests [] h2 = None.
Proof. apply mixed_spec. vm_compute. reflexivity. Qed.
(** a section with a line break in its name is accepted and its text is that of other records *)
Definition breaking : string := ("a" ++ newline ++ "E5:9")%string.
Definition instead (r : record) : list record := match r with Name n k => if String.eqb n breaking then [Name "a" k; Ends 5 9] else [r] | _ => [r] end.
Definition ambiguous (r : option (list (list record))) : bool := match r with Some [f] => match reads f, reads (flat_map instead f) with Some h, Some h' => String.eqb (text (flat_map instead f)) (text f) && opens breaking h && negb (opens breaking h') | _, _ => false end | _ => false end.
Lemma ambiguous_spec r : ambiguous r = true -> exists f l h h', r = Some [f] /\ text l = text f /\ reads f = Some h /\ reads l = Some h' /\ In (Opens breaking) h /\ ~ In (Opens breaking) h'.
Proof.
  intros C. destruct r as [[|f [|? ?]]|]; try discriminate C. unfold ambiguous in C. destruct (reads f) as [h|] eqn:R; [|discriminate C]. destruct (reads (flat_map instead f)) as [h'|] eqn:R'; [|discriminate C].
  apply andb_prop in C. destruct C as [C C3]. apply andb_prop in C. destruct C as [C1 C2]. apply String.eqb_eq in C1. exists f, (flat_map instead f), h, h'. split; [reflexivity|]. split; [exact C1|]. split; [exact R|]. split; [exact R'|]. split; [apply opens_in, C2|]. rewrite <- opens_in. destruct (opens breaking h'); [discriminate C3|discriminate].
Qed.
Theorem C83_newline_refuted : exists f l h h', runAll None [StartSection breaking; StopSection; Initialize Finish] = Some [f] /\ text l = text f /\ reads f = Some h /\ reads l = Some h' /\ In (Opens breaking) h /\ ~ In (Opens breaking) h'.
Proof. apply ambiguous_spec. vm_compute. reflexivity. Qed.
Print Assumptions C83_records.
Print Assumptions C83_crash.
Print Assumptions C83_pending.
Print Assumptions C83_file.
Print Assumptions C83_nested.
Print Assumptions C83_off.
Print Assumptions C83_slash.
Print Assumptions C83_flush_refuted.
Print Assumptions C83_flush_all_refuted.
Print Assumptions C83_uninitialized_refuted.
Print Assumptions C83_second_refuted.
Print Assumptions C83_newline_refuted.

(** * Examples *)
Definition mapping : work := Inside "mapping" GFundamental false (Inside "map.nn.computeMapping" GDefault true (Note "cells" 12%Z Finish) Finish) Finish.
Definition program : list call := [StartSection "read mesh"; Call "setMeshVertices.A" (Note "n" 3%Z Finish); StartSection "inner"; StopSection; StopSection; Initialize (Note "meshSizeA" 3%Z mapping); Advance mapping; StartSection "open"; Call "readData.A_T" Finish].
Example program_fits : Forall plainCall program /\ match duringAll All true (Status false []) program with Some (st, h) => started st = true /\ sections st = ["open"] /\ length h = 41 | None => False end.
Proof. split; [repeat constructor|]. vm_compute. auto. Qed.
Definition program_check : bool := match construct unused true true (Some (All, 20, true)) Finish with Some (s1, p1) => match doCalls s1 p1 program with Some (s, p) => match finalize s p Finish with Some (s', _) =>
  match r_files s' with [f] => match reads f with Some h => Nat.eqb (length f) 83 && opens "solver.advance.sync" h && match nests [] h with Some [] => true | _ => false end | None => false end | _ => false end | None => false end | None => false end | None => false end.
Example program_file : program_check = true.
Proof. vm_compute. reflexivity. Qed.
(** in mode fundamental the calls of the interface are left out *)
Example program_fundamental : match duringAll Fundamental false (Status false []) program with Some (_, h) => h = [Opens "read mesh"; Opens "inner"; Closes "inner"; Closes "read mesh"; Closes "solver.initialize"; Opens "initialize"; Notes "initialize" "meshSizeA" 3%Z; Opens "mapping"; Closes "mapping"; Closes "initialize"; Opens "solver.advance"; Closes "solver.advance"; Opens "advance"; Opens "mapping"; Closes "mapping"; Closes "advance"; Opens "solver.advance"; Opens "open"] | None => False end.
Proof. vm_compute. reflexivity. Qed.
Example program_wrong : duringAll All false (Status false []) [StartSection "a"; Initialize Finish] = None /\ duringAll All false (Status false []) [Advance Finish] = None.
Proof. vm_compute. auto. Qed.
