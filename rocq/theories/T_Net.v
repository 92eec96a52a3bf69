(** Coupled participants (C13-C16, C18, C19). *)
From Coq Require Import ZArith Bool List Lia.
From Verif Require Import M_Net M_Time M_Wave M_Cpl S_Prog S_Cpl S_Net P_NetPar P_NetSer P_NetExec P_NetData.
Import ListNotations.
Open Scope Z_scope.

Section T.
Context {V : Type}.
Variables (gnone vzero : V).
Notation env := (env (V:=V)).

(** C13 *)
Theorem C13_serial_explicit : forall cA cB (EA EB : env) w,
  partners cA cB -> fixed_window w cA cB -> c_implicit cA = false ->
  exact_solver cA EA -> exact_solver cB EB ->
  coupling_correct gnone vzero Serial cA cB EA EB.
Proof.
  intros cA cB EA EB w P F I A B.
  apply (serial_correct gnone vzero cA cB EA EB false w (fun z => z) P A B).
  - rewrite (pt_implicit _ _ P). congruence.
  - split; [exact F|congruence].
Qed.

(** C14 *)
Theorem C14_serial_implicit : forall cA cB (EA EB : env) w,
  partners cA cB -> fixed_window w cA cB -> c_implicit cA = true -> cut_safe w cA ->
  exact_solver cA EA -> exact_solver cB EB -> measures_ok cB EB ->
  coupling_correct gnone vzero Serial cA cB EA EB.
Proof.
  intros cA cB EA EB w P F I C A B M.
  apply (serial_correct gnone vzero cA cB EA EB false w (fun z => z) P A B); [auto|].
  split; [exact F|]. intros _. exact C.
Qed.

(** C15 *)
Theorem C15_parallel_explicit : forall cA cB (EA EB : env) w,
  partners cA cB -> fixed_window w cA cB -> c_implicit cA = false ->
  exact_solver cA EA -> exact_solver cB EB ->
  coupling_correct gnone vzero Parallel cA cB EA EB.
Proof.
  intros cA cB EA EB w P F I A B. apply (parallel_correct gnone vzero cA cB EA EB w P F A B).
  rewrite (pt_implicit _ _ P). congruence.
Qed.

(** C16 *)
Theorem C16_parallel_implicit : forall cA cB (EA EB : env) w,
  partners cA cB -> fixed_window w cA cB -> c_implicit cA = true ->
  exact_solver cA EA -> exact_solver cB EB -> measures_ok cB EB ->
  coupling_correct gnone vzero Parallel cA cB EA EB.
Proof. intros cA cB EA EB w P F I A B M. apply (parallel_correct gnone vzero cA cB EA EB w P F A B); auto. Qed.

(** C18 *)
Theorem C18_first_participant : forall cA cB (EA EB : env),
  partners cA cB -> first_participant cA cB ->
  exact_solver cA EA -> repeats_steps EA -> exact_solver cB EB -> (c_implicit cB = true -> measures_ok cB EB) ->
  coupling_correct gnone vzero Serial cA cB EA EB.
Proof.
  intros cA cB EA EB P F A (f & Hf) B M. apply (serial_correct gnone vzero cA cB EA EB true 0 f P A B M). split; [exact F|exact Hf].
Qed.

(** C19: what is logged as received is what the storages contain, and data
    exchanged without substeps is stored at the current time (parallel
    schemes and first participant: the window end), respectively at the end
    of the next window *)
Theorem C19_stamped_at_window_end : forall c (s s' : st (V:=V)), 0 <= c_eps c -> returns (receiveData gnone c s) s' ->
  s_rcvd s' = s_rcvd s ++ [viewsOf gnone (c_recv c) (s_recv s')] /\
  forall n d w, nth_error (c_recv c) n = Some d -> nth_error (s_recv s') n = Some w -> d_sub d = false ->
  exists u x, In (u, x) w /\ Z.abs (u - th_time (s_time s)) <= c_eps c.
Proof. exact (receive_stamps gnone). Qed.
Theorem C19_stamped_at_next_window_end : forall c (s s' : st (V:=V)) w, 0 <= c_eps c -> s_next s = Some w ->
  returns (receiveDataForWindowEnd gnone c s) s' ->
  s_rcvd s' = s_rcvd s ++ [viewsOf gnone (c_recv c) (s_recv s')] /\
  forall n d wv, nth_error (c_recv c) n = Some d -> nth_error (s_recv s') n = Some wv -> d_sub d = false ->
  exists u x, In (u, x) wv /\ Z.abs (u - (th_time (s_time s) + w)) <= c_eps c.
Proof. exact (receive_end_stamps gnone). Qed.
End T.
Print Assumptions C13_serial_explicit.
Print Assumptions C14_serial_implicit.
Print Assumptions C15_parallel_explicit.
Print Assumptions C16_parallel_implicit.
Print Assumptions C18_first_participant.
Print Assumptions C19_stamped_at_window_end.
Print Assumptions C19_stamped_at_next_window_end.

(** ** The hypotheses are met *)
Definition exA (impl : bool) (tws : option Z) (T : Z) (sub : bool) : conf :=
  Conf 1 impl true (match tws with None => true | _ => false end) false (Some T) (Some 7) tws 1 (Some 4) []
    1 [DSpec sub true false; DSpec true false true] [DSpec false false false].
Definition exB (impl : bool) (tws : option Z) (T : Z) (sub : bool) : conf :=
  Conf 1 impl false false (match tws with None => true | _ => false end) (Some T) (Some 7) tws 1 (Some 4) [(true, false); (false, true)]
    0 [DSpec false false false] [DSpec sub true false; DSpec true false true].

(** half steps if enough time is left, else the maximal step; converges in the
    third iteration *)
Definition exE (c : conf) : env (V:=Z) :=
  Env (fun s => match getMaxTimeStepSize c s with None => 30 | Some m => if 60 <? m then 50 else m end)
      (fun s n => (th_time (s_time s) + 7, 0)) (fun n => (3, 0)) (fun s => [2 <? s_it s; 2 <? s_it s])
      (fun _ _ _ _ x => (fst x + 1, snd x)).

Example ex_partners : forall impl tws sub, partners (exA impl tws 250 sub) (exB impl tws 250 sub).
Proof. intros [|] [w|] [|]; constructor; cbn; try reflexivity; try lia; intros x H; injection H as <-; lia. Qed.
Example ex_window : forall impl sub, fixed_window 100 (exA impl (Some 100) 250 sub) (exB impl (Some 100) 250 sub).
Proof. intros. repeat split; reflexivity || cbn; lia. Qed.
Lemma ex_solver c : c_eps c = 1 -> exact_solver c (exE c).
Proof.
  intros Hc s O _ _. unfold exE. cbn [e_dt]. rewrite Hc. destruct (getMaxTimeStepSize c s) as [m|]; [|lia].
  intros L. destruct (Z.ltb_spec 60 m); lia.
Qed.
Example ex_measures : measures_ok (exB true (Some 100) 250 true) (exE (exB true (Some 100) 250 true)).
Proof.
  intros s. split; [reflexivity|]. intros (m & H & S & F). exists 4. split; [reflexivity|].
  cbn in H. destruct H as [<-|[<-|[]]]; cbn in S, F; [discriminate S|]. apply Z.ltb_ge in F. lia.
Qed.
Example ex_cut : cut_safe 100 (exA true (Some 100) 250 true).
Proof. left. cbn. intros d [<-|[<-|[]]]; reflexivity. Qed.

(** first-participant method: steps of 50, the last one up to max-time *)
Definition fpE : env (V:=Z) :=
  Env (fun s => let m := 240 - th_start (s_time s) in if 60 <? m then 50 else m)
      (fun s n => (th_time (s_time s) + 7, 0)) (fun n => (3, 0)) (fun s => [2 <? s_it s; 2 <? s_it s])
      (fun _ _ _ _ x => (fst x + 1, snd x)).
Example ex_first_participant : forall sub,
  let cA := exA true None 240 sub in let cB := exB true None 240 sub in
  partners cA cB /\ first_participant cA cB /\ exact_solver cA fpE /\ repeats_steps fpE /\ exact_solver cB (exE cB) /\ measures_ok cB (exE cB).
Proof.
  intros sub. cbv zeta. split; [constructor; cbn; try reflexivity; try lia; intros x H; injection H as <-; lia|].
  split; [repeat split|]. split; [|split; [exists (fun z => let m := 240 - z in if 60 <? m then 50 else m); reflexivity|split; [apply ex_solver; reflexivity|]]].
  - intros s O M W. destruct (W eq_refl) as (W1 & W2). unfold getMaxTimeStepSize. rewrite O, W1.
    unfold th_untilEnd, th_untilTime. rewrite M, W2. cbn [exA c_maxTime c_eps fpE e_dt]. intros L.
    destruct (Z.ltb_spec 60 (240 - th_start (s_time s))); lia.
  - intros s. split; [reflexivity|]. intros (m & H & S & F). exists 4. split; [reflexivity|].
    cbn in H. destruct H as [<-|[<-|[]]]; cbn in S, F; [discriminate S|]. apply Z.ltb_ge in F. lia.
Qed.

(** ** What the hypotheses exclude *)
(** the run of two participants, by computation *)
Definition exec (fuel : nat) k cA cB (EA EB : env (V:=Z)) :=
  run2 (couple 0 k cA cB EA EB) fuel (solverStart 0 0 k EA cA) (solverStart 0 0 k EB cB).

(** always the maximal step; a measure converges from the second iteration on *)
Definition maxE (c : conf) : env (V:=Z) :=
  Env (fun s => match getMaxTimeStepSize c s with None => 100 | Some m => m end)
      (fun _ _ => (1, 0)) (fun _ => (0, 0)) (fun s => map (fun _ => 1 <? s_it s) (c_measures c)) (fun _ _ _ _ x => x).
Lemma max_solver c : c_eps c < 100 -> 0 <= c_eps c -> exact_solver c (maxE c).
Proof. intros H H0 s O _ _. cbn [maxE e_dt]. destruct (getMaxTimeStepSize c s); [|exact H]. intros L. split; [exact L|left; reflexivity]. Qed.

(** C13: participants that only respect [dt <= getMaxTimeStepSize()] can
    deadlock.  eps=10, window 100, max-time 110; A takes full steps and is
    finished after one window, B steps 95, which completes its window within
    the tolerance, is 15 short of max-time and waits for A forever. *)
Definition tolConf (first : bool) : conf :=
  Conf 10 false first false false (Some 110) None (Some 100) 1 None []
    (if first then 1%nat else 0%nat) [DSpec true false false] [DSpec true false false].
Definition tolE (c : conf) (dt : Z) : env (V:=Z) :=
  Env (fun s => match getMaxTimeStepSize c s with None => dt | Some m => Z.min m dt end)
      (fun _ _ => (1, 0)) (fun _ => (0, 0)) (fun _ => []) (fun _ _ _ _ x => x).
Definition max_respected (c : conf) (E : env (V:=Z)) : Prop :=
  forall s, match getMaxTimeStepSize c s with None => True | Some m => e_dt E s <= m end.
Theorem C13_within_tolerance_refuted : exists cA cB (EA EB : env (V:=Z)),
  partners cA cB /\ fixed_window 100 cA cB /\ c_implicit cA = false /\
  exact_solver cA EA /\ max_respected cB EB /\
  exists c, reaches (sstep (couple 0 Serial cA cB EA EB)) (start 0 0 Serial cA cB EA EB) c /\
    ~ all_finished (couple 0 Serial cA cB EA EB) c /\ forall l c', ~ sstep (couple 0 Serial cA cB EA EB) l c c'.
Proof.
  exists (tolConf true), (tolConf false), (maxE (tolConf true)), (tolE (tolConf false) 95).
  split; [constructor; cbn; try reflexivity; try lia; intros x H; try discriminate H; injection H as <-; lia|].
  split; [repeat split; reflexivity || cbn; lia|]. split; [reflexivity|].
  split; [apply max_solver; cbn; lia|]. split; [intros s; cbn [tolE e_dt]; destruct (getMaxTimeStepSize (tolConf false) s); lia|].
  apply (run2_stuck _ 60). vm_compute. reflexivity.
Qed.

(** C14: without [cut_safe] an implicit coupling can run into an assertion.
    Window 100, max-time 150, no substeps: the second window is cut to 50, the
    data for it is stored at 200, and the repeated iteration fails. *)
Definition cutConf (first : bool) : conf :=
  Conf 1 true first false false (Some 150) None (Some 100) 1 (Some 5) (if first then [] else [(false,false)])
    (if first then 1%nat else 0%nat) [DSpec false false false] [DSpec false false false].
Theorem C14_truncated_window_refuted : exists cA cB (EA EB : env (V:=Z)),
  partners cA cB /\ fixed_window 100 cA cB /\ c_implicit cA = true /\
  exact_solver cA EA /\ exact_solver cB EB /\ measures_ok cB EB /\
  exists c, reaches (sstep (couple 0 Serial cA cB EA EB)) (start 0 0 Serial cA cB EA EB) c /\ some_error c.
Proof.
  exists (cutConf true), (cutConf false), (maxE (cutConf true)), (maxE (cutConf false)).
  split; [constructor; cbn; try reflexivity; try lia; intros x H; try discriminate H; injection H as <-; lia|].
  split; [repeat split; reflexivity || cbn; lia|]. split; [reflexivity|].
  split; [apply max_solver; cbn; lia|]. split; [apply max_solver; cbn; lia|]. split.
  - intros s. split; [reflexivity|]. intros (m & H & S & F). cbn in H. destruct H as [<-|[]]. discriminate S.
  - apply (run2_error _ 100). vm_compute. reflexivity.
Qed.
Print Assumptions C13_within_tolerance_refuted.
Print Assumptions C14_truncated_window_refuted.

(** The four couplings above run to completion on the examples. *)
Definition both_done k cA cB (EA EB : env (V:=Z)) : bool :=
  match exec 2000 k cA cB EA EB with
  | (PRet sA, PRet sB) => negb (isCouplingOngoing cA sA) && negb (isCouplingOngoing cB sB) && (2 <? Z.of_nat (length (s_hist sA)))
  | _ => false
  end.
Example ex_run_serial_explicit : both_done Serial (exA false (Some 100) 250 true) (exB false (Some 100) 250 true)
  (exE (exA false (Some 100) 250 true)) (exE (exB false (Some 100) 250 true)) = true.
Proof. vm_compute. reflexivity. Qed.
Example ex_run_serial_implicit : both_done Serial (exA true (Some 100) 250 true) (exB true (Some 100) 250 true)
  (exE (exA true (Some 100) 250 true)) (exE (exB true (Some 100) 250 true)) = true.
Proof. vm_compute. reflexivity. Qed.
Example ex_run_parallel_explicit : both_done Parallel (exA false (Some 100) 250 false) (exB false (Some 100) 250 false)
  (exE (exA false (Some 100) 250 false)) (exE (exB false (Some 100) 250 false)) = true.
Proof. vm_compute. reflexivity. Qed.
Example ex_run_parallel_implicit : both_done Parallel (exA true (Some 100) 250 false) (exB true (Some 100) 250 false)
  (exE (exA true (Some 100) 250 false)) (exE (exB true (Some 100) 250 false)) = true.
Proof. vm_compute. reflexivity. Qed.
Example ex_run_first_participant : both_done Serial (exA true None 240 false) (exB true None 240 false)
  fpE (exE (exB true None 240 false)) = true.
Proof. vm_compute. reflexivity. Qed.
