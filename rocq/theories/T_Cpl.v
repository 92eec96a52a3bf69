(** C01-C12: one participant, every history of API calls, any partner. *)
From Coq Require Import ZArith Bool List Permutation Lia.
From Verif Require Import M_Net M_Time M_Wave M_Cpl S_Prog S_Cpl P_Prog P_Cpl P_CplRun P_CplApi P_CplExec.
Import ListNotations.
Open Scope Z_scope.

Section T.
Context {V : Type}.
Variables (gnone vzero : V).
Notation run := (run gnone vzero).
Notation p_advance := (p_advance gnone).
Notation p_initialize := (p_initialize gnone vzero).

Theorem C01_steps_stay_in_window_and_max_time :
  forall k c w h s E dt s', fixed k c w -> run k c h s ->
  returns (p_advance k E c dt s) s' ->
  progress h + dt <= w + c_eps c /\
  (forall T, c_maxTime c = Some T -> completed h * w + progress h + dt <= T + c_eps c).
Proof. exact (steps_bounded gnone vzero). Qed.

Theorem C01_time_never_exceeds_max_time :
  forall k c w h s T, fixed k c w -> run k c h s ->
  c_maxTime c = Some T -> 0 <= T -> isCouplingOngoing c s = true ->
  completed h * w + progress h <= T + 2 * c_eps c.
Proof. exact (time_bounded gnone vzero). Qed.

Theorem C02_oversized_steps_rejected :
  forall k E c dt (s : st (V:=V)) m,
  getMaxTimeStepSize c s = Some m -> m + c_eps c < dt -> rejected (p_advance k E c dt s).
Proof. exact (oversized_rejected gnone). Qed.

Theorem C02_zero_and_negative_steps_rejected :
  forall k E c dt (s : st (V:=V)), dt <= c_eps c -> 0 <= c_eps c -> rejected (p_advance k E c dt s).
Proof. exact (small_rejected gnone). Qed.

Theorem C02_admissible_steps_not_rejected :
  forall k E c w dt h s m n, fixed k c w -> run k c h s ->
  isCouplingOngoing c s = true -> pending_read h = false -> pending_write h = false ->
  getMaxTimeStepSize c s = Some m -> c_eps c < dt -> dt <= m + c_eps c ->
  fails (p_advance k E c dt s) (ECheck n) -> comm_codes n.
Proof. exact (accepted gnone vzero). Qed.

Theorem C03_max_step_is_positive :
  forall k c w h s, fixed k c w -> run k c h s -> follows_max h ->
  (forall T, c_maxTime c = Some T -> 0 <= T) -> c_eps c < w -> isCouplingOngoing c s = true ->
  exists m, getMaxTimeStepSize c s = Some m /\ c_eps c < m.
Proof. exact (max_step_positive gnone vzero). Qed.

Theorem C03_max_step_ends_the_window :
  forall k c w h s E m s', fixed k c w -> run k c h s ->
  getMaxTimeStepSize c s = Some m -> returns (p_advance k E c m s) s' ->
  o_complete (observe c s') = true \/ o_read (observe c s') = true.
Proof. exact (max_step_ends_window gnone vzero). Qed.

Lemma max_formula_run : forall k c w h s, fixed k c w -> run k c h s -> isCouplingOngoing c s = true ->
  getMaxTimeStepSize c s = min_limit (Some (w - progress h))
    (match c_maxTime c with None => None | Some T => Some (T - (completed h * w + progress h)) end).
Proof. intros k c w h s F R. exact (max_formula c w h s (run_inv _ _ k c w h s F R)). Qed.

(** the remaining step size only depends on the number of completed windows and
    the progress in the current one *)
Theorem C04_window_starts_do_not_drift :
  forall k c w h s, fixed k c w -> run k c h s -> isCouplingOngoing c s = true ->
  getMaxTimeStepSize c s = min_limit (Some (w - progress h))
    (match c_maxTime c with None => None | Some T => Some (T - (completed h * w + progress h)) end).
Proof. exact max_formula_run. Qed.

Lemma repeat_window : forall k c w h s E dt s', fixed k c w -> run k c h s ->
  returns (p_advance k E c dt s) s' -> o_read (observe c s') = true ->
  completed (Advanced dt (observe c s') :: h) = completed h /\
  isCouplingOngoing c s' = true /\
  getMaxTimeStepSize c s' = min_limit (Some w)
    (match c_maxTime c with None => None | Some T => Some (T - completed h * w) end).
Proof.
  intros k c w h s E dt s' F R H Rd.
  pose proof (run_inv _ _ _ _ _ _ _ F R) as I.
  pose proof (p_advance_spec _ _ _ _ _ _ _ _ _ F I H) as A.
  destruct (complete_iff _ _ _ _ _ _ _ _ _ _ F R H) as (C1 & C2 & _).
  assert (Nc : o_complete (observe c s') = false).
  { destruct (o_complete (observe c s')); [|reflexivity]. apply C2 in Rd as (_ & Q1 & Q2). destruct C1 as (C1 & _).
    destruct (C1 eq_refl) as (_ & Q3). rewrite (Q3 Q1) in Q2. discriminate Q2. }
  assert (On : isCouplingOngoing c s' = true).
  { destruct (reachedEndOfTimeWindow c (set_s_time (th_progressBy dt (s_time s)) s)) eqn:Re.
    - destruct (as_end _ _ _ _ A Re) as (w' & e1 & e2 & e3 & e4 & e5 & e6 & _).
      cbn in Nc. destruct (e6 Nc) as (q1 & q2). pose proof (as_ongoing _ _ _ _ A) as On.
      pose proof (time_bounded gnone vzero k c w h s) as _.
      unfold isCouplingOngoing in *. rewrite q1, q2. apply andb_prop in On as (O1 & O2). rewrite O1. cbn [andb].
      apply negb_true_iff. apply negb_true_iff in O2.
      unfold th_reachedEnd, th_untilTime, equals in *. cbn [th_resetProgress th_max th_start th_prog].
      destruct (th_max (s_time s)) as [T|] eqn:HT; [|reflexivity]. apply Z.leb_gt in O2. apply Z.leb_gt.
      pose proof (i_pnonneg _ _ _ _ I) as P0. pose proof (i_prog _ _ _ _ I) as P1.
      pose proof (as_max _ _ _ _ A) as M. rewrite (max_formula _ _ _ _ I (as_ongoing _ _ _ _ A)) in M.
      rewrite <- (i_max _ _ _ _ I), HT in M. cbn [min_limit] in M.
      pose proof (as_dt _ _ _ _ A) as D. pose proof (ongoing_start _ _ _ _ I (as_ongoing _ _ _ _ A)) as St.
      rewrite St, P1 in *. generalize dependent (completed h * w). intros ws. intros. clear - O2 P0 M D. lia.
    - destruct (as_sub _ _ _ _ A Re) as (_ & _ & _ & _ & e5 & _). cbn in Rd. rewrite e5 in Rd. discriminate Rd. }
  split; [cbn; cbn in Nc; rewrite Nc; lia|]. split; [exact On|].
  assert (R' : run k c (Advanced dt (observe c s') :: h) s') by (eapply run_adv; eassumption).
  rewrite (max_formula_run _ _ _ _ _ F R' On). cbn [progress completed].
  rewrite Rd, Nc. cbn [orb]. rewrite Z.sub_0_r, Z.add_0_l. destruct (c_maxTime c) as [T|]; [|reflexivity].
  rewrite Z.add_0_r. reflexivity.
Qed.

Theorem C05_repeated_window_restarts :
  forall k c w h s E dt s', fixed k c w -> run k c h s ->
  returns (p_advance k E c dt s) s' -> o_read (observe c s') = true ->
  completed (Advanced dt (observe c s') :: h) = completed h /\
  isCouplingOngoing c s' = true /\
  getMaxTimeStepSize c s' = min_limit (Some w)
    (match c_maxTime c with None => None | Some T => Some (T - completed h * w) end).
Proof. exact repeat_window. Qed.

Theorem C06_ends_exactly_at_the_limits :
  forall k c w h s, fixed k c w -> run k c h s -> follows_max h ->
  (forall T, c_maxTime c = Some T -> 0 <= T) -> c_eps c < w ->
  isCouplingOngoing c s = true <->
  (match c_maxWindows c with None => True | Some n => completed h < n end) /\
  (match c_maxTime c with None => True | Some T => completed h * w + progress h < T - c_eps c end).
Proof. exact (ongoing_iff gnone vzero). Qed.

Theorem C06_window_count_bounded :
  forall k c w h s n, fixed k c w -> run k c h s ->
  c_maxWindows c = Some n -> 0 <= n -> completed h <= n.
Proof. exact (windows_bounded gnone vzero). Qed.

Theorem C06_no_step_after_the_end :
  forall k E c dt (s : st (V:=V)), isCouplingOngoing c s = false -> rejected (p_advance k E c dt s).
Proof. exact (ended_rejected gnone). Qed.

Theorem C07_C08_complete_read_write :
  forall k c w h s E dt s', fixed k c w -> run k c h s ->
  returns (p_advance k E c dt s) s' ->
  (o_complete (observe c s') = true <-> window_end c w h dt /\ (c_implicit c = true -> s_conv s' = true)) /\
  (o_read (observe c s') = true <-> window_end c w h dt /\ c_implicit c = true /\ s_conv s' = false) /\
  (o_write (observe c s') = true <->
     window_end c w h dt /\ c_implicit c = true /\ s_conv s' = true /\
     (match c_maxWindows c with None => True | Some n => completed h + 1 < n end) /\
     (match c_maxTime c with None => True | Some T => c_eps c < Z.abs (T - (completed h * w + progress h + dt)) end)).
Proof. exact (complete_iff gnone vzero). Qed.

Theorem C08_write_iff_window_completed_and_ongoing :
  forall k c w h s E dt s', fixed k c w -> run k c h s ->
  returns (p_advance k E c dt s) s' ->
  exact_steps (c_eps c) (Advanced dt (observe c s') :: h) ->
  o_write (observe c s') = true <->
  c_implicit c = true /\ o_complete (observe c s') = true /\ o_ongoing (observe c s') = true.
Proof. exact (write_iff_exact gnone vzero). Qed.

Lemma init_obs : forall k E c s', 
  returns (p_initialize k E c (answerInit (st0 c))) s' ->
  o_complete (observe c s') = false /\ o_read (observe c s') = false /\ o_write (observe c s') = c_implicit c.
Proof.
  intros k E c s' H. pose proof (initialize_spec _ _ _ _ _ _ _ (or_intror eq_refl) H) as I.
  cbn. rewrite (is_compl _ _ I), (is_read _ _ I), (is_write _ _ I). auto.
Qed.

Theorem C08_initialize_requests_write :
  forall k E c s', returns (p_initialize k E c (answerInit (st0 c))) s' ->
  o_complete (observe c s') = false /\ o_read (observe c s') = false /\ o_write (observe c s') = c_implicit c.
Proof. exact init_obs. Qed.

Theorem C09_ignored_checkpoint_stops :
  forall k E c w dt h s, fixed k c w -> run k c h s ->
  pending_read h = true \/ pending_write h = true ->
  exists e, p_advance k E c dt s = PErr e.
Proof. exact (unanswered_stops gnone vzero). Qed.

Theorem C09_ignored_initial_data_stops :
  forall k E c, sendsInitialized c = true -> rejected (p_initialize k E c (st0 c)).
Proof. exact (init_unanswered gnone vzero). Qed.

Theorem C10_at_most_max_iterations :
  forall k c w h s mx, fixed k c w -> run k c h s ->
  c_first c = false -> c_implicit c = true -> c_maxIt c = Some mx -> 1 <= mx ->
  1 <= iteration h <= mx.
Proof. exact (iterations_bounded gnone vzero). Qed.

Theorem C10_at_least_min_iterations :
  forall k c w h s E dt s' mx, fixed k c w -> run k c h s ->
  c_first c = false -> c_implicit c = true ->
  returns (p_advance k E c dt s) s' -> o_complete (observe c s') = true ->
  c_maxIt c = mx -> (forall m, mx = Some m -> c_minIt c <= m) ->
  c_minIt c <= iteration h.
Proof. exact (completed_after_min gnone vzero). Qed.

Lemma decision : forall k c w h s E os dt s', fixed k c w -> run k c h s ->
  c_first c = false -> c_implicit c = true -> (forall x, e_measure E x = os) ->
  returns (p_advance k E c dt s) s' -> window_end c w h dt ->
  o_complete (observe c s') = true <->
  converged (c_minIt c) (iteration h) (c_maxIt c) (combine (c_measures c) os).
Proof.
  intros k c w h s E os dt s' F R Hf Hi Ho H We.
  destruct (p_advance_decides _ _ _ _ _ _ _ _ _ _ F R Hf Hi H We) as (x & D & _). rewrite (Ho x) in D.
  destruct (complete_iff _ _ _ _ _ _ _ _ _ _ F R H) as (C1 & _). rewrite C1, Hi, D. tauto.
Qed.

Theorem C11_convergence_decision :
  forall k c w h s E os dt s', fixed k c w -> run k c h s ->
  c_first c = false -> c_implicit c = true -> (forall x, e_measure E x = os) ->
  returns (p_advance k E c dt s) s' -> window_end c w h dt ->
  o_complete (observe c s') = true <->
  converged (c_minIt c) (iteration h) (c_maxIt c) (combine (c_measures c) os).
Proof. exact decision. Qed.

Theorem C11_order_of_measures_irrelevant :
  forall minIt it mx l l', Permutation l l' -> converged minIt it mx l -> converged minIt it mx l'.
Proof. exact converged_perm. Qed.

Lemma strict_stops : forall k c w h s E os dt s', fixed k c w -> run k c h s ->
  c_first c = false -> c_implicit c = true -> (forall x, e_measure E x = os) ->
  returns (p_advance k E c dt s) s' -> window_end c w h dt ->
  strict_failed (combine (c_measures c) os) ->
  exists mx, c_maxIt c = Some mx /\ iteration h < mx.
Proof.
  intros k c w h s E os dt s' F R Hf Hi Ho H We Sf.
  destruct (p_advance_decides _ _ _ _ _ _ _ _ _ _ F R Hf Hi H We) as (x & _ & D). rewrite (Ho x) in D. auto.
Qed.

(** an advance() that returns normally although a strict measure failed is
    below max-iterations *)
Theorem C12_failed_strict_measure_stops_at_max_iterations :
  forall k c w h s E os dt s', fixed k c w -> run k c h s ->
  c_first c = false -> c_implicit c = true -> (forall x, e_measure E x = os) ->
  returns (p_advance k E c dt s) s' -> window_end c w h dt ->
  strict_failed (combine (c_measures c) os) ->
  exists mx, c_maxIt c = Some mx /\ iteration h < mx.
Proof. exact strict_stops. Qed.

End T.
Print Assumptions C01_steps_stay_in_window_and_max_time.
Print Assumptions C01_time_never_exceeds_max_time.
Print Assumptions C02_oversized_steps_rejected.
Print Assumptions C02_zero_and_negative_steps_rejected.
Print Assumptions C02_admissible_steps_not_rejected.
Print Assumptions C03_max_step_is_positive.
Print Assumptions C03_max_step_ends_the_window.
Print Assumptions C04_window_starts_do_not_drift.
Print Assumptions C05_repeated_window_restarts.
Print Assumptions C06_ends_exactly_at_the_limits.
Print Assumptions C06_window_count_bounded.
Print Assumptions C06_no_step_after_the_end.
Print Assumptions C07_C08_complete_read_write.
Print Assumptions C08_write_iff_window_completed_and_ongoing.
Print Assumptions C08_initialize_requests_write.
Print Assumptions C09_ignored_checkpoint_stops.
Print Assumptions C09_ignored_initial_data_stops.
Print Assumptions C10_at_most_max_iterations.
Print Assumptions C10_at_least_min_iterations.
Print Assumptions C11_convergence_decision.
Print Assumptions C11_order_of_measures_irrelevant.
Print Assumptions C12_failed_strict_measure_stops_at_max_iterations.

(** ** Concrete histories *)

(** second participant of a serial-implicit coupling, window size 100, max-time
    250, tolerance 1, two measures (the first suffices, the second is strict),
    one data item with substeps sent, one without received *)
Definition ex_conf : conf :=
  Conf 1 true false false false (Some 250) (Some 5) (Some 100) 1 (Some 4)
       [(true, false); (false, true)] 0 [DSpec true false false] [DSpec false false false].
Definition ex_env (a b : bool) : env (V:=Z) :=
  Env (fun _ => 50) (fun s n => (th_time (s_time s) + 7, 0)) (fun n => (3, 0)) (fun _ => [a; b])
      (fun _ _ _ _ x => (fst x + 1, snd x)).

(** two substeps, not converged, then one step, converged *)
Definition ex_ops : list op :=
  [ OAdv (ex_env true true) 100 [MVals [13]]; ORead;
    OAdv (ex_env true false) 60 [MVals [12]];
    OAdv (ex_env true true) 40 []; OWrite;
    OInit (ex_env true true) [MVals [11]] ].
Definition ex_run := exec 0 0 Serial ex_conf ex_ops.

Example ex_run_ok : match ex_run with
  | Some (h, s) => completed h = 1 /\ progress h = 0 /\ last_obs h = Some (Obs true false true true (Some 100))
  | None => False end.
Proof. vm_compute. repeat split. Qed.

Example ex_fixed : fixed Serial ex_conf 100.
Proof. vm_compute. intuition congruence. Qed.

(** the hypotheses of C01, C05, C07, C10, C11, C12 hold in this history *)
Example ex_hyps : exists h s s',
  run 0 0 Serial ex_conf h s /\ follows_max h /\
  returns (p_advance 0 Serial (ex_env true false) ex_conf 60 s) s' /\
  o_read (observe ex_conf s') = true /\
  window_end ex_conf 100 h 60 /\ strict_failed (combine (c_measures ex_conf) [true; false]) /\
  isCouplingOngoing ex_conf s = true /\ progress h = 40.
Proof.
  destruct (exec 0 0 Serial ex_conf (skipn 3 ex_ops)) as [(h, s)|] eqn:Q; [|vm_compute in Q; discriminate Q].
  exists h, s.
  assert (Qr : run 0 0 Serial ex_conf h s) by (eapply exec_run, Q).
  vm_compute in Q. injection Q as <- <-.
  match goal with |- exists s', _ /\ _ /\ returns ?p s' /\ _ =>
    destruct (feed p [MVals [12]]) as [s'|] eqn:Q; [|vm_compute in Q; discriminate Q] end.
  exists s'. split; [exact Qr|]. split; [vm_compute; repeat split; discriminate|].
  split; [eapply feed_returns, Q|]. vm_compute in Q. injection Q as <-.
  split; [reflexivity|]. split; [left; vm_compute; discriminate|]. split.
  { exists (false, true, false). cbn. auto. }
  split; reflexivity.
Qed.

(** ** What does not hold with steps that use the tolerance *)
Definition no_data (impl : bool) (T : Z) : conf :=
  Conf 10 impl false false false (Some T) None (Some 100) 1 (Some 1) [] 0 [] [].

(** C03: with accepted steps slightly larger than the maximal one the coupling
    can end up ongoing with a negative maximal step size *)
Theorem C03_tolerance_refuted : exists h s m,
  run 0 0 Parallel (no_data false 85) h s /\ isCouplingOngoing (no_data false 85) s = true /\
  getMaxTimeStepSize (no_data false 85) s = Some m /\ m < 0.
Proof.
  destruct (exec 0 0 Parallel (no_data false 85) [OAdv (ex_env true true) 92 []; OInit (ex_env true true) []]) as [(h, s)|] eqn:Q;
    [|vm_compute in Q; discriminate Q].
  exists h, s, (-15). split; [eapply exec_run, Q|]. vm_compute in Q. injection Q as <- <-.
  repeat split.
Qed.

(** C08: a write checkpoint is requested although the coupling has ended
    (steps never exceed the maximal one) *)
Theorem C08_write_after_end_refuted : exists h s,
  run 0 0 Parallel (no_data true 105) h s /\ follows_max h /\
  o_write (observe (no_data true 105) s) = true /\ isCouplingOngoing (no_data true 105) s = false.
Proof.
  destruct (exec 0 0 Parallel (no_data true 105) [OAdv (ex_env true true) 92 []; OWrite; OInit (ex_env true true) []]) as [(h, s)|] eqn:Q;
    [|vm_compute in Q; discriminate Q].
  exists h, s. split; [eapply exec_run, Q|]. vm_compute in Q. injection Q as <- <-.
  split; [vm_compute; repeat split; discriminate|]. split; reflexivity.
Qed.

(** C08: the coupling goes on after a completed window, but no write checkpoint
    is requested (the step exceeds the maximal one by less than the tolerance) *)
Theorem C08_missing_write_refuted : exists h s,
  run 0 0 Parallel (no_data true 115) h s /\ completed h = 1 /\
  o_write (observe (no_data true 115) s) = false /\ isCouplingOngoing (no_data true 115) s = true.
Proof.
  destruct (exec 0 0 Parallel (no_data true 115) [OAdv (ex_env true true) 108 []; OWrite; OInit (ex_env true true) []]) as [(h, s)|] eqn:Q;
    [|vm_compute in Q; discriminate Q].
  exists h, s. split; [eapply exec_run, Q|]. vm_compute in Q. injection Q as <- <-.
  repeat split.
Qed.

(** C10: without measures and with unlimited iterations no window is ever
    completed (the configuration check for this case compares with the wrong
    sentinel) *)
Lemma never_converges : forall k c w h s E dt s', fixed k c w -> run 0 0 k c h s ->
  c_first c = false -> c_implicit c = true -> c_measures c = [] -> c_maxIt c = None ->
  returns (p_advance 0 k E c dt s) s' -> o_complete (observe (V:=Z) c s') = false.
Proof.
  intros k c w h s E dt s' F R Hf Hi Hm Hx H. destruct (o_complete (observe c s')) eqn:Q; [|reflexivity].
  destruct (complete_iff _ _ _ _ _ _ _ _ _ _ F R H) as (C1 & _). apply C1 in Q as (We & Cv). specialize (Cv Hi).
  destruct (p_advance_decides _ _ _ _ _ _ _ _ _ _ F R Hf Hi H We) as (x & D & _).
  apply D in Cv. rewrite Hm, Hx in Cv. destruct Cv as [(Q & _)|Q]; [exfalso; apply Q; reflexivity|discriminate Q].
Qed.
Theorem C10_no_measure_unlimited_never_completes :
  forall k c w h s E dt s', fixed k c w -> run 0 0 k c h s ->
  c_first c = false -> c_implicit c = true -> c_measures c = [] -> c_maxIt c = None ->
  returns (p_advance 0 k E c dt s) s' -> o_complete (observe (V:=Z) c s') = false.
Proof. exact never_converges. Qed.
Print Assumptions C03_tolerance_refuted.
Print Assumptions C08_write_after_end_refuted.
Print Assumptions C08_missing_write_refuted.
Print Assumptions C10_no_measure_unlimited_never_completes.
