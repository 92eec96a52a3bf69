From Coq Require Import ZArith Bool List Lia.
From Verif Require Import M_Net M_Time M_Wave M_Cpl S_Prog S_Cpl P_Prog P_Cpl.
Import ListNotations.
Open Scope Z_scope.

Section R.
Context {V : Type}.
Variables (gnone vzero : V).
Notation st := (st (V:=V)).
Notation prog := (proc (msg V)).

Definition init_hook (c : conf) (f : st -> prog st) : Prop :=
  forall s s', s_tws s = s_next s -> returns (f s) s' ->
    same_ctl s s' /\ (c_recvs c = false -> s_tws s' = s_tws s /\ s_next s' = s_next s).

Ltac brk := unfold keeps, same_ctl in *; cbn in *; intuition congruence.

Lemma ser_initial_hook c : init_hook c (ser_initial gnone vzero c).
Proof.
  intros s s' Ht H. unfold ser_initial in H. destruct (c_first c).
  - rb H.
    assert (A : keeps s x).
    { destruct (receivesInitialized c).
      - rb H0. apply notify_keeps in H0. apply receiveData_keeps in H1. brk.
      - apply zero_keeps in H0. tauto. }
    destruct (sendsInitialized c); [apply sendData_keeps in H|cbn in H; subst]; brk.
  - rb H. rb H. rb H. rb H. apply notify_keeps in H. apply windowEnd_keeps in H3. apply recvTWS_spec in H2.
    assert (A : keeps s x).
    { destruct (sendsInitialized c); [apply sendData_keeps in H0; tauto|cbn in H0; subst; apply keeps_refl]. }
    assert (B : keeps x x0).
    { destruct (receivesInitialized c); [apply receiveData_keeps in H1; tauto|cbn in H1; subst; apply keeps_refl]. }
    clear H0 H1. split; [brk|]. intros R. assert (s_next x1 = s_next s) by brk. split; brk.
Qed.

Lemma par_initial_hook c : init_hook c (par_initial gnone vzero c).
Proof.
  intros s s' Ht H. unfold par_initial in H.
  assert (A : forall a b, returns (if receivesInitialized c then bind (receiveData gnone c a) notifyDataHasBeenReceived
                else initializeWithZeroInitialData gnone vzero c a) b -> keeps a b).
  { intros a b Q. destruct (receivesInitialized c).
    - rb Q. apply notify_keeps in Q. apply receiveData_keeps in H0. brk.
    - apply zero_keeps in Q. tauto. }
  assert (B : forall a b, returns (if sendsInitialized c then sendData gnone c a else PRet a) b -> keeps a b).
  { intros a b Q. destruct (sendsInitialized c); [apply sendData_keeps in Q; tauto|cbn in Q; subst; apply keeps_refl]. }
  destruct (c_first c); rb H.
  - apply B in H0. apply A in H. brk.
  - apply A in H0. apply B in H. brk.
Qed.

Lemma exI_hook k c : init_hook c (exI gnone vzero k c).
Proof. destruct k; [apply ser_initial_hook|apply par_initial_hook]. Qed.
Lemma ex1_hook k E c : wf_method k c -> hook1 c (ex1 gnone k E c).
Proof. destruct k; [apply ser_first_hook|apply par_first_hook]. Qed.
Lemma ex2_hook k E c : hook2 c (ex2 gnone k E c).
Proof. destruct k; [apply ser_second_hook|apply par_second_hook]. Qed.

Record init_spec (c : conf) (s' : st) : Prop := {
  is_time : s_time s' = TH (c_maxTime c) 0 0;
  is_windows : s_windows s' = 1;
  is_it : s_it s' = 1;
  is_compl : s_compl s' = false;
  is_read : a_read (s_req s') = false;
  is_write : a_write (s_req s') = c_implicit c;
  is_ful : a_write (s_ful s') = false /\ a_read (s_ful s') = false;
  is_init : a_init (s_req s') = true -> a_init (s_ful s') = true;
  is_hist : s_hist s' = [];
  is_tws : c_recvs c = false -> s_tws s' = c_tws c /\ s_next s' = c_tws c
}.

Lemma initialize_spec k E c s s' : s = st0 c \/ s = answerInit (st0 c) ->
  returns (p_initialize gnone vzero k E c s) s' -> init_spec c s'.
Proof.
  intros Hs H. unfold p_initialize, initialize in H.
  rb H. apply ret_check in H0. rb H. rb H. apply zero_keeps in H2. rb H. rb H.
  set (s2 := set_s_recvd false (set_s_windows 1 x1)) in *.
  assert (A : s_time x3 = TH (c_maxTime c) 0 0 /\ s_windows x3 = 1 /\ s_it x3 = 1 /\ s_compl x3 = false /\
     s_req x3 = Acts (sendsInitialized c) false (c_implicit c) /\ s_ful x3 = s_ful s /\
     s_tws x3 = c_tws c /\ s_next x3 = c_tws c /\ s_hist x3 = []).
  { assert (B : s_time s = TH (c_maxTime c) 0 0 /\ s_it s = 1 /\ s_compl s = false /\ s_req s = Acts (sendsInitialized c) false false
        /\ s_tws s = c_tws c /\ s_next s = c_tws c /\ s_hist s = []).
    { destruct Hs; subst s; unfold answerInit; cbn; [repeat split|].
      destruct (sendsInitialized c) eqn:Es; cbn; rewrite ?Es; repeat split. }
    assert (C : s_time s2 = TH (c_maxTime c) 0 0 /\ s_windows s2 = 1 /\ s_it s2 = 1 /\ s_compl s2 = false /\
     s_req s2 = Acts (sendsInitialized c) false false /\ s_ful s2 = s_ful s /\
     s_tws s2 = c_tws c /\ s_next s2 = c_tws c /\ s_hist s2 = []).
    { destruct B as (B1 & B2 & B3 & B4 & B5 & B6 & B7).
      destruct H2 as (((q1 & q2 & q3 & q4 & q5 & q6 & q7 & q8) & q9 & q10) & _).
      cbn in q1, q2, q3, q4, q5, q6, q7, q8, q9, q10. rewrite B1 in q1.
      unfold s2. cbn [set_s_recvd set_s_windows s_time s_windows s_it s_compl s_req s_ful s_tws s_next s_hist].
      rewrite q1, q3, q5, q6, q7, q8, q9, q10, B2, B3, B4, B5, B6, B7. repeat split. }
    destruct (c_implicit c).
    - rb H4. apply storeIteration_keeps in H5. subst x4. cbn [returns] in H4. subst x3.
      destruct C as (C1 & C2 & C3 & C4 & C5 & C6 & C7 & C8 & C9). unfold requireWrite. cbn [set_s_req s_time s_windows s_it s_compl s_req s_ful s_tws s_next s_hist].
      rewrite C5. cbn. repeat split; assumption.
    - cbn [returns] in H4. subst x3. exact C. }
  apply exI_hook in H; [|brk].
  destruct A as (A1 & A2 & A3 & A4 & A5 & A6 & A7 & A8 & A9).
  destruct H as ((h1 & h2 & h3 & h4 & h5 & h6 & h7 & h8) & h9).
  assert (F : a_write (s_ful s) = false /\ a_read (s_ful s) = false /\ (sendsInitialized c = true -> a_init (s_ful s) = true)).
  { destruct Hs; subst s; unfold answerInit in *; cbn in *.
    - repeat split. intros Q. rewrite Q in H0. cbn in H0. discriminate H0.
    - destruct (sendsInitialized c) eqn:Es; cbn; repeat split. congruence. }
  split; try congruence.
  - rewrite h6, A5. reflexivity.
  - rewrite h6, A5. reflexivity.
  - rewrite h7, A6. tauto.
  - rewrite h6, A5, h7, A6. cbn. tauto.
  - intros R. destruct (h9 R). split; congruence.
Qed.

(** ** Invariant for a fixed window size *)
Record Inv (c : conf) (w : Z) (h : history) (s : st) : Prop := {
  i_tws : s_tws s = Some w;
  i_next : s_next s = Some w;
  i_max : th_max (s_time s) = c_maxTime c;
  i_windows : s_windows s = 1 + completed h;
  i_prog : th_prog (s_time s) = progress h;
  i_it : s_it s = iteration h;
  i_expl : c_implicit c = false -> iteration h = 1;
  i_start : th_start (s_time s) = completed h * w \/
            (th_reachedEnd (c_eps c) (s_time s) = true /\ progress h = 0 /\ 0 < completed h);
  i_read : a_read (s_req s) = true -> a_read (s_ful s) = negb (pending_read h);
  i_read' : pending_read h = true -> a_read (s_req s) = true;
  i_write : a_write (s_req s) = true -> a_write (s_ful s) = negb (pending_write h);
  i_write' : pending_write h = true -> a_write (s_req s) = true;
  i_init : a_init (s_req s) = true -> a_init (s_ful s) = true;
  i_obs : exists o, last_obs h = Some o /\ o_complete o = s_compl s /\ o_ongoing o = isCouplingOngoing c s /\
             o_maxdt o = getMaxTimeStepSize c s;
  i_nonneg : 0 <= completed h;
  i_pnonneg : 0 <= progress h
}.

Lemma fixed_flags k c w : fixed k c w -> c_sets c = false /\ c_recvs c = false.
Proof.
  intros ((A & B & _) & _ & T). split.
  - destruct (c_sets c); [|reflexivity]. destruct A as (_ & _ & A); congruence.
  - destruct (c_recvs c); [|reflexivity]. destruct B as (_ & _ & B); congruence.
Qed.

Lemma ful_max c (s : st) f : getMaxTimeStepSize c (set_s_ful f s) = getMaxTimeStepSize c s.
Proof. reflexivity. Qed.

Lemma p_advance_spec k E c w dt h s s' : fixed k c w -> Inv c w h s ->
  returns (p_advance gnone k E c dt s) s' -> adv_spec c dt s s'.
Proof.
  intros F I H. destruct (fixed_flags _ _ _ F) as (Fs & Fr). destruct F as (Fw & Fe & Ft).
  eapply advance_spec; [apply ex1_hook; exact Fw|apply ex2_hook|exact Fe| | |exact H].
  - congruence.
  - intros _. exists w. apply (i_tws _ _ _ _ I).
Qed.

(** what the handler's window-end test means *)
Lemma reached_iff c w h s dt : Inv c w h s ->
  th_start (s_time s) = completed h * w ->
  reachedEndOfTimeWindow c (set_s_time (th_progressBy dt (s_time s)) s) = true <->
  exists m, min_limit (Some (w - progress h)) (match c_maxTime c with None => None | Some T => Some (T - (completed h * w + progress h)) end) = Some m /\
     Z.abs (m - dt) <= c_eps c.
Proof.
  intros I Hst. unfold reachedEndOfTimeWindow. cbn [set_s_time s_tws s_time]. rewrite (i_tws _ _ _ _ I).
  unfold th_reachedEndOfWindow, th_untilWindowEnd, equals, th_untilProgress, th_untilTime.
  cbn [th_progressBy th_max th_prog th_start]. rewrite (i_max _ _ _ _ I), (i_prog _ _ _ _ I), Hst.
  rewrite Z.leb_le. destruct (c_maxTime c) as [T|]; cbn [min_limit]; split.
  - intros A. eexists; split; [reflexivity|]. lia.
  - intros (m & A & B). injection A as <-. lia.
  - intros A. eexists; split; [reflexivity|]. lia.
  - intros (m & A & B). injection A as <-. lia.
Qed.

Lemma ongoing_start c w h s : Inv c w h s -> isCouplingOngoing c s = true -> th_start (s_time s) = completed h * w.
Proof.
  intros I H. destruct (i_start _ _ _ _ I) as [A|(A & _)]; [exact A|].
  unfold isCouplingOngoing in H. rewrite A in H. rewrite andb_false_r in H. discriminate H.
Qed.

Lemma inv_step k E c w dt h s s' : fixed k c w -> Inv c w h s ->
  returns (p_advance gnone k E c dt s) s' -> Inv c w (Advanced dt (observe c s') :: h) s'.
Proof.
  intros F I H. pose proof (p_advance_spec _ _ _ _ _ _ _ _ F I H) as A.
  destruct (fixed_flags _ _ _ F) as (Fs & Fr).
  pose proof (ongoing_start _ _ _ _ I (as_ongoing _ _ _ _ A)) as Hst.
  destruct (reachedEndOfTimeWindow c (set_s_time (th_progressBy dt (s_time s)) s)) eqn:Re.
  - destruct (as_end _ _ _ _ A Re) as (w' & e1 & e2 & e3 & e4 & e5 & e6 & e7 & e8 & e9 & e10).
    rewrite Fs in e1. rewrite (i_tws _ _ _ _ I) in e1. injection e1 as <-.
    specialize (e2 Fr). rewrite Fs, (i_next _ _ _ _ I) in e2.
    assert (Rd : a_read (s_req s') = negb (s_compl s')).
    { rewrite e9, e4. destruct (c_implicit c), (s_conv s'); reflexivity. }
    assert (Hprog : progress (Advanced dt (observe c s') :: h) = 0).
    { cbn. rewrite Rd. destruct (s_compl s'); reflexivity. }
    assert (Hc : completed (Advanced dt (observe c s') :: h) = (if s_compl s' then 1 else 0) + completed h) by reflexivity.
    assert (Hf : s_ful s' = no_acts) by apply (as_ful _ _ _ _ A).
    split.
    + congruence.
    + exact e2.
    + destruct (s_compl s').
      * destruct (e5 eq_refl) as (q & _). unfold th_completeTimeWindow in q.
        destruct (equals _ _ _); [injection q as <-; apply (i_max _ _ _ _ I)|].
        destruct (th_reachedEnd _ _); [injection q as <-; apply (i_max _ _ _ _ I)|discriminate q].
      * destruct (e6 eq_refl) as (-> & _). apply (i_max _ _ _ _ I).
    + rewrite Hc. pose proof (i_windows _ _ _ _ I). destruct (s_compl s'); [destruct (e5 eq_refl)|destruct (e6 eq_refl)]; lia.
    + rewrite Hprog. destruct (s_compl s').
      * destruct (e5 eq_refl) as (q & _). unfold th_completeTimeWindow in q.
        destruct (equals _ _ _); [injection q as <-; reflexivity|].
        destruct (th_reachedEnd _ _); [injection q as <-; reflexivity|discriminate q].
      * destruct (e6 eq_refl) as (-> & _). reflexivity.
    + rewrite e7. cbn [iteration observe o_complete o_read]. rewrite Rd, e4. rewrite (i_it _ _ _ _ I). pose proof (i_expl _ _ _ _ I).
      destruct (c_implicit c), (s_conv s'); cbn [negb orb]; try lia; auto.
    + intros Q. rewrite Q in e4. cbn in e4 |- *. rewrite e4. reflexivity.
    + rewrite Hprog, Hc. pose proof (i_nonneg _ _ _ _ I). destruct (s_compl s').
      * destruct (e5 eq_refl) as (q & _). unfold th_completeTimeWindow in q.
        destruct (equals _ _ _).
        { left. injection q as <-. cbn [th_start th_progressBy]. rewrite Hst. lia. }
        destruct (th_reachedEnd (c_eps c) (th_progressBy dt (s_time s))) eqn:Q; [|discriminate q].
        right. split; [|split; [reflexivity|lia]]. injection q as <-. rewrite <- Q.
        unfold th_reachedEnd, th_untilTime. cbn [th_progressBy th_max th_start th_prog].
        destruct (th_max (s_time s)); [|reflexivity]. f_equal. lia.
      * left. destruct (e6 eq_refl) as (-> & _). exact Hst.
    + cbn. rewrite Hf. intros ->. reflexivity.
    + cbn. auto.
    + cbn. rewrite Hf. intros ->. reflexivity.
    + cbn. auto.
    + rewrite e8. discriminate.
    + eexists. split; [reflexivity|]. cbn. auto.
    + rewrite Hc. pose proof (i_nonneg _ _ _ _ I). destruct (s_compl s'); lia.
    + lia.
  - destruct (as_sub _ _ _ _ A Re) as (e1 & e2 & e3 & e4 & e5 & e6 & e7).
    assert (Hprog : progress (Advanced dt (observe c s') :: h) = dt + progress h).
    { cbn. rewrite e4, e5. reflexivity. }
    assert (Hc : completed (Advanced dt (observe c s') :: h) = completed h).
    { cbn. rewrite e4. lia. }
    assert (Hi : iteration (Advanced dt (observe c s') :: h) = iteration h).
    { cbn. rewrite e4, e5. reflexivity. }
    split; rewrite ?Hprog, ?Hc, ?Hi.
    + rewrite e6. apply (i_tws _ _ _ _ I).
    + rewrite e7. apply (i_next _ _ _ _ I).
    + rewrite e1. apply (i_max _ _ _ _ I).
    + rewrite e2. apply (i_windows _ _ _ _ I).
    + rewrite e1. cbn. rewrite (i_prog _ _ _ _ I). lia.
    + rewrite e3. apply (i_it _ _ _ _ I).
    + apply (i_expl _ _ _ _ I).
    + left. rewrite e1. exact Hst.
    + rewrite e5. discriminate.
    + cbn. auto.
    + rewrite e5. discriminate.
    + cbn. auto.
    + rewrite e5. discriminate.
    + eexists. split; [reflexivity|]. cbn. auto.
    + apply (i_nonneg _ _ _ _ I).
    + pose proof (i_pnonneg _ _ _ _ I). pose proof (as_pos _ _ _ _ A). lia.
Qed.

Lemma run_inv k c w h s : fixed k c w -> run gnone vzero k c h s -> Inv c w h s.
Proof.
  intros F R. destruct (fixed_flags _ _ _ F) as (Fs & Fr). destruct F as (Fw & Fe & Ft).
  assert (I0 : forall s', init_spec c s' -> Inv c w [Initialized (observe c s')] s').
  { intros s' I. destruct (is_tws _ _ I Fr) as (t1 & t2). rewrite Ft in t1, t2.
    pose proof (is_ful _ _ I) as (f1 & f2).
    split; try assumption.
    - rewrite (is_time _ _ I). reflexivity.
    - rewrite (is_windows _ _ I). reflexivity.
    - rewrite (is_time _ _ I). reflexivity.
    - rewrite (is_it _ _ I). reflexivity.
    - reflexivity.
    - left. rewrite (is_time _ _ I). reflexivity.
    - cbn. rewrite (is_read _ _ I). discriminate.
    - cbn. auto.
    - cbn. rewrite f1. intros ->. reflexivity.
    - cbn. auto.
    - apply (is_init _ _ I).
    - eexists. split; [reflexivity|]. cbn. auto.
    - cbn. lia.
    - cbn. lia. }
  induction R as [E s' H|E s' H|h s R IH|h s R IH|h s E dt s' R IH H].
  - apply I0. eapply initialize_spec; [left; reflexivity|exact H].
  - apply I0. eapply initialize_spec; [right; reflexivity|exact H].
  - destruct IH. unfold answerRead. destruct (a_read (s_req s)) eqn:Er.
    + split; cbn; try assumption; try (rewrite Er; auto; fail); try discriminate; try reflexivity.
    + split; cbn; try assumption; rewrite ?Er; try discriminate; auto.
  - destruct IH. unfold answerWrite. destruct (a_write (s_req s)) eqn:Er.
    + split; cbn; try assumption; try (rewrite Er; auto; fail); try discriminate; try reflexivity.
    + split; cbn; try assumption; rewrite ?Er; try discriminate; auto.
  - eapply inv_step; [|exact IH|exact H]. split; [exact Fw|split; assumption].
Qed.

Lemma max_formula c w h s : Inv c w h s -> isCouplingOngoing c s = true ->
  getMaxTimeStepSize c s = min_limit (Some (w - progress h))
    (match c_maxTime c with None => None | Some T => Some (T - (completed h * w + progress h)) end).
Proof.
  intros I H. unfold getMaxTimeStepSize. rewrite H, (i_tws _ _ _ _ I).
  unfold th_untilWindowEnd, th_untilProgress, th_untilTime.
  rewrite (i_max _ _ _ _ I), (i_prog _ _ _ _ I), (ongoing_start _ _ _ _ I H).
  destruct (c_maxTime c); cbn [min_limit]; repeat f_equal; lia.
Qed.

(** C01 *)
Theorem steps_bounded k c w h s E dt s' : fixed k c w -> run gnone vzero k c h s ->
  returns (p_advance gnone k E c dt s) s' ->
  progress h + dt <= w + c_eps c /\
  forall T, c_maxTime c = Some T -> completed h * w + progress h + dt <= T + c_eps c.
Proof.
  intros F R H. pose proof (run_inv _ _ _ _ _ F R) as I.
  pose proof (p_advance_spec _ _ _ _ _ _ _ _ F I H) as A.
  pose proof (as_max _ _ _ _ A) as M. rewrite (max_formula _ _ _ _ I (as_ongoing _ _ _ _ A)) in M.
  destruct (c_maxTime c) as [T|]; cbn in M; split; try lia.
  - intros T' Q. injection Q as <-. lia.
  - discriminate.
Qed.

Lemma run_advanced k c h s dt o : run gnone vzero k c (Advanced dt o :: h) s ->
  exists E s0, run gnone vzero k c h s0 /\ returns (p_advance gnone k E c dt s0) s /\ o = observe c s.
Proof. intros R. inversion R; subst. eexists _, _; eauto. Qed.

Theorem time_bounded k c w h s T : fixed k c w -> run gnone vzero k c h s ->
  c_maxTime c = Some T -> 0 <= T -> isCouplingOngoing c s = true ->
  completed h * w + progress h <= T + 2 * c_eps c.
Proof.
  intros F R HT T0. pose proof F as (Fw & Fe & Ft).
  induction R as [E s' H|E s' H|h s R IH|h s R IH|h s E dt s' R IH H]; intros On.
  - cbn [completed progress]. lia.
  - cbn [completed progress]. lia.
  - cbn [completed progress]. apply IH. revert On. unfold answerRead. destruct (a_read (s_req s)); auto.
  - cbn [completed progress]. apply IH. revert On. unfold answerWrite. destruct (a_write (s_req s)); auto.
  - pose proof (run_inv _ _ _ _ _ F R) as I.
    pose proof (p_advance_spec _ _ _ _ _ _ _ _ F I H) as A.
    destruct (steps_bounded _ _ _ _ _ _ _ _ F R H) as (B1 & B2). specialize (B2 _ HT).
    destruct (reachedEndOfTimeWindow c (set_s_time (th_progressBy dt (s_time s)) s)) eqn:Re.
    + destruct (as_end _ _ _ _ A Re) as (w' & e1 & e2 & e3 & e4 & e5 & e6 & e7 & e8 & e9 & e10).
      destruct (fixed_flags _ _ _ F) as (Fs & Fr).
      rewrite Fs, (i_tws _ _ _ _ I) in e1. injection e1 as <-.
      assert (Rd : a_read (s_req s') = negb (s_compl s')).
      { rewrite e9, e4. destruct (c_implicit c), (s_conv s'); reflexivity. }
      cbn [completed progress observe o_complete o_read]. rewrite Rd.
      destruct (s_compl s') eqn:Ec; cbn [orb negb].
      * destruct (e5 eq_refl) as (q & _). unfold th_completeTimeWindow in q.
        destruct (equals _ _ _) eqn:Eq.
        { unfold equals in Eq. apply Z.leb_le in Eq. cbn [th_progressBy th_prog] in Eq.
          rewrite (i_prog _ _ _ _ I) in Eq. lia. }
        destruct (th_reachedEnd (c_eps c) (th_progressBy dt (s_time s))) eqn:Q; [|discriminate q].
        exfalso. injection q as q. unfold isCouplingOngoing in On. rewrite <- q in On.
        replace (th_reachedEnd _ _) with true in On; [rewrite andb_false_r in On; discriminate On|].
        rewrite <- Q. unfold th_reachedEnd, th_untilTime. cbn [th_progressBy th_max th_start th_prog].
        destruct (th_max (s_time s)); [|reflexivity]. f_equal. lia.
      * pose proof (IH (as_ongoing _ _ _ _ A)). pose proof (i_pnonneg _ _ _ _ I). pose proof (as_pos _ _ _ _ A). lia.
    + destruct (as_sub _ _ _ _ A Re) as (e1 & e2 & e3 & e4 & e5 & e6 & e7).
      cbn [completed progress observe o_complete o_read]. rewrite e4, e5. cbn [orb a_read no_acts]. lia.
Qed.

End R.
