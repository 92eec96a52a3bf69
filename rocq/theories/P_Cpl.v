From Coq Require Import ZArith Bool List Lia.
From Verif Require Import M_Net M_Time M_Wave M_Cpl S_Prog S_Cpl P_Prog.
Import ListNotations.
Open Scope Z_scope.

Ltac rb H := apply returns_bind in H as (? & ? & H).

Section P.
Context {V : Type}.
Variables (gnone vzero : V).
Notation st := (st (V:=V)).
Notation prog := (proc (msg V)).

Lemma ret_check b n x : returns (check_ (V:=V) b n) x -> b = true.
Proof. destruct b; cbn; [reflexivity|intros []]. Qed.
Lemma ret_assert b n x : returns (assert_ (V:=V) b n) x -> b = true.
Proof. destruct b; cbn; [reflexivity|intros []]. Qed.

(** fields neither exchange touches *)
Definition same_ctl (s s' : st) : Prop :=
  s_time s' = s_time s /\ s_windows s' = s_windows s /\ s_it s' = s_it s /\ s_tot s' = s_tot s /\
  s_compl s' = s_compl s /\ s_req s' = s_req s /\ s_ful s' = s_ful s /\ s_hist s' = s_hist s.

Lemma same_ctl_refl s : same_ctl s s.
Proof. repeat split. Qed.
Lemma same_ctl_trans a b d : same_ctl a b -> same_ctl b d -> same_ctl a d.
Proof. unfold same_ctl. intuition congruence. Qed.

Definition keeps (s s' : st) : Prop :=
  same_ctl s s' /\ s_tws s' = s_tws s /\ s_next s' = s_next s.
Lemma keeps_refl s : keeps s s.
Proof. repeat split. Qed.
Lemma keeps_trans a b d : keeps a b -> keeps b d -> keeps a d.
Proof. unfold keeps, same_ctl. intuition congruence. Qed.

Ltac brk := unfold keeps, same_ctl in *; cbn in *; intuition congruence.

Lemma sendData_keeps c s s' : returns (sendData gnone c s) s' -> keeps s s' /\ s_conv s' = s_conv s.
Proof. unfold sendData. intros H. rb H. cbn in H. subst. repeat split. Qed.

Lemma receiveData_keeps c s s' : returns (receiveData gnone c s) s' -> keeps s s' /\ s_conv s' = s_conv s.
Proof. unfold receiveData. intros H. rb H. cbn in H. subst. repeat split. Qed.

Lemma notify_keeps s s' : returns (notifyDataHasBeenReceived s) s' -> keeps s s' /\ s_conv s' = s_conv s.
Proof. unfold notifyDataHasBeenReceived. intros H. rb H. cbn in H. subst. repeat split. Qed.

Lemma zero_keeps c s s' : returns (initializeWithZeroInitialData gnone vzero c s) s' -> keeps s s' /\ s_conv s' = s_conv s.
Proof. unfold initializeWithZeroInitialData. intros H. rb H. cbn in H. subst. repeat split. Qed.

Lemma windowEnd_keeps c s s' : returns (receiveDataForWindowEnd gnone c s) s' -> keeps s s' /\ s_conv s' = s_conv s.
Proof.
  unfold receiveDataForWindowEnd. destruct (s_next s) as [w|] eqn:E; [|intros []].
  intros H. rb H. apply receiveData_keeps in H0. cbn in H. subst s'. brk.
Qed.

Lemma storeIteration_keeps (s s' : st) : returns (storeIteration s) s' -> s' = s.
Proof. unfold storeIteration. intros H. rb H. cbn in H. congruence. Qed.

Lemma move_keeps (s : st) : keeps s (moveToNextWindow s) /\ s_conv (moveToNextWindow s) = s_conv s.
Proof. repeat split. Qed.

Lemma implicit_keeps E b c (s s' : st) : returns (doImplicitStep E b c s) s' -> keeps s s'.
Proof.
  unfold doImplicitStep. intros H. rb H. destruct (_ || _); cbn in H; subst; [repeat split|].
  destruct b; repeat split.
Qed.

Definition hook1 (c : conf) (f : st -> prog st) : Prop :=
  forall s s', returns (f s) s' ->
    same_ctl s s' /\
    (if c_sets c then (s_tws s' = Some (th_prog (s_time s)) /\ s_next s' = None)
     else (s_tws s' = s_tws s /\ s_next s' = s_next s)).
Definition hook2 (c : conf) (f : st -> prog st) : Prop :=
  forall s s', returns (f s) s' ->
    same_ctl s s' /\ s_tws s' = s_tws s /\ (c_recvs c = false -> s_next s' = s_next s).

Lemma sendTWS_spec c s s' : returns (sendTimeWindowSize c s) s' ->
    same_ctl s s' /\ s_conv s' = s_conv s /\
    (if c_sets c then (s_tws s' = Some (th_prog (s_time s)) /\ s_next s' = None)
     else (s_tws s' = s_tws s /\ s_next s' = s_next s)).
Proof.
  unfold sendTimeWindowSize. destruct (c_sets c); intros H; cbn in H; subst; repeat split.
Qed.

Lemma recvTWS_spec c s s' : returns (receiveAndSetTimeWindowSize c s) s' ->
    same_ctl s s' /\ s_conv s' = s_conv s /\ s_tws s' = s_tws s /\ (c_recvs c = false -> s_next s' = s_next s).
Proof.
  unfold receiveAndSetTimeWindowSize. destruct (c_recvs c); intros H.
  - rb H. rb H. cbn in H. subst. repeat split. discriminate.
  - cbn in H; subst; repeat split.
Qed.

Lemma ser_first_hook E c : wf_method Serial c -> hook1 c (ser_first gnone E c).
Proof.
  intros (W1 & W2 & W3) s s' H. unfold ser_first in H.
  destruct (c_first c) eqn:F.
  - rb H. rb H. apply sendData_keeps in H. apply sendTWS_spec in H0. destruct (c_sets c); brk.
  - assert (c_sets c = false) as -> by (destruct (c_sets c); [destruct W1 as (_ & A & _); congruence|reflexivity]).
    destruct (c_implicit c).
    + rb H. rb H. rb H. apply sendData_keeps in H. apply implicit_keeps in H0. brk.
    + rb H. apply sendData_keeps in H. brk.
Qed.

Lemma ser_second_hook c : hook2 c (ser_second gnone c).
Proof.
  intros s s' H. unfold ser_second in H. destruct (c_implicit c).
  - rb H. rb H. apply storeIteration_keeps in H1.
    assert (A : same_ctl s x /\ s_tws x = s_tws s /\ s_next x = s_next s).
    { destruct (c_first c); [|cbn in H0; subst; repeat split].
      rb H0. rb H0. rb H0. apply notify_keeps in H0. apply receiveData_keeps in H4.
      rb H2. cbn in H2. subst. brk. }
    assert (B : same_ctl s x0 /\ s_tws x0 = s_tws s /\ s_next x0 = s_next s).
    { destruct (s_conv x); subst; [|exact A]. pose proof (move_keeps x). brk. }
    clear A H0 H1. destruct (_ && _).
    + rb H. rb H. rb H. apply notify_keeps in H. apply recvTWS_spec in H0.
      assert (C : keeps x1 x3).
      { destruct (s_conv x1); [apply windowEnd_keeps in H2|apply receiveData_keeps in H2]; tauto. }
      brk.
    + cbn in H. subst. brk.
  - rb H.
    assert (A : keeps s x).
    { destruct (c_first c); [|cbn in H0; subst; apply keeps_refl].
      rb H0. rb H0. apply notify_keeps in H0. apply receiveData_keeps in H2.
      eapply keeps_trans; [apply H2|apply H0]. }
    pose proof (move_keeps x) as B. destruct (_ && _).
    + rb H. rb H. rb H. apply notify_keeps in H. apply recvTWS_spec in H1. apply windowEnd_keeps in H3. brk.
    + cbn in H. subst. brk.
Qed.

Lemma par_first_hook c : wf_method Parallel c -> hook1 c (par_first gnone c).
Proof.
  intros (W1 & _) s s' H. unfold par_first in H. rb H.
  assert (c_sets c = false) as ->.
  { destruct (c_sets c); [|reflexivity]. destruct W1 as (A & _); [reflexivity|discriminate A]. }
  destruct (c_first c).
  - apply sendData_keeps in H. brk.
  - rb H. apply notify_keeps in H. apply receiveData_keeps in H1. brk.
Qed.

Lemma par_second_hook E c : hook2 c (par_second gnone E c).
Proof.
  intros s s' H. unfold par_second in H. rb H. destruct (c_implicit c).
  - rb H. apply storeIteration_keeps in H.
    assert (A : keeps s x0).
    { destruct (c_first c).
      - rb H1. rb H1. apply notify_keeps in H1. apply receiveData_keeps in H3.
        rb H2. cbn in H2. subst. brk.
      - rb H1. rb H1. apply sendData_keeps in H1. apply implicit_keeps in H2. brk. }
    pose proof (move_keeps x0). destruct (s_conv x0); subst; brk.
  - rb H. cbn in H. subst. pose proof (move_keeps x0).
    destruct (c_first c).
    + rb H1. apply notify_keeps in H1. apply receiveData_keeps in H2. brk.
    + apply sendData_keeps in H1. brk.
Qed.

(** time handler *)
Definition until (h : thandler) (w : option Z) : option Z :=
  match w with Some w => Some (th_untilWindowEnd h w) | None => th_untilEnd h end.

Definition reached (c : conf) (s : st) : bool := reachedEndOfTimeWindow c s.

Section Hooks.
Variables (E : env (V:=V)) (c : conf) (e1 e2 : st -> prog st).
Hypothesis K1 : hook1 c e1.
Hypothesis K2 : hook2 c e2.
Hypothesis Heps : 0 <= c_eps c.

(** everything a successful advance does to the control state *)
Record adv_spec (dt : Z) (s s' : st) : Prop := {
  as_ongoing : isCouplingOngoing c s = true;
  as_dt : c_eps c < dt;
  as_pos : 0 < dt;
  as_max : match getMaxTimeStepSize c s with None => True | Some m => dt <= m + c_eps c end;
  as_answered : (a_init (s_req s) = true -> a_init (s_ful s) = true) /\
                (a_read (s_req s) = true -> a_read (s_ful s) = true) /\
                (a_write (s_req s) = true -> a_write (s_ful s) = true);
  as_ful : s_ful s' = no_acts;
  as_sub : reachedEndOfTimeWindow c (set_s_time (th_progressBy dt (s_time s)) s) = false ->
     s_time s' = th_progressBy dt (s_time s) /\ s_windows s' = s_windows s /\ s_it s' = s_it s /\
     s_compl s' = false /\ s_req s' = no_acts /\ s_tws s' = s_tws s /\ s_next s' = s_next s;
  as_end : reachedEndOfTimeWindow c (set_s_time (th_progressBy dt (s_time s)) s) = true ->
     exists w,
     (if c_sets c then w = th_prog (s_time s) + dt else s_tws s = Some w) /\
     (c_recvs c = false -> s_next s' = (if c_sets c then None else s_next s)) /\
     s_tws s' = s_next s' /\
     s_compl s' = (negb (c_implicit c) || s_conv s') /\
     (s_compl s' = true ->
        th_completeTimeWindow (c_eps c) (th_progressBy dt (s_time s)) w = Some (s_time s') /\
        s_windows s' = s_windows s + 1) /\
     (s_compl s' = false ->
        s_time s' = th_resetProgress (s_time s) /\ s_windows s' = s_windows s) /\
     s_it s' = (if c_implicit c then if s_conv s' then 1 else s_it s + 1 else s_it s) /\
     a_init (s_req s') = false /\
     a_read (s_req s') = (c_implicit c && negb (s_conv s')) /\
     a_write (s_req s') = (c_implicit c && s_conv s' &&
        isCouplingOngoing c (set_s_windows (s_windows s + 1) (set_s_time (th_progressBy dt (s_time s)) s)))
}.

Lemma sets_reached (s : st) dt :
  (c_sets c = true -> s_tws s = None) -> c_sets c = true ->
  reachedEndOfTimeWindow c (set_s_time (th_progressBy dt (s_time s)) s) = true.
Proof. intros H1 H2. unfold reachedEndOfTimeWindow. cbn. rewrite H1 by exact H2. reflexivity. Qed.

Lemma before_keeps b s0 s s' : returns (handleDataBeforeAdvance E c b s0 s) s' -> keeps s s' /\ s_conv s' = s_conv s.
Proof.
  unfold handleDataBeforeAdvance. destruct (_ || _); intros H; [rb H|]; cbn in H; subst; repeat split.
Qed.

Lemma after_keeps b t s s' : returns (handleDataAfterAdvance c b t s) s' -> keeps s s' /\ s_conv s' = s_conv s.
Proof.
  unfold handleDataAfterAdvance. destruct (negb b); [|destruct (s_compl s)]; intros H; try (rb H); cbn in H; subst; repeat split.
Qed.

Lemma check_spec (s s' : st) : returns (checkCompleteness s) s' ->
  s' = set_s_ful no_acts (set_s_req no_acts s) /\
  ((a_init (s_req s) = true -> a_init (s_ful s) = true) /\
                (a_read (s_req s) = true -> a_read (s_ful s) = true) /\
                (a_write (s_req s) = true -> a_write (s_ful s) = true)).
Proof.
  unfold checkCompleteness. intros H. rb H. rb H. rb H.
  apply ret_check in H0, H1, H2. cbn in H.
  apply orb_prop in H0, H1, H2. rewrite !negb_true_iff in *.
  split; [congruence|]. repeat split; intros; intuition congruence.
Qed.

Lemma reached_eq (s s' : st) : s_time s' = s_time s -> s_tws s' = s_tws s ->
  reachedEndOfTimeWindow c s' = reachedEndOfTimeWindow c s.
Proof. unfold reachedEndOfTimeWindow. intros -> ->. reflexivity. Qed.

Lemma ongoing_eq (s s' : st) : s_time s' = s_time s -> s_windows s' = s_windows s ->
  isCouplingOngoing c s' = isCouplingOngoing c s.
Proof. unfold isCouplingOngoing. intros -> ->. reflexivity. Qed.

Lemma after_spec (s s' : st) w : s_tws s = Some w -> returns (afterSecond c s) s' ->
  s_tws s' = s_next s /\ s_next s' = s_next s /\
  s_conv s' = s_conv s /\
  s_compl s' = (negb (c_implicit c) || s_conv s) /\
  (s_compl s' = true -> th_completeTimeWindow (c_eps c) (s_time s) w = Some (s_time s') /\ s_windows s' = s_windows s) /\
  (s_compl s' = false -> s_time s' = th_resetProgress (s_time s) /\ s_windows s' = s_windows s - 1) /\
  s_it s' = (if c_implicit c then if s_conv s then 1 else s_it s + 1 else s_it s) /\
  s_ful s' = s_ful s /\
  a_init (s_req s') = a_init (s_req s) /\
  a_read (s_req s') = ((c_implicit c && negb (s_conv s)) || a_read (s_req s)) /\
  a_write (s_req s') = ((c_implicit c && s_conv s && isCouplingOngoing c s) || a_write (s_req s)) /\
  s_hist s' = s_hist s.
Proof.
  intros Hw H. unfold afterSecond in H. rb H. rb H. rb H. cbn in H. subst s'.
  assert (A : s_tws x = s_tws s /\ s_next x = s_next s /\ s_conv x = s_conv s /\ s_time x = s_time s /\
     s_compl x = (negb (c_implicit c) || s_conv s) /\
     s_windows x = (if s_compl x then s_windows s else s_windows s - 1) /\
     s_it x = (if c_implicit c then if s_conv s then 1 else s_it s + 1 else s_it s) /\
     s_ful x = s_ful s /\ s_hist x = s_hist s /\
     a_init (s_req x) = a_init (s_req s) /\
     a_read (s_req x) = ((c_implicit c && negb (s_conv s)) || a_read (s_req s)) /\
     a_write (s_req x) = ((c_implicit c && s_conv s && isCouplingOngoing c s) || a_write (s_req s))).
  { destruct (c_implicit c).
    - rb H0. cbn [returns] in H0. subst x. destruct (s_conv s) eqn:Ec.
      + change (isCouplingOngoing c (set_s_compl true s)) with (isCouplingOngoing c s).
        destruct (isCouplingOngoing c s); cbn; rewrite ?Ec; repeat split.
      + cbn. rewrite ?Ec. repeat split.
    - cbn in H0. subst x. cbn. repeat split. }
  destruct A as (A1 & A2 & A3 & A4 & A5 & A6 & A7 & A8 & A9 & A10 & A11 & A12).
  clear H0 H1. destruct (s_compl x) eqn:Ex.
  - rewrite A1, Hw in H2. rewrite A4 in H2.
    destruct (th_completeTimeWindow (c_eps c) (s_time s) w) as [h|]; [|destruct H2].
    cbn in H2. subst x1. cbn. rewrite Ex. repeat split; try congruence.
  - cbn in H2. subst x1. cbn. rewrite A4, Ex. repeat split; congruence.
Qed.

Lemma advance_spec dt s s' :
  (c_sets c = true -> s_tws s = None) ->
  (c_sets c = false -> exists w, s_tws s = Some w) ->
  returns (advance E e1 e2 c dt s) s' -> adv_spec dt s s'.
Proof.
  intros T1 T2 H. unfold advance in H.
  rb H. apply ret_check in H0. rb H. apply ret_check in H1. rb H. apply ret_check in H2.
  rb H. unfold addComputedTime in H3. rb H3. apply ret_assert in H4. rb H3. apply ret_check in H5.
  cbn [returns] in H3. subst x2.
  set (s1 := set_s_time (th_progressBy dt (s_time s)) s) in *.
  rb H. apply before_keeps in H3. rb H. rb H. apply after_keeps in H.
  rename x2 into s2, x5 into s3, x6 into s4. rename H6 into Hf, H7 into Hs.
  destruct H as (K4 & Kc4). destruct H3 as (Kb & Kcb).
  unfold firstExchange in Hf. rb Hf. apply check_spec in H as (-> & Hans).
  unfold secondExchange in Hs. rb Hs. apply check_spec in H as (-> & _). rb Hs. clear H x2.
  set (s2' := set_s_compl false (set_s_recvd false (set_s_ful no_acts (set_s_req no_acts s2)))) in *.
  assert (Er : reachedEndOfTimeWindow c s2' = reachedEndOfTimeWindow c s1).
  { apply reached_eq; unfold keeps, same_ctl in Kb; cbn; tauto. }
  rewrite Er in Hf.
  assert (B1 : isCouplingOngoing c s = true) by exact H0.
  apply Z.ltb_lt in H2.
  assert (Hbase : c_eps c < dt).
  { apply negb_true_iff in H1. unfold equals in H1. apply Z.leb_gt in H1. lia. }
  assert (Hmax : match getMaxTimeStepSize c s with None => True | Some m => dt <= m + c_eps c end).
  { destruct (getMaxTimeStepSize c s); [|exact I]. unfold greaterEquals in H5. apply Z.leb_le in H5. lia. }
  assert (Hans' : (a_init (s_req s) = true -> a_init (s_ful s) = true) /\
                (a_read (s_req s) = true -> a_read (s_ful s) = true) /\
                (a_write (s_req s) = true -> a_write (s_ful s) = true)).
  { unfold keeps, same_ctl in Kb. destruct Kb as ((_ & _ & _ & _ & _ & R & F & _) & _).
    cbn in R, F. rewrite R, F in Hans. exact Hans. }
  set (s3' := set_s_ful no_acts (set_s_req no_acts s3)) in *.
  destruct (reachedEndOfTimeWindow c s1) eqn:Re.
  - (* window end *)
    set (s2'' := set_s_windows (s_windows s2' + 1) s2') in *.
    destruct (K1 _ _ Hf) as (Kf & Kt).
    assert (Re3 : reachedEndOfTimeWindow c s3' = true).
    { destruct (c_sets c) eqn:Es.
      - destruct Kt as (Kt & _). unfold reachedEndOfTimeWindow.
        replace (s_tws s3') with (s_tws s3) by reflexivity. rewrite Kt.
        replace (s_time s3') with (s_time s1) by (unfold keeps, same_ctl in *; cbn in *; intuition congruence).
        replace (s_time s2'') with (s_time s1) by (unfold keeps, same_ctl in *; cbn in *; intuition congruence).
        unfold th_reachedEndOfWindow, th_untilWindowEnd, th_untilProgress, equals.
        unfold getMaxTimeStepSize in Hmax. rewrite B1, (T1 eq_refl) in Hmax.
        unfold th_untilEnd in Hmax. cbn [s1 s_time set_s_time th_progressBy th_max th_prog th_start].
        change (th_max (s_time s1)) with (th_max (s_time s)).
        destruct (th_max (s_time s)) as [T|]; unfold th_untilTime in *; apply Z.leb_le; cbn; lia.
      - rewrite <- Re. apply reached_eq; unfold keeps, same_ctl in *; cbn in *; intuition congruence. }
    rewrite Re3 in Hs. rb Hs. rb Hs. cbn [returns] in Hs. subst s4.
    destruct (K2 _ _ H) as (Kg & Kg1 & Kg2). rename x2 into s5, x5 into s6.
    assert (Ew : exists w, s_tws s5 = Some w /\ (if c_sets c then w = th_prog (s_time s) + dt else s_tws s = Some w)).
    { destruct (c_sets c) eqn:Es.
      - exists (th_prog (s_time s) + dt). split; [|reflexivity]. rewrite Kg1.
        replace (s_tws s3') with (s_tws s3) by reflexivity. destruct Kt as (-> & _).
        f_equal. replace (s_time s2'') with (s_time s1) by (unfold keeps, same_ctl in *; cbn in *; intuition congruence).
        reflexivity.
      - destruct (T2 eq_refl) as (w & Hw). exists w. split; [|exact Hw].
        rewrite Kg1. unfold keeps, same_ctl in *; cbn in *; intuition congruence. }
    destruct Ew as (w & Ew & Ew').
    assert (Eo : isCouplingOngoing c s5 = isCouplingOngoing c (set_s_windows (s_windows s + 1) (set_s_time (th_progressBy dt (s_time s)) s))).
    { apply ongoing_eq.
      - unfold keeps, same_ctl in *; cbn in *; intuition congruence.
      - cbn [set_s_windows s_windows].
        assert (s_windows s2'' = s_windows s + 1).
        { unfold s2''. cbn [set_s_windows s_windows]. f_equal. unfold keeps, same_ctl in *; cbn in *; intuition congruence. }
        unfold keeps, same_ctl in *; cbn in *; intuition congruence. }
    assert (Ewin : s_windows s5 = s_windows s + 1).
    { assert (s_windows s2'' = s_windows s + 1).
        { unfold s2''. cbn [set_s_windows s_windows]. f_equal. unfold keeps, same_ctl in *; cbn in *; intuition congruence. }
        unfold keeps, same_ctl in *; cbn in *; intuition congruence. }
    assert (Etime : s_time s5 = th_progressBy dt (s_time s)).
    { unfold keeps, same_ctl in *; cbn in *; intuition congruence. }
    assert (Eit : s_it s5 = s_it s).
    { unfold keeps, same_ctl in *; cbn in *; intuition congruence. }
    assert (Ereq : s_req s5 = no_acts /\ s_ful s5 = no_acts).
    { unfold keeps, same_ctl in *; cbn in *; intuition congruence. }
    apply after_spec with (w := w) in H3; [|exact Ew].
    rewrite Eo, Ewin, Etime, Eit in H3. destruct Ereq as (Er1 & Er2). rewrite Er1, Er2 in H3.
    destruct K4 as ((k1 & k2 & k3 & k4 & k5 & k6 & k7 & k8) & k9 & k10).
    cbn [logIteration set_s_hist s_time s_windows s_it s_tot s_compl s_req s_ful s_hist s_tws s_next s_conv] in *.
    rewrite <- ?k1, <- ?k2, <- ?k3, <- ?k5, <- ?k6, <- ?k7, <- ?k9, <- ?k10, <- ?Kc4 in H3.
    destruct H3 as (h1 & h2 & h3 & h4 & h5 & h6 & h7 & h8 & h9 & h10 & h11 & h12).
    split; try assumption.
    { intros Q. unfold s1 in Re. congruence. }
    intros _. exists w. rewrite h1, h2, h3. split; [exact Ew'|]. split.
    { intros Hr. rewrite (Kg2 Hr). replace (s_next s3') with (s_next s3) by reflexivity.
      destruct (c_sets c); [tauto|]. destruct Kt as (_ & ->). unfold keeps, same_ctl in *; cbn in *; intuition congruence. }
    split; [reflexivity|]. split; [exact h4|]. split; [exact h5|]. split.
    { intros Q. destruct (h6 Q) as (q1 & q2). split; [exact q1|lia]. }
    split; [exact h7|]. split; [exact h9|]. cbn in h10, h11. rewrite orb_false_r in h10, h11. split; assumption.
  - (* substep *)
    cbn [returns] in Hf. subst s3.
    assert (Re3 : reachedEndOfTimeWindow c s3' = false).
    { rewrite <- Er. apply reached_eq; reflexivity. }
    rewrite Re3 in Hs. cbn [returns] in Hs. subst s4.
    split; try assumption.
    + unfold keeps, same_ctl in *; cbn in *; intuition congruence.
    + intros _. unfold keeps, same_ctl in *; cbn in *; intuition congruence.
    + intros Q. unfold s1 in Re. congruence.
Qed.
End Hooks.
End P.
