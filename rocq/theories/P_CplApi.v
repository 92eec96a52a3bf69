From Coq Require Import ZArith Bool List Lia Permutation.
From Verif Require Import M_Net M_Time M_Wave M_Cpl S_Prog S_Cpl P_Prog P_Cpl P_CplRun.
Import ListNotations.
Open Scope Z_scope.

Section R.
Context {V : Type}.
Variables (gnone vzero : V).
Notation st := (st (V:=V)).
Notation prog := (proc (msg V)).

(** C02 *)
Lemma oversized_rejected k E c dt (s : st) m :
  getMaxTimeStepSize c s = Some m -> m + c_eps c < dt -> rejected (p_advance gnone k E c dt s).
Proof.
  intros Hm Hdt. unfold p_advance, advance.
  destruct (isCouplingOngoing c s) eqn:On; cbn [check_ bind]; [|eexists; reflexivity].
  destruct (negb (equals (c_eps c) dt 0)); cbn [check_ bind]; [|eexists; reflexivity].
  destruct (0 <? dt); cbn [check_ bind]; [|eexists; reflexivity].
  unfold addComputedTime. rewrite On, Hm. unfold greaterEquals.
  replace (- c_eps c <=? m - dt) with false by (symmetry; apply Z.leb_gt; lia).
  cbn [assert_ check_ bind echeck]. eexists; reflexivity.
Qed.

Lemma small_rejected k E c dt (s : st) : dt <= c_eps c -> 0 <= c_eps c -> rejected (p_advance gnone k E c dt s).
Proof.
  intros Hdt He. unfold p_advance, advance.
  destruct (isCouplingOngoing c s) eqn:On; cbn [check_ bind]; [|eexists; reflexivity].
  destruct (negb (equals (c_eps c) dt 0)) eqn:Q; cbn [check_ bind]; [|eexists; reflexivity].
  destruct (0 <? dt) eqn:P; cbn [check_ bind]; [|eexists; reflexivity].
  apply negb_true_iff in Q. unfold equals in Q. apply Z.leb_gt in Q. apply Z.ltb_lt in P. lia.
Qed.

Lemma ended_rejected k E c dt (s : st) : isCouplingOngoing c s = false -> rejected (p_advance gnone k E c dt s).
Proof. intros On. unfold p_advance, advance. rewrite On. eexists; reflexivity. Qed.

Definition hookE (f : st -> prog st) : Prop := forall s n, fails (f s) (ECheck n) -> comm_codes n.

Ltac fb H := apply fails_bind in H as [H|(? & ? & H)].

Lemma fails_check b n m : fails (check_ (V:=V) b n) (ECheck m) -> m = n /\ b = false.
Proof. destruct b; cbn; [intros []|]. intros Q. injection Q as ->. auto. Qed.
Lemma fails_assert b n m : ~ fails (assert_ (V:=V) b n) (ECheck m).
Proof. destruct b; cbn; [intros []|]. discriminate. Qed.
Lemma fails_lift o n m : ~ fails (lift (V:=V) o n) (ECheck m).
Proof. destruct o; cbn; [intros []|]. discriminate. Qed.
Lemma fails_send d (x : msg V) m : ~ fails (send d x) m.
Proof. intros []. Qed.
Lemma fails_recvs :
  (forall f m, ~ fails (recvInt (V:=V) f) (ECheck m)) /\ (forall f m, ~ fails (recvTime (V:=V) f) (ECheck m)) /\
  (forall f m, ~ fails (recvTimes (V:=V) f) (ECheck m)) /\ (forall f m, ~ fails (recvVals (V:=V) f) (ECheck m)) /\
  (forall f m, ~ fails (recvGrads (V:=V) f) (ECheck m)) /\ (forall f m, ~ fails (recvBool (V:=V) f) (ECheck m)).
Proof.
  repeat split; intros f m (x & H); destruct x; cbn in H; try tauto; discriminate H.
Qed.

Lemma recvTime_nocheck f m : ~ fails (recvTime (V:=V) f) (ECheck m).
Proof. apply fails_recvs. Qed.
Lemma recvBool_nocheck f m : ~ fails (recvBool (V:=V) f) (ECheck m).
Proof. apply fails_recvs. Qed.

Lemma sendAll_nocheck to ds : forall ws m, ~ fails (sendAll (V:=V) to ds ws) (ECheck m).
Proof.
  induction ds as [|d ds IH]; intros [|w ws] m H; cbn in H; try tauto; try discriminate H.
  fb H; [|eapply IH; exact H]. unfold sendOne in H. destruct (d_sub d).
  - fb H; [eapply fails_assert; exact H|]. do 3 (fb H; [exact H|]). destruct (d_grad d); exact H.
  - destruct (w_last w) as [(t, x)|]; [|discriminate H]. fb H; [exact H|]. destruct (d_grad d); exact H.
Qed.

Lemma recvAll_nocheck e now from ds : forall ws m, ~ fails (recvAll gnone e now from ds ws) (ECheck m).
Proof.
  destruct fails_recvs as (F1 & F2 & F3 & F4 & F5 & F6).
  induction ds as [|d ds IH]; intros [|w ws] m H; cbn [recvAll fails] in H; try tauto; try discriminate H.
  fb H.
  - unfold recvOne in H. destruct (d_sub d).
    + fb H; [eapply F1; exact H|]. fb H; [eapply fails_assert; exact H|].
      fb H; [eapply F3; exact H|]. fb H; [eapply F4; exact H|]. fb H.
      { destruct (d_grad d); [eapply F5; exact H|exact H]. }
      fb H; [eapply fails_assert; exact H|]. eapply fails_lift; exact H.
    + fb H; [eapply F4; exact H|]. fb H.
      { destruct (d_grad d); [eapply F5; exact H|exact H]. }
      destruct x as [|x [|]]; try discriminate H. destruct x0 as [|x0 [|]]; try discriminate H.
      eapply fails_lift; exact H.
  - fb H; [eapply IH; exact H|exact H].
Qed.

Lemma sendData_nocheck c s m : ~ fails (sendData gnone c s) (ECheck m).
Proof. intros H. unfold sendData in H. fb H; [eapply sendAll_nocheck; exact H|exact H]. Qed.
Lemma receiveData_nocheck c s m : ~ fails (receiveData gnone c s) (ECheck m).
Proof. intros H. unfold receiveData in H. fb H; [eapply recvAll_nocheck; exact H|exact H]. Qed.
Lemma notify_nocheck (s : st) m : ~ fails (notifyDataHasBeenReceived s) (ECheck m).
Proof. intros H. unfold notifyDataHasBeenReceived in H. fb H; [eapply fails_assert; exact H|exact H]. Qed.
Lemma windowEnd_nocheck c s m : ~ fails (receiveDataForWindowEnd gnone c s) (ECheck m).
Proof.
  intros H. unfold receiveDataForWindowEnd in H. destruct (s_next s); [|discriminate H].
  fb H; [eapply receiveData_nocheck; exact H|exact H].
Qed.
Lemma sendTWS_nocheck c (s : st) m : ~ fails (sendTimeWindowSize c s) (ECheck m).
Proof. unfold sendTimeWindowSize. destruct (c_sets c); intros []. Qed.
Lemma recvTWS_check c (s : st) m : fails (receiveAndSetTimeWindowSize c s) (ECheck m) -> comm_codes m.
Proof.
  unfold receiveAndSetTimeWindowSize. destruct (c_recvs c); [|intros []]. intros H.
  fb H; [exfalso; eapply recvTime_nocheck; exact H|]. fb H; [apply fails_check in H as (-> & _); right; left; reflexivity|destruct H].
Qed.
Lemma store_check (s : st) m : fails (storeIteration s) (ECheck m) -> comm_codes m.
Proof. unfold storeIteration. intros H. fb H; [apply fails_check in H as (-> & _); left; reflexivity|destruct H]. Qed.

Lemma measureLoop_check it mx ms : forall os a b d m, fails (measureLoop (V:=V) it mx ms os a b d) (ECheck m) -> m = 24%nat.
Proof.
  induction ms as [|(sf, sr) ms IH]; intros os a b d m H; [destruct H|].
  destruct os as [|o os]; cbn [measureLoop] in H; [discriminate H|].
  destruct o; [eapply IH; exact H|]. destruct sr; [|eapply IH; exact H].
  destruct mx as [mx|]; [|discriminate H].
  fb H; [apply fails_check in H; tauto|eapply IH; exact H].
Qed.

Lemma implicit_check E b c (s : st) m : fails (doImplicitStep E b c s) (ECheck m) -> comm_codes m.
Proof.
  unfold doImplicitStep. intros H. fb H.
  - unfold measureConvergence in H. destruct (c_measures c); [destruct H|].
    fb H; [apply measureLoop_check in H; right; right; exact H|]. destruct x as [[? ?] ?]. destruct H.
  - destruct (_ || _); destruct H.
Qed.

Lemma ser_first_E E c : hookE (ser_first gnone E c).
Proof.
  intros s m H. unfold ser_first in H. destruct (c_first c).
  - fb H; [exfalso; eapply sendTWS_nocheck; exact H|]. fb H; [exfalso; eapply fails_assert; exact H|].
    exfalso; eapply sendData_nocheck; exact H.
  - destruct (c_implicit c).
    + fb H; [eapply implicit_check; exact H|]. fb H; [destruct H|]. fb H; [exfalso; eapply fails_assert; exact H|].
      exfalso; eapply sendData_nocheck; exact H.
    + fb H; [exfalso; eapply fails_assert; exact H|]. exfalso; eapply sendData_nocheck; exact H.
Qed.

Lemma recvConv_nocheck c (s : st) m : ~ fails (receiveConvergence c s) (ECheck m).
Proof. intros H. unfold receiveConvergence in H. fb H; [eapply recvBool_nocheck; exact H|exact H]. Qed.

Lemma ser_second_E c : hookE (ser_second gnone c).
Proof.
  intros s m H. unfold ser_second in H. destruct (c_implicit c).
  - fb H.
    { destruct (c_first c); [|destruct H]. fb H; [exfalso; eapply recvConv_nocheck; exact H|].
      fb H; [exfalso; eapply fails_assert; exact H|]. fb H; [exfalso; eapply receiveData_nocheck; exact H|].
      exfalso; eapply notify_nocheck; exact H. }
    fb H; [eapply store_check; exact H|]. destruct (_ && _); [|destruct H].
    fb H; [eapply recvTWS_check; exact H|]. fb H; [exfalso; eapply fails_assert; exact H|].
    fb H; [destruct (s_conv x1); exfalso; [eapply windowEnd_nocheck|eapply receiveData_nocheck]; exact H|].
    exfalso; eapply notify_nocheck; exact H.
  - fb H.
    { destruct (c_first c); [|destruct H]. 
      fb H; [exfalso; eapply fails_assert; exact H|]. fb H; [exfalso; eapply receiveData_nocheck; exact H|].
      exfalso; eapply notify_nocheck; exact H. }
    destruct (_ && _); [|destruct H].
    fb H; [eapply recvTWS_check; exact H|]. fb H; [exfalso; eapply fails_assert; exact H|].
    fb H; [exfalso; eapply windowEnd_nocheck; exact H|].
    exfalso; eapply notify_nocheck; exact H.
Qed.

Lemma par_first_E c : hookE (par_first gnone c).
Proof.
  intros s m H. unfold par_first in H. fb H; [exfalso; eapply fails_assert; exact H|].
  destruct (c_first c); [exfalso; eapply sendData_nocheck; exact H|].
  fb H; [exfalso; eapply receiveData_nocheck; exact H|]. exfalso; eapply notify_nocheck; exact H.
Qed.

Lemma par_second_E E c : hookE (par_second gnone E c).
Proof.
  intros s m H. unfold par_second in H. fb H; [exfalso; eapply fails_assert; exact H|].
  destruct (c_implicit c).
  - fb H; [|eapply store_check; exact H]. destruct (c_first c).
    + fb H; [exfalso; eapply recvConv_nocheck; exact H|].
      fb H; [exfalso; eapply receiveData_nocheck; exact H|]. exfalso; eapply notify_nocheck; exact H.
    + fb H; [eapply implicit_check; exact H|]. fb H; [destruct H|]. exfalso; eapply sendData_nocheck; exact H.
  - fb H; [|destruct H]. destruct (c_first c).
    + fb H; [exfalso; eapply receiveData_nocheck; exact H|]. exfalso; eapply notify_nocheck; exact H.
    + exfalso; eapply sendData_nocheck; exact H.
Qed.

Lemma ex1_E k E c : hookE (ex1 gnone k E c).
Proof. destruct k; [apply ser_first_E|apply par_first_E]. Qed.
Lemma ex2_E k E c : hookE (ex2 gnone k E c).
Proof. destruct k; [apply ser_second_E|apply par_second_E]. Qed.

Lemma writeAll_nocheck e t f : forall ws n m, ~ fails (writeAll (V:=V) e t f n ws) (ECheck m).
Proof.
  induction ws as [|w ws IH]; intros n m H; [exact H|]. cbn [writeAll] in H.
  fb H; [eapply fails_lift; exact H|]. fb H; [eapply IH; exact H|exact H].
Qed.

Definition answered (s : st) : Prop :=
  (a_init (s_req s) = true -> a_init (s_ful s) = true) /\
  (a_read (s_req s) = true -> a_read (s_ful s) = true) /\
  (a_write (s_req s) = true -> a_write (s_ful s) = true).

Lemma checkC_fails (s : st) m : fails (checkCompleteness s) (ECheck m) -> ~ answered s.
Proof.
  unfold checkCompleteness, answered. intros H (A1 & A2 & A3).
  fb H; [apply fails_check in H as (_ & H); apply orb_false_iff in H as (B1 & B2); rewrite negb_false_iff in B1; rewrite A1 in B2; congruence|].
  fb H; [apply fails_check in H as (_ & H); apply orb_false_iff in H as (B1 & B2); rewrite negb_false_iff in B1; rewrite A2 in B2; congruence|].
  fb H; [apply fails_check in H as (_ & H); apply orb_false_iff in H as (B1 & B2); rewrite negb_false_iff in B1; rewrite A3 in B2; congruence|].
  destruct H.
Qed.

(** an admissible step is not rejected: only communication-related errors
    (missing samples, a changed window size of the first participant, a failed
    strict measure) remain possible *)
Lemma accepted k E c w dt h s m n : fixed k c w -> run gnone vzero k c h s ->
  isCouplingOngoing c s = true -> pending_read h = false -> pending_write h = false ->
  getMaxTimeStepSize c s = Some m -> c_eps c < dt -> dt <= m + c_eps c ->
  fails (p_advance gnone k E c dt s) (ECheck n) -> comm_codes n.
Proof.
  intros F R On Pr Pw Hm H1 H2 H. pose proof (run_inv _ _ _ _ _ _ _ F R) as I.
  destruct (fixed_flags _ _ _ F) as (Fs & Fr). pose proof F as (Fw & Fe & Ft).
  assert (Ans : answered s).
  { split; [apply (i_init _ _ _ _ I)|split; intros Q].
    - rewrite (i_read _ _ _ _ I Q), Pr. reflexivity.
    - rewrite (i_write _ _ _ _ I Q), Pw. reflexivity. }
  unfold p_advance, advance in H.
  fb H; [apply fails_check in H as (_ & H); congruence|].
  fb H. { apply fails_check in H as (_ & H). apply negb_false_iff in H. unfold equals in H. apply Z.leb_le in H. lia. }
  fb H. { apply fails_check in H as (_ & H). apply Z.ltb_ge in H. lia. }
  fb H. { unfold addComputedTime in H. fb H; [exfalso; eapply fails_assert; exact H|].
    fb H; [|destruct H]. apply fails_check in H as (_ & H). rewrite Hm in H. unfold greaterEquals in H. apply Z.leb_gt in H. lia. }
  match goal with Q : returns (addComputedTime _ _ _) _ |- _ =>
    unfold addComputedTime in Q; rb Q; rb Q; cbn [returns] in Q; subst x2 end.
  set (s1 := set_s_time (th_progressBy dt (s_time s)) s) in *.
  fb H. { unfold handleDataBeforeAdvance in H. destruct (_ || _); [|destruct H]. fb H; [exfalso; eapply writeAll_nocheck; exact H|destruct H]. }
  match goal with Q : returns (handleDataBeforeAdvance _ _ _ _ _) ?y |- _ =>
    apply before_keeps in Q; rename Q into Kb; rename y into s2 end.
  assert (Ans2 : answered s2).
  { unfold answered. destruct Kb as (((q1 & q2 & q3 & q4 & q5 & q6 & q7 & q8) & _) & _). rewrite q6, q7. exact Ans. }
  fb H.
  { unfold firstExchange in H. fb H; [apply checkC_fails in H; tauto|].
    destruct (reachedEndOfTimeWindow c _); [|destruct H]. eapply ex1_E; exact H. }
  match goal with Q : returns (firstExchange _ _ _) ?y |- _ => rename y into s3; rename Q into Hf end.
  assert (Req3 : s_req s3 = no_acts).
  { unfold firstExchange in Hf. rb Hf.
    match goal with Q : returns (checkCompleteness _) _ |- _ => apply check_spec in Q as (-> & _) end.
    destruct (reachedEndOfTimeWindow c _).
    - apply (ex1_hook gnone k E c Fw) in Hf as ((q1 & q2 & q3 & q4 & q5 & q6 & q7 & q8) & _). rewrite q6. reflexivity.
    - cbn [returns] in Hf. subst s3. reflexivity. }
  fb H.
  { unfold secondExchange in H. fb H.
    { apply checkC_fails in H. exfalso. apply H. unfold answered. rewrite Req3. cbn. repeat split; discriminate. }
    fb H; [exfalso; eapply fails_assert; exact H|].
    destruct (reachedEndOfTimeWindow c _); [|destruct H].
    fb H; [eapply ex2_E; exact H|]. fb H; [|destruct H].
    exfalso. unfold afterSecond in H. fb H.
    { destruct (c_implicit c); [|exact H]. fb H; [eapply fails_assert; exact H|exact H]. }
    fb H; [eapply fails_assert; exact H|]. fb H; [|exact H].
    match type of H with fails (if ?b then _ else _) _ => destruct b end; [|exact H].
    match type of H with fails (match ?b with _ => _ end) _ => destruct b end; [|discriminate H].
    match type of H with fails (match ?b with _ => _ end) _ => destruct b end; [exact H|discriminate H]. }
  exfalso. unfold handleDataAfterAdvance in H.
  do 2 (match type of H with fails (if ?b then _ else _) _ => destruct b end; try exact H);
    (fb H; [eapply fails_assert; exact H|exact H]).
Qed.

(** C09 *)
Lemma unanswered_stops k E c w dt h s : fixed k c w -> run gnone vzero k c h s ->
  pending_read h = true \/ pending_write h = true ->
  exists e, p_advance gnone k E c dt s = PErr e.
Proof.
  intros F R P. pose proof (run_inv _ _ _ _ _ _ _ F R) as I.
  assert (NA : ~ answered s).
  { intros (_ & A2 & A3). destruct P as [P|P].
    - pose proof (i_read' _ _ _ _ I P) as Q. specialize (A2 Q). rewrite (i_read _ _ _ _ I Q), P in A2. discriminate A2.
    - pose proof (i_write' _ _ _ _ I P) as Q. specialize (A3 Q). rewrite (i_write _ _ _ _ I Q), P in A3. discriminate A3. }
  unfold p_advance, advance.
  destruct (isCouplingOngoing c s) eqn:On; cbn [check_ bind echeck]; [|eexists; reflexivity].
  destruct (negb (equals (c_eps c) dt 0)) eqn:Q1; cbn [check_ bind echeck]; [|eexists; reflexivity].
  destruct (0 <? dt) eqn:Q2; cbn [check_ bind echeck]; [|eexists; reflexivity].
  unfold addComputedTime. rewrite On. cbn [assert_ bind].
  destruct (match getMaxTimeStepSize c s with None => true | Some m => greaterEquals (c_eps c) m dt end) eqn:Q3;
    cbn [check_ bind echeck]; [|eexists; reflexivity].
  assert (W : forall e t f ws n, (exists r, writeAll (V:=V) e t f n ws = PRet r) \/ (exists er, writeAll (V:=V) e t f n ws = PErr er)).
  { intros e t f. induction ws as [|x ws IH]; intros n; cbn [writeAll]; [left; eexists; reflexivity|].
    destruct (w_set e x t (f n)); cbn [lift bind]; [|right; eexists; reflexivity].
    destruct (IH (S n)) as [(r & ->)|(er & ->)]; cbn [bind]; [left|right]; eexists; reflexivity. }
  set (s1 := set_s_time (th_progressBy dt (s_time s)) s).
  assert (B : (exists s2, handleDataBeforeAdvance E c (reachedEndOfTimeWindow c s1) s s1 = PRet s2 /\ s_req s2 = s_req s /\ s_ful s2 = s_ful s)
     \/ exists er, handleDataBeforeAdvance E c (reachedEndOfTimeWindow c s1) s s1 = PErr er).
  { unfold handleDataBeforeAdvance. destruct (_ || _); [|left; eexists; repeat split].
    destruct (W (c_eps c) (th_time (s_time s1)) (e_write E s) (s_send s1) 0%nat) as [(r & ->)|(er & ->)]; cbn [bind].
    - left. eexists. repeat split.
    - right. eexists. reflexivity. }
  destruct B as [(s2 & -> & B1 & B2)|(er & ->)]; cbn [bind]; [|eexists; reflexivity].
  unfold firstExchange.
  assert (C : exists er, checkCompleteness s2 = PErr er).
  { unfold checkCompleteness. rewrite B1, B2. unfold answered in NA.
    destruct (a_init (s_req s)), (a_init (s_ful s)); cbn [negb orb check_ bind echeck]; try (eexists; reflexivity);
    destruct (a_read (s_req s)), (a_read (s_ful s)); cbn [negb orb check_ bind echeck]; try (eexists; reflexivity);
    destruct (a_write (s_req s)), (a_write (s_ful s)); cbn [negb orb check_ bind echeck]; try (eexists; reflexivity);
    exfalso; apply NA; repeat split; auto. }
  destruct C as (er & ->). cbn [bind]. eexists; reflexivity.
Qed.

Lemma init_unanswered k E c : sendsInitialized c = true -> rejected (p_initialize gnone vzero k E c (st0 c)).
Proof.
  intros H. unfold p_initialize, initialize. cbn [st0 s_req a_init]. rewrite H. cbn. eexists; reflexivity.
Qed.

(** C03 *)
Lemma follows_bound k c w h s : fixed k c w -> run gnone vzero k c h s -> follows_max h ->
  (forall T, c_maxTime c = Some T -> 0 <= T) -> isCouplingOngoing c s = true -> c_eps c < w ->
  (progress h = 0 \/ progress h < w - c_eps c) /\
  forall T, c_maxTime c = Some T -> completed h * w + progress h < T - c_eps c.
Proof.
  intros F R. pose proof F as (Fw & Fe & Ft). destruct (fixed_flags _ _ _ F) as (Fs & Fr).
  induction R as [E s' H|E s' H|h s R IH|h s R IH|h s E dt s' R IH H]; intros Fm T0 On Hw.
  - split; [left; reflexivity|]. intros T HT. cbn [completed progress]. specialize (T0 _ HT).
    assert (I : init_spec c s') by (eapply initialize_spec; [left; reflexivity|exact H]).
    unfold isCouplingOngoing in On. rewrite (is_time _ _ I) in On. unfold th_reachedEnd, th_untilTime, equals in On. cbn [th_max th_start th_prog] in On.
    rewrite HT in On. apply andb_prop in On as (_ & On). apply negb_true_iff, Z.leb_gt in On. lia.
  - split; [left; reflexivity|]. intros T HT. cbn [completed progress]. specialize (T0 _ HT).
    assert (I : init_spec c s') by (eapply initialize_spec; [right; reflexivity|exact H]).
    unfold isCouplingOngoing in On. rewrite (is_time _ _ I) in On. unfold th_reachedEnd, th_untilTime, equals in On. cbn [th_max th_start th_prog] in On.
    rewrite HT in On. apply andb_prop in On as (_ & On). apply negb_true_iff, Z.leb_gt in On. lia.
  - cbn [completed progress]. apply IH; auto. revert On. unfold answerRead. destruct (a_read (s_req s)); auto.
  - cbn [completed progress]. apply IH; auto. revert On. unfold answerWrite. destruct (a_write (s_req s)); auto.
  - pose proof (run_inv _ _ _ _ _ _ _ F R) as I.
    pose proof (p_advance_spec _ _ _ _ _ _ _ _ _ F I H) as A.
    pose proof (as_ongoing _ _ _ _ A) as On0.
    cbn [follows_max] in Fm. destruct Fm as (Fm1 & Fm2).
    destruct (i_obs _ _ _ _ I) as (o & o1 & o2 & o3 & o4). rewrite o1, o4, (max_formula _ _ _ _ I On0) in Fm1.
    specialize (IH Fm2 T0 On0 Hw). destruct IH as (IH1 & IH2).
    assert (I' : Inv c w (Advanced dt (observe c s') :: h) s') by (eapply inv_step; eauto).
    pose proof (ongoing_start _ _ _ _ I' On) as St.
    assert (Tm : forall T, c_maxTime c = Some T -> ~ Z.abs (T - (completed (Advanced dt (observe c s') :: h) * w + progress (Advanced dt (observe c s') :: h))) <= c_eps c).
    { intros T HT. unfold isCouplingOngoing in On. apply andb_prop in On as (_ & On). apply negb_true_iff in On.
      unfold th_reachedEnd, th_untilTime, equals in On. rewrite (i_max _ _ _ _ I'), HT, St, (i_prog _ _ _ _ I') in On.
      apply Z.leb_gt in On. lia. }
    destruct (reachedEndOfTimeWindow c (set_s_time (th_progressBy dt (s_time s)) s)) eqn:Re.
    + destruct (as_end _ _ _ _ A Re) as (w' & e1 & e2 & e3 & e4 & e5 & e6 & e7 & e8 & e9 & e10).
      rewrite Fs, (i_tws _ _ _ _ I) in e1. injection e1 as <-.
      assert (Rd : a_read (s_req s') = negb (s_compl s')).
      { rewrite e9, e4. destruct (c_implicit c), (s_conv s'); reflexivity. }
      cbn [completed progress observe o_complete o_read] in *. rewrite Rd in *.
      destruct (s_compl s') eqn:Ec; cbn [orb negb] in *.
      * split; [left; reflexivity|]. intros T HT. specialize (Tm _ HT). rewrite HT in Fm1. cbn [min_limit] in Fm1.
        destruct (e5 eq_refl) as (q & _). unfold th_completeTimeWindow in q.
        destruct (equals _ _ _) eqn:Eq.
        { unfold equals in Eq. apply Z.leb_le in Eq. cbn [th_progressBy th_prog] in Eq. rewrite (i_prog _ _ _ _ I) in Eq. lia. }
        destruct (th_reachedEnd (c_eps c) (th_progressBy dt (s_time s))) eqn:Q; [|discriminate q].
        exfalso. injection q as q. unfold isCouplingOngoing in On. rewrite <- q in On.
        replace (th_reachedEnd _ _) with true in On; [rewrite andb_false_r in On; discriminate On|].
        rewrite <- Q. unfold th_reachedEnd, th_untilTime. cbn [th_progressBy th_max th_start th_prog].
        destruct (th_max (s_time s)); [|reflexivity]. f_equal. lia.
      * split; [left; reflexivity|]. intros T HT. specialize (IH2 _ HT). pose proof (i_pnonneg _ _ _ _ I). lia.
    + assert (NR : ~ exists m, min_limit (Some (w - progress h)) (match c_maxTime c with None => None | Some T => Some (T - (completed h * w + progress h)) end) = Some m /\
     Z.abs (m - dt) <= c_eps c).
      { intros Q. apply (reached_iff _ _ _ _ _ I (ongoing_start _ _ _ _ I On0)) in Q. congruence. }
      destruct (as_sub _ _ _ _ A Re) as (e1 & e2 & e3 & e4 & e5 & e6 & e7).
      cbn [completed progress observe o_complete o_read] in *. rewrite e4, e5 in *. cbn [orb a_read no_acts] in *.
      destruct (c_maxTime c) as [T|]; cbn [min_limit] in *.
      * assert (~ Z.abs (Z.min (w - progress h) (T - (completed h * w + progress h)) - dt) <= c_eps c).
        { intros Q. apply NR. eexists; split; [reflexivity|exact Q]. }
        split; [right; lia|]. intros T' HT. injection HT as <-. lia.
      * assert (~ Z.abs (w - progress h - dt) <= c_eps c).
        { intros Q. apply NR. eexists; split; [reflexivity|exact Q]. }
        split; [right; lia|discriminate].
Qed.

Theorem max_step_positive k c w h s : fixed k c w -> run gnone vzero k c h s -> follows_max h ->
  (forall T, c_maxTime c = Some T -> 0 <= T) -> c_eps c < w -> isCouplingOngoing c s = true ->
  exists m, getMaxTimeStepSize c s = Some m /\ c_eps c < m.
Proof.
  intros F R Fm T0 Hw On. destruct (follows_bound _ _ _ _ _ F R Fm T0 On Hw) as (B1 & B2).
  pose proof (run_inv _ _ _ _ _ _ _ F R) as I. rewrite (max_formula _ _ _ _ I On).
  destruct (c_maxTime c) as [T|]; cbn [min_limit]; eexists; (split; [reflexivity|]).
  - specialize (B2 _ eq_refl). lia.
  - lia.
Qed.

Theorem max_step_ends_window k c w h s E m s' : fixed k c w -> run gnone vzero k c h s ->
  getMaxTimeStepSize c s = Some m -> returns (p_advance gnone k E c m s) s' ->
  o_complete (observe c s') = true \/ o_read (observe c s') = true.
Proof.
  intros F R Hm H. pose proof (run_inv _ _ _ _ _ _ _ F R) as I.
  pose proof (p_advance_spec _ _ _ _ _ _ _ _ _ F I H) as A. pose proof (as_ongoing _ _ _ _ A) as On.
  assert (Re : reachedEndOfTimeWindow c (set_s_time (th_progressBy m (s_time s)) s) = true).
  { apply (reached_iff _ _ _ _ _ I (ongoing_start _ _ _ _ I On)). rewrite (max_formula _ _ _ _ I On) in Hm.
    exists m. split; [exact Hm|]. destruct F as (_ & Fe & _). lia. }
  destruct (as_end _ _ _ _ A Re) as (w' & e1 & e2 & e3 & e4 & e5 & e6 & e7 & e8 & e9 & e10).
  cbn. rewrite e9, e4. destruct (c_implicit c), (s_conv s'); cbn; auto.
Qed.

(** C06 *)
Theorem ongoing_iff k c w h s : fixed k c w -> run gnone vzero k c h s -> follows_max h ->
  (forall T, c_maxTime c = Some T -> 0 <= T) -> c_eps c < w ->
  isCouplingOngoing c s = true <->
  (match c_maxWindows c with None => True | Some n => completed h < n end) /\
  (match c_maxTime c with None => True | Some T => completed h * w + progress h < T - c_eps c end).
Proof.
  intros F R Fm T0 Hw. pose proof (run_inv _ _ _ _ _ _ _ F R) as I. split.
  - intros On. destruct (follows_bound _ _ _ _ _ F R Fm T0 On Hw) as (B1 & B2). split.
    + unfold isCouplingOngoing in On. apply andb_prop in On as (On & _). destruct (c_maxWindows c); [|exact Logic.I].
      rewrite (i_windows _ _ _ _ I) in On. apply Z.leb_le in On. lia.
    + destruct (c_maxTime c); [apply B2; reflexivity|exact Logic.I].
  - intros (B1 & B2). unfold isCouplingOngoing. apply andb_true_intro. split.
    + destruct (c_maxWindows c); [|reflexivity]. rewrite (i_windows _ _ _ _ I). apply Z.leb_le. lia.
    + apply negb_true_iff. destruct (i_start _ _ _ _ I) as [St|(St & P0 & C0)].
      * unfold th_reachedEnd, th_untilTime, equals. rewrite (i_max _ _ _ _ I), (i_prog _ _ _ _ I), St.
        destruct (c_maxTime c) as [T|]; [|reflexivity]. apply Z.leb_gt. lia.
      * (* truncated last window: impossible here *)
        exfalso.
        assert (L : forall h s, run gnone vzero k c h s -> follows_max h -> th_start (s_time s) <> completed h * w ->
            exists T, c_maxTime c = Some T /\ T < completed h * w).
        { clear - F T0 Hw. intros h s R Fm N. pose proof F as (Fw & Fe & Ft). destruct (fixed_flags _ _ _ F) as (Fs & Fr).
          induction R as [E s' H|E s' H|h s R IH|h s R IH|h s E dt s' R IH H].
          - exfalso. apply N. assert (I : init_spec c s') by (eapply initialize_spec; [left; reflexivity|exact H]).
            rewrite (is_time _ _ I). reflexivity.
          - exfalso. apply N. assert (I : init_spec c s') by (eapply initialize_spec; [right; reflexivity|exact H]).
            rewrite (is_time _ _ I). reflexivity.
          - cbn [completed]. apply IH; auto. intros Q. apply N. cbn [completed]. rewrite <- Q. unfold answerRead. destruct (a_read (s_req s)); reflexivity.
          - cbn [completed]. apply IH; auto. intros Q. apply N. cbn [completed]. rewrite <- Q. unfold answerWrite. destruct (a_write (s_req s)); reflexivity.
          - pose proof (run_inv _ _ _ _ _ _ _ F R) as I.
            pose proof (p_advance_spec _ _ _ _ _ _ _ _ _ F I H) as A. pose proof (as_ongoing _ _ _ _ A) as On0.
            pose proof (ongoing_start _ _ _ _ I On0) as St0.
            cbn [follows_max] in Fm. destruct Fm as (Fm1 & Fm2).
            destruct (i_obs _ _ _ _ I) as (o & o1 & o2 & o3 & o4). rewrite o1, o4, (max_formula _ _ _ _ I On0) in Fm1.
            destruct (reachedEndOfTimeWindow c (set_s_time (th_progressBy dt (s_time s)) s)) eqn:Re.
            + destruct (as_end _ _ _ _ A Re) as (w' & e1 & e2 & e3 & e4 & e5 & e6 & e7 & e8 & e9 & e10).
              rewrite Fs, (i_tws _ _ _ _ I) in e1. injection e1 as <-.
              cbn [completed observe o_complete] in *. destruct (s_compl s') eqn:Ec.
              * destruct (e5 eq_refl) as (q & _). unfold th_completeTimeWindow in q.
                destruct (equals _ _ _) eqn:Eq.
                { exfalso. apply N. injection q as <-. cbn [th_progressBy th_start]. rewrite St0. lia. }
                destruct (th_reachedEnd (c_eps c) (th_progressBy dt (s_time s))) eqn:Q; [|discriminate q].
                unfold th_reachedEnd, th_untilTime, equals in Q. cbn [th_progressBy th_max th_start th_prog] in Q.
                rewrite (i_max _ _ _ _ I) in Q. destruct (c_maxTime c) as [T|]; [|discriminate Q].
                exists T. split; [reflexivity|]. apply Z.leb_le in Q. unfold equals in Eq. apply Z.leb_gt in Eq.
                cbn [th_progressBy th_prog min_limit] in *. rewrite (i_prog _ _ _ _ I) in *. rewrite St0 in Q. lia.
              * exfalso. apply N. destruct (e6 eq_refl) as (-> & _). cbn [th_resetProgress th_start]. rewrite St0. lia.
            + exfalso. destruct (as_sub _ _ _ _ A Re) as (e1 & e2 & e3 & e4 & e5 & e6 & e7).
              apply N. rewrite e1. cbn [completed observe o_complete th_progressBy th_start]. rewrite e4, St0. lia. }
        destruct (Z.eq_dec (th_start (s_time s)) (completed h * w)) as [Q|Q].
        -- unfold th_reachedEnd, th_untilTime, equals in St. rewrite (i_max _ _ _ _ I), (i_prog _ _ _ _ I), Q in St.
           destruct (c_maxTime c) as [T|]; [|discriminate St]. apply Z.leb_le in St. lia.
        -- destruct (L _ _ R Fm Q) as (T & HT & HL). rewrite HT in B2. pose proof (i_pnonneg _ _ _ _ I). destruct F as (_ & Fe & _). lia.
Qed.

Theorem windows_bounded k c w h s n : fixed k c w -> run gnone vzero k c h s ->
  c_maxWindows c = Some n -> 0 <= n -> completed h <= n.
Proof.
  intros F R Hn N0.
  induction R as [E s' H|E s' H|h s R IH|h s R IH|h s E dt s' R IH H]; try (cbn [completed]; assumption).
  pose proof (run_inv _ _ _ _ _ _ _ F R) as I.
  pose proof (p_advance_spec _ _ _ _ _ _ _ _ _ F I H) as A. pose proof (as_ongoing _ _ _ _ A) as On.
  unfold isCouplingOngoing in On. apply andb_prop in On as (On & _). rewrite Hn, (i_windows _ _ _ _ I) in On. apply Z.leb_le in On.
  cbn [completed]. destruct (o_complete _); lia.
Qed.

(** C07, C08 *)
Lemma reached_window_end k c w h s E dt s' : fixed k c w -> run gnone vzero k c h s ->
  returns (p_advance gnone k E c dt s) s' ->
  reachedEndOfTimeWindow c (set_s_time (th_progressBy dt (s_time s)) s) = true <-> window_end c w h dt.
Proof.
  intros F R H. pose proof (run_inv _ _ _ _ _ _ _ F R) as I.
  pose proof (p_advance_spec _ _ _ _ _ _ _ _ _ F I H) as A. pose proof (as_ongoing _ _ _ _ A) as On.
  pose proof (as_max _ _ _ _ A) as M. rewrite (max_formula _ _ _ _ I On) in M.
  rewrite (reached_iff _ _ _ _ _ I (ongoing_start _ _ _ _ I On)). unfold window_end.
  destruct (c_maxTime c) as [T|]; cbn [min_limit] in *; split.
  - intros (m & Q & B). injection Q as <-.
    destruct (Z.min_spec (w - progress h) (T - (completed h * w + progress h))) as [(L & Q)|(L & Q)]; rewrite Q in *.
    + left. lia.
    + right. exists T. split; [reflexivity|]. lia.
  - intros [B|(T' & Q & B)]; eexists; (split; [reflexivity|]); [|injection Q as <-]; lia.
  - intros (m & Q & B). injection Q as <-. left. lia.
  - intros [B|(T' & Q & B)]; [|discriminate Q]. eexists; (split; [reflexivity|]). lia.
Qed.

Theorem complete_iff k c w h s E dt s' : fixed k c w -> run gnone vzero k c h s ->
  returns (p_advance gnone k E c dt s) s' ->
  (o_complete (observe c s') = true <-> window_end c w h dt /\ (c_implicit c = true -> s_conv s' = true)) /\
  (o_read (observe c s') = true <-> window_end c w h dt /\ c_implicit c = true /\ s_conv s' = false) /\
  (o_write (observe c s') = true <->
     window_end c w h dt /\ c_implicit c = true /\ s_conv s' = true /\
     (match c_maxWindows c with None => True | Some n => completed h + 1 < n end) /\
     (match c_maxTime c with None => True | Some T => c_eps c < Z.abs (T - (completed h * w + progress h + dt)) end)).
Proof.
  intros F R H. pose proof (run_inv _ _ _ _ _ _ _ F R) as I.
  pose proof (p_advance_spec _ _ _ _ _ _ _ _ _ F I H) as A. pose proof (as_ongoing _ _ _ _ A) as On.
  pose proof (reached_window_end _ _ _ _ _ _ _ _ F R H) as W.
  cbn [observe o_complete o_read o_write].
  destruct (reachedEndOfTimeWindow c (set_s_time (th_progressBy dt (s_time s)) s)) eqn:Re.
  - destruct (as_end _ _ _ _ A Re) as (w' & e1 & e2 & e3 & e4 & e5 & e6 & e7 & e8 & e9 & e10).
    assert (We : window_end c w h dt) by (apply W; reflexivity).
    rewrite e9, e4, e10. clear e10 e9 e5 e6 e7.
    assert (G : isCouplingOngoing c (set_s_windows (s_windows s + 1) (set_s_time (th_progressBy dt (s_time s)) s)) = true <->
      (match c_maxWindows c with None => True | Some n => completed h + 1 < n end) /\
     (match c_maxTime c with None => True | Some T => c_eps c < Z.abs (T - (completed h * w + progress h + dt)) end)).
    { unfold isCouplingOngoing. cbn [set_s_windows set_s_time s_windows s_time]. rewrite andb_true_iff, negb_true_iff.
      unfold th_reachedEnd, th_untilTime, equals. cbn [th_progressBy th_max th_start th_prog].
      rewrite (i_max _ _ _ _ I), (i_prog _ _ _ _ I), (ongoing_start _ _ _ _ I On), (i_windows _ _ _ _ I).
      destruct (c_maxWindows c) as [n|], (c_maxTime c) as [T|]; rewrite ?Z.leb_le, ?Z.leb_gt; intuition lia. }
    split; [|split].
    + destruct (c_implicit c), (s_conv s'); cbn; intuition congruence.
    + destruct (c_implicit c), (s_conv s'); cbn; intuition congruence.
    + rewrite !andb_true_iff, G. tauto.
  - assert (We : ~ window_end c w h dt) by (intros Q; apply W in Q; discriminate Q).
    destruct (as_sub _ _ _ _ A Re) as (e1 & e2 & e3 & e4 & e5 & e6 & e7).
    rewrite e4, e5. cbn. repeat split; intros; (discriminate || tauto).
Qed.

(** C08: steps that end windows exactly *)
Lemma exact_follows e h : 0 <= e -> exact_steps e h -> follows_max h.
Proof.
  intros He. induction h as [|[o| | |dt o] h IH]; cbn; try tauto.
  intros (A & B). split; [|apply IH; exact B]. destruct (last_obs h) as [o'|]; [|exact A].
  destruct (o_maxdt o'); [|exact A]. lia.
Qed.

Theorem write_iff_exact k c w h s E dt s' : fixed k c w -> run gnone vzero k c h s ->
  returns (p_advance gnone k E c dt s) s' ->
  exact_steps (c_eps c) (Advanced dt (observe c s') :: h) ->
  o_write (observe c s') = true <->
  c_implicit c = true /\ o_complete (observe c s') = true /\ o_ongoing (observe c s') = true.
Proof.
  intros F R H Ex. pose proof (run_inv _ _ _ _ _ _ _ F R) as I.
  pose proof (p_advance_spec _ _ _ _ _ _ _ _ _ F I H) as A. pose proof (as_ongoing _ _ _ _ A) as On.
  pose proof (ongoing_start _ _ _ _ I On) as St. destruct (fixed_flags _ _ _ F) as (Fs & Fr). pose proof F as (Fw & Fe & Ft).
  cbn [exact_steps] in Ex. destruct Ex as (Ex & _).
  destruct (i_obs _ _ _ _ I) as (o & o1 & o2 & o3 & o4). rewrite o1, o4, (max_formula _ _ _ _ I On) in Ex.
  cbn [observe o_complete o_read o_write o_ongoing].
  destruct (reachedEndOfTimeWindow c (set_s_time (th_progressBy dt (s_time s)) s)) eqn:Re.
  - destruct (as_end _ _ _ _ A Re) as (w' & e1 & e2 & e3 & e4 & e5 & e6 & e7 & e8 & e9 & e10).
    rewrite Fs, (i_tws _ _ _ _ I) in e1. injection e1 as <-.
    apply (reached_iff _ _ _ _ _ I St) in Re. destruct Re as (m & M1 & M2). rewrite M1 in Ex.
    assert (dt = m) by lia. subst m. clear Ex M2.
    rewrite e10. destruct (c_implicit c); cbn [andb]; [|intuition discriminate].
    cbn [negb orb] in e4. rewrite e4 in *. destruct (s_conv s') eqn:Ec; cbn [andb]; [|intuition discriminate].
    destruct (e5 eq_refl) as (q & q2). 
    assert (G : isCouplingOngoing c (set_s_windows (s_windows s + 1) (set_s_time (th_progressBy dt (s_time s)) s)) = isCouplingOngoing c s').
    { unfold isCouplingOngoing. rewrite q2. cbn [set_s_windows set_s_time s_windows s_time]. do 2 f_equal.
      unfold th_completeTimeWindow in q. destruct (equals _ _ _) eqn:Eq.
      - injection q as <-. unfold th_reachedEnd, th_untilTime, equals in *. cbn [th_progressBy th_max th_start th_prog] in *.
        rewrite (i_max _ _ _ _ I), (i_prog _ _ _ _ I), St in *. destruct (c_maxTime c) as [T|]; [|reflexivity].
        cbn [min_limit] in M1. injection M1 as M1. apply Z.leb_le in Eq.
        destruct (Z.leb_spec (Z.abs (- (completed h * w + (progress h + dt) - T))) (c_eps c));
        destruct (Z.leb_spec (Z.abs (- (completed h * w + w + 0 - T))) (c_eps c)); try reflexivity; lia.
      - destruct (th_reachedEnd (c_eps c) (th_progressBy dt (s_time s))) eqn:Q; [|discriminate q].
        injection q as <-. unfold th_reachedEnd, th_untilTime, equals in *. cbn [th_progressBy th_max th_start th_prog] in *.
        rewrite <- Q. destruct (th_max (s_time s)); [|reflexivity]. do 3 f_equal. lia. }
    rewrite G. tauto.
  - destruct (as_sub _ _ _ _ A Re) as (e1 & e2 & e3 & e4 & e5 & e6 & e7). rewrite e4, e5. cbn. intuition discriminate.
Qed.

(** C11 *)
Lemma measureLoop_spec it mx ms : forall os a b d r,
  returns (measureLoop (V:=V) it mx ms os a b d) r ->
  let l := combine ms os in
  length l = length ms /\
  (fst (fst r) = true <-> a = true /\ forall m, In m l -> snd m = true) /\
  (snd (fst r) = true <-> b = true \/ exists m, In m l /\ fst (fst m) = true /\ snd m = true) /\
  (snd r = false <-> d = false /\ forall m, In m l -> snd (fst m) = true -> snd m = true) /\
  (forall m, In m l -> snd (fst m) = true -> snd m = false -> exists x, mx = Some x /\ it < x).
Proof.
  induction ms as [|(sf, sr) ms IH]; intros os a b d r H; cbn [measureLoop] in H.
  - cbn in H. subst r. cbn. split; [reflexivity|]. split; [intuition|]. split; [|split; [|intros ? []]].
    + split; [auto|]. intros [Q|(m & [] & _)]. exact Q.
    + split; [|tauto]. intros ->. split; [reflexivity|]. intros ? [].
  - destruct os as [|o os]; [destruct H|]. cbn [combine length In].
    destruct o.
    + apply IH in H. cbn zeta in H. destruct H as (H0 & H1 & H2 & H3 & H4). split; [lia|]. repeat split.
      * apply H1 in H as (Q1 & Q2). exact Q1.
      * intros m [<-|Q']; [reflexivity|]. apply H1 in H as (_ & Q). apply Q, Q'.
      * intros (Q1 & Q2). apply H1. split; [exact Q1|]. intros m Q. apply Q2. right; exact Q.
      * intros Q. apply H2 in Q as [Q|(m & Q)].
        { apply orb_prop in Q as [Q|Q]; [left; exact Q|right]. eexists; split; [left; reflexivity|]. cbn. auto. }
        right. exists m. tauto.
      * intros [Q|(m & [<-|Q1] & Q2 & Q3)]; apply H2.
        { left. rewrite Q. reflexivity. }
        { cbn in Q2. left. rewrite Q2. apply orb_true_r. }
        right. exists m. tauto.
      * apply H3 in H. tauto.
      * intros m [<-|Q'] Qs; [reflexivity|]. apply H3 in H as (_ & Q). apply Q; assumption.
      * intros (Q1 & Q2). apply H3. split; [exact Q1|]. intros m Q. apply Q2. right; exact Q.
      * intros m [<-|Q] Q1 Q2; [cbn in Q2; discriminate Q2|]. apply (H4 m Q Q1 Q2).
    + assert (B : returns (measureLoop (V:=V) it mx ms os false b (d || sr)) r /\
                  (sr = true -> exists x, mx = Some x /\ it < x)).
      { destruct sr.
        - destruct mx as [mx|]; [|destruct H]. rb H. apply ret_check in H0. apply Z.ltb_lt in H0.
          rewrite orb_true_r. split; [exact H|]. intros _. eexists; split; [reflexivity|exact H0].
        - rewrite orb_false_r. split; [exact H|discriminate]. }
      clear H. destruct B as (H & B). apply IH in H. cbn zeta in H. destruct H as (H0 & H1 & H2 & H3 & H4).
      split; [lia|]. repeat split.
      * apply H1 in H as (Q & _). discriminate Q.
      * intros m _. apply H1 in H as (Q & _). discriminate Q.
      * intros (Q1 & Q2). specialize (Q2 _ (or_introl eq_refl)). cbn in Q2. discriminate Q2.
      * intros Q. apply H2 in Q as [Q|(m & Q)]; [left; exact Q|]. right. exists m. tauto.
      * intros [Q|(m & [<-|Q1] & Q2 & Q3)]; apply H2; [left; exact Q|cbn in Q3; discriminate Q3|]. right. exists m. tauto.
      * apply H3 in H as (Q & _). apply orb_false_iff in Q. tauto.
      * intros m [<-|Q'] Qs.
        { cbn in Qs. apply H3 in H as (Q & _). apply orb_false_iff in Q as (_ & Q). congruence. }
        apply H3 in H as (_ & Q). apply Q; assumption.
      * intros (Q1 & Q2). apply H3. split.
        { rewrite Q1. cbn. destruct sr; [|reflexivity]. specialize (Q2 _ (or_introl eq_refl) eq_refl). cbn in Q2. discriminate Q2. }
        intros m Q. apply Q2. right; exact Q.
      * intros m [<-|Q] Q1 Q2; [apply B; exact Q1|]. apply (H4 m Q Q1 Q2).
Qed.

Lemma measure_spec c os (s : st) b : returns (measureConvergence c os s) b ->
  (b = true \/ c_maxIt c = Some (s_it s) <-> converged (c_minIt c) (s_it s) (c_maxIt c) (combine (c_measures c) os)) /\
  (strict_failed (combine (c_measures c) os) -> exists x, c_maxIt c = Some x /\ s_it s < x).
Proof.
  unfold measureConvergence, converged. destruct (c_measures c) as [|m0 ms] eqn:Em.
  - cbn. intros <-. split; [|intros (m & [] & _)]. intuition discriminate.
  - intros H. rb H. pose proof (measureLoop_spec _ _ _ _ _ _ _ _ H0) as (L & H1 & H2 & H3 & H4). clear H0.
    destruct x as [[all one] strict]. cbn [fst snd] in *. cbn [returns] in H. subst b.
    assert (Ne : combine (m0 :: ms) os <> []) by (intros Q; rewrite Q in L; discriminate L).
    split.
    + rewrite andb_true_iff, orb_true_iff, andb_true_iff, negb_true_iff, Z.leb_le, H1, H2, H3.
      split.
      * intros [(Q1 & Q2)|Q]; [left|right; exact Q]. split; [exact Ne|]. split; [exact Q1|].
        destruct Q2 as [(_ & Q2)|(Q2 & _ & Q3)]; [left; exact Q2|right]. split; [|exact Q3].
        destruct Q2 as [Q2|Q2]; [discriminate Q2|exact Q2].
      * intros [(_ & Q1 & Q2)|Q]; [left|right; exact Q]. split; [exact Q1|].
        destruct Q2 as [Q2|(Q2 & Q3)]; [left; auto|right]. auto.
    + intros (m & Q1 & Q2 & Q3). apply (H4 m Q1 Q2 Q3).
Qed.

Lemma implicit_spec E b c (s s' : st) : returns (doImplicitStep E b c s) s' ->
  (s_conv s' = true <-> converged (c_minIt c) (s_it s) (c_maxIt c) (combine (c_measures c) (e_measure E s))) /\
  (strict_failed (combine (c_measures c) (e_measure E s)) -> exists x, c_maxIt c = Some x /\ s_it s < x).
Proof.
  unfold doImplicitStep. intros H. rb H. apply measure_spec in H0 as (M1 & M2). split; [|exact M2].
  rewrite <- M1. clear M1 M2.
  assert (Q : s_conv s' = (x || match c_maxIt c with Some mx => s_it s =? mx | None => false end)).
  { destruct (_ || _) eqn:Q; cbn [returns] in H; subst s'; [reflexivity|]. destruct b; reflexivity. }
  rewrite Q, orb_true_iff. destruct (c_maxIt c) as [mx|]; [|intuition discriminate].
  rewrite Z.eqb_eq. split; intros [W|W]; auto; right; congruence.
Qed.

(** the order of the measures does not matter *)
Lemma converged_perm minIt it mx l l' : Permutation l l' -> converged minIt it mx l -> converged minIt it mx l'.
Proof.
  intros P. unfold converged. assert (I : forall m, In m l <-> In m l').
  { intros m. split; [apply Permutation_in; exact P|apply Permutation_in, Permutation_sym; exact P]. }
  intros [(Q1 & Q2 & Q3)|Q]; [left|right; exact Q].
  split; [intros ->; apply Permutation_sym, Permutation_nil in P; auto|]. split; [exact Q2|].
  destruct Q3 as [Q3|((m & Q3) & Q4)]; [left|right].
  - intros m Hm. apply Q3, I, Hm.
  - split; [exists m; rewrite <- I; exact Q3|]. intros m' Hm. apply Q4, I, Hm.
Qed.

Definition decides (E : env (V:=V)) (c : conf) (f : st -> prog st) : Prop :=
  forall s s', returns (f s) s' -> exists x,
    (s_conv s' = true <-> converged (c_minIt c) (s_it s) (c_maxIt c) (combine (c_measures c) (e_measure E x))) /\
    (strict_failed (combine (c_measures c) (e_measure E x)) -> exists mx, c_maxIt c = Some mx /\ s_it s < mx).
Definition keepsconv (f : st -> prog st) : Prop := forall s s', returns (f s) s' -> s_conv s' = s_conv s.

Lemma ser_first_decides E c : c_first c = false -> c_implicit c = true -> decides E c (ser_first gnone E c).
Proof.
  intros Hf Hi s s' H. unfold ser_first in H. rewrite Hf, Hi in H. rb H. rb H. rb H.
  apply sendData_keeps in H as (_ & ->). exists s. apply implicit_spec in H0. exact H0.
Qed.

Lemma ser_second_keepsconv c : c_first c = false -> c_implicit c = true -> keepsconv (ser_second gnone c).
Proof.
  intros Hf Hi s s' H. unfold ser_second in H. rewrite Hf, Hi in H. rb H. rb H.
  cbn [returns] in H0. subst x. apply storeIteration_keeps in H1. subst x0.
  assert (Q : forall b : bool, s_conv (if b then moveToNextWindow s else s) = s_conv s) by (intros []; reflexivity).
  set (x := if s_conv s then moveToNextWindow s else s) in *. assert (Qx : s_conv x = s_conv s) by apply Q. clearbody x.
  destruct (_ && _).
  - rb H. rb H. rb H. apply notify_keeps in H as (_ & ->). apply recvTWS_spec in H0 as (_ & W & _).
    rewrite <- Qx, <- W. destruct (s_conv x0) eqn:Z0; [apply windowEnd_keeps in H2|apply receiveData_keeps in H2]; destruct H2 as (_ & H2); rewrite H2; exact Z0.
  - cbn [returns] in H. subst s'. exact Qx.
Qed.

Lemma par_second_decides E c : c_first c = false -> c_implicit c = true -> decides E c (par_second gnone E c).
Proof.
  intros Hf Hi s s' H. unfold par_second in H. rewrite Hf, Hi in H. rb H. rb H. apply storeIteration_keeps in H. subst s'.
  rb H1. rb H1. apply sendData_keeps in H1 as (_ & W). exists s. apply implicit_spec in H.
  assert (Q : forall b : bool, s_conv (if b then moveToNextWindow x0 else x0) = s_conv x0) by (intros []; reflexivity).
  rewrite Q, W. exact H.
Qed.

Lemma advance_decides E c e1 e2 dt (s s' : st) :
  hook1 c e1 -> c_sets c = false -> c_implicit c = true ->
  (decides E c e1 /\ keepsconv e2) \/ decides E c e2 ->
  returns (advance E e1 e2 c dt s) s' ->
  reachedEndOfTimeWindow c (set_s_time (th_progressBy dt (s_time s)) s) = true ->
  exists x,
    (s_conv s' = true <-> converged (c_minIt c) (s_it s) (c_maxIt c) (combine (c_measures c) (e_measure E x))) /\
    (strict_failed (combine (c_measures c) (e_measure E x)) -> exists mx, c_maxIt c = Some mx /\ s_it s < mx).
Proof.
  intros K1 Fs Hi D H Re. unfold advance in H. rb H. rb H. rb H. rb H.
  match goal with Q : returns (addComputedTime _ _ _) _ |- _ =>
    unfold addComputedTime in Q; rb Q; rb Q; cbn [returns] in Q; subst x2 end.
  rb H. rb H. rb H. apply after_keeps in H as (_ & ->).
  match goal with Q : returns (handleDataBeforeAdvance _ _ _ _ _) ?y |- _ =>
    apply before_keeps in Q; rename Q into Kb; rename y into s2 end.
  match goal with Q : returns (firstExchange _ _ _) ?y |- _ => rename y into s3; rename Q into Hf end.
  match goal with Q : returns (secondExchange _ _ _) ?y |- _ => rename y into s4; rename Q into Hs end.
  unfold firstExchange in Hf. rb Hf.
  match goal with Q : returns (checkCompleteness _) _ |- _ => apply check_spec in Q as (-> & _) end.
  rewrite (reached_eq c (set_s_time (th_progressBy dt (s_time s)) s)) in Hf;
    [|unfold keeps, same_ctl in Kb; cbn in *; tauto|unfold keeps, same_ctl in Kb; cbn in *; tauto].
  rewrite Re in Hf.
  pose proof (K1 _ _ Hf) as (Kf & Kt). rewrite Fs in Kt.
  unfold secondExchange in Hs. rb Hs.
  match goal with Q : returns (checkCompleteness _) _ |- _ => apply check_spec in Q as (-> & _) end.
  rb Hs.
  rewrite (reached_eq c (set_s_time (th_progressBy dt (s_time s)) s)) in Hs;
    [|unfold keeps, same_ctl in *; cbn in *; intuition congruence|unfold keeps, same_ctl in *; cbn in *; intuition congruence].
  rewrite Re in Hs. rb Hs. rb Hs. cbn [returns] in Hs. subst s4. cbn [logIteration set_s_hist s_conv].
  match goal with Q : returns (afterSecond _ ?a) ?b |- _ => rename Q into Ha; rename a into s5; rename b into s6 end.
  match goal with Q : returns (e2 _) s5 |- _ => rename Q into He2 end.
  assert (Ec : s_conv s6 = s_conv s5).
  { unfold afterSecond in Ha. rb Ha. rb Ha. rb Ha. cbn [returns] in Ha. subst s6. cbn [set_s_tws s_conv].
    rewrite Hi in *.
    match goal with Q : returns (bind (assert_ _ 27) _) _ |- _ => rb Q; cbn [returns] in Q; subst end.
    match goal with Q : returns (if s_compl ?a then _ else _) ?b |- _ => assert (W : s_conv b = s_conv a);
      [destruct (s_compl a); [destruct (s_tws a); [|destruct Q]; destruct (th_completeTimeWindow _ _ _); [|destruct Q]|]; cbn [returns] in Q; subst b; reflexivity|] end.
    rewrite W. cbn [set_s_it set_s_tot s_conv]. destruct (s_conv s5) eqn:Z5; [|cbn; exact Z5].
    destruct (isCouplingOngoing c (set_s_compl true s5)); cbn; exact Z5. }
  rewrite Ec.
  destruct D as [(D1 & D2)|D].
  - apply D2 in He2. rewrite He2. cbn [set_s_ful set_s_req s_conv]. apply D1 in Hf as (y & Hf). exists y.
    cbn [set_s_windows s_it] in Hf.
    replace (s_it s) with (s_it s2); [exact Hf|]. unfold keeps, same_ctl in *; cbn in *; intuition congruence.
  - apply D in He2 as (y & He2). exists y.
    cbn [set_s_ful set_s_req s_it] in He2.
    replace (s_it s) with (s_it s3); [exact He2|]. unfold keeps, same_ctl in *; cbn in *; intuition congruence.
Qed.

Lemma p_advance_decides k E c w dt h s s' : fixed k c w -> run gnone vzero k c h s ->
  c_first c = false -> c_implicit c = true ->
  returns (p_advance gnone k E c dt s) s' -> window_end c w h dt ->
  exists x,
    (s_conv s' = true <-> converged (c_minIt c) (iteration h) (c_maxIt c) (combine (c_measures c) (e_measure E x))) /\
    (strict_failed (combine (c_measures c) (e_measure E x)) -> exists mx, c_maxIt c = Some mx /\ iteration h < mx).
Proof.
  intros F R Hf Hi H We. pose proof (run_inv _ _ _ _ _ _ _ F R) as I.
  apply (reached_window_end _ _ _ _ _ _ _ _ F R H) in We.
  rewrite <- (i_it _ _ _ _ I).
  destruct (fixed_flags _ _ _ F) as (Fs & Fr). pose proof F as (Fw & Fe & Ft).
  eapply advance_decides; [apply ex1_hook; exact Fw|exact Fs|exact Hi| |exact H|exact We].
  destruct k; [left; split; [apply ser_first_decides|apply ser_second_keepsconv]|right; apply par_second_decides]; assumption.
Qed.

(** C10 *)
Theorem iterations_bounded k c w h s mx : fixed k c w -> run gnone vzero k c h s ->
  c_first c = false -> c_implicit c = true -> c_maxIt c = Some mx -> 1 <= mx ->
  1 <= iteration h <= mx.
Proof.
  intros F R Hf Hi Hm M1.
  induction R as [E s' H|E s' H|h s R IH|h s R IH|h s E dt s' R IH H]; try (cbn [iteration]; lia || assumption).
  destruct (complete_iff _ _ _ _ _ _ _ _ F R H) as (C1 & C2 & _).
  cbn [iteration]. destruct (o_complete (observe c s')) eqn:Oc; [lia|].
  destruct (o_read (observe c s')) eqn:Or; [|exact IH].
  destruct C2 as (C2 & _). destruct (C2 eq_refl) as (We & _ & Nc).
  destruct (p_advance_decides _ _ _ _ _ _ _ _ F R Hf Hi H We) as (x & D & _).
  assert (iteration h <> mx); [|lia]. intros Q.
  assert (s_conv s' = true) by (apply D; right; congruence). congruence.
Qed.

Theorem completed_after_min k c w h s E dt s' mx : fixed k c w -> run gnone vzero k c h s ->
  c_first c = false -> c_implicit c = true ->
  returns (p_advance gnone k E c dt s) s' -> o_complete (observe c s') = true ->
  c_maxIt c = mx -> (forall m, mx = Some m -> c_minIt c <= m) ->
  c_minIt c <= iteration h.
Proof.
  intros F R Hf Hi H Oc Hm Hmin.
  destruct (complete_iff _ _ _ _ _ _ _ _ F R H) as (C1 & _). apply C1 in Oc as (We & Cv). specialize (Cv Hi).
  destruct (p_advance_decides _ _ _ _ _ _ _ _ F R Hf Hi H We) as (x & D & _).
  apply D in Cv as [(_ & Q & _)|Q]; [exact Q|]. apply Hmin. congruence.
Qed.

End R.
