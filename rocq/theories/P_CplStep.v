(** Symbolic execution of advance() when nothing goes wrong. *)
From Coq Require Import ZArith Bool List Lia.
From Verif Require Import M_Net M_Time M_Wave M_Cpl P_Pair P_CplData.
Import ListNotations.
Open Scope Z_scope.
Open Scope proc_scope.

Section Step.
Context {V : Type}.
Variables (gnone vzero : V).
Notation st := (st (V:=V)).
Notation prog := (proc (msg V)).

Definition ready (s : st) : Prop := 
  (a_init (s_req s) = true -> a_init (s_ful s) = true) /\
  (a_read (s_req s) = true -> a_read (s_ful s) = true) /\
  (a_write (s_req s) = true -> a_write (s_ful s) = true).

Lemma check_ready (s : st) : ready s -> checkCompleteness s = PRet (set_s_ful no_acts (set_s_req no_acts s)).
Proof.
  intros (A & B & C). unfold checkCompleteness, check_, echeck.
  destruct (a_init (s_req s)); [rewrite A by reflexivity|]; cbn [negb orb bind];
  (destruct (a_read (s_req s)); [rewrite B by reflexivity|]; cbn [negb orb bind]);
  (destruct (a_write (s_req s)); [rewrite C by reflexivity|]; cbn [negb orb bind]); reflexivity.
Qed.

Definition answered (s : st) : st := answerWrite (answerRead s).

Lemma answered_ready (s : st) : (a_init (s_req s) = true -> a_init (s_ful s) = true) -> ready (answered s).
Proof.
  intros H. unfold ready, answered, answerWrite, answerRead.
  destruct (a_read (s_req s)) eqn:R; cbn; destruct (a_write (s_req s)) eqn:W; cbn; rewrite ?R, ?W; repeat split; auto; congruence.
Qed.

(** [answered] changes nothing but the fulfilled actions *)
Lemma answered_eq (s : st) : exists f, answered s = set_s_ful f s.
Proof.
  unfold answered, answerWrite, answerRead. destruct (a_read (s_req s)); cbn; destruct (a_write (s_req s)); cbn.
  - eexists. reflexivity.
  - eexists. reflexivity.
  - eexists. reflexivity.
  - exists (s_ful s). destruct s. reflexivity.
Qed.

(** state in which the first exchange starts *)
Definition entered (dt : Z) (ws : list (wave (smp V))) (s : st) : st :=
  set_s_compl false (set_s_recvd false (set_s_ful no_acts (set_s_req no_acts
    (set_s_send ws (set_s_time (th_progressBy dt (s_time s)) s))))).
Definition cleared (s : st) : st := set_s_ful no_acts (set_s_req no_acts s).

Lemma cleared_ready (s : st) : s_req s = no_acts -> checkCompleteness s = PRet (cleared s).
Proof. intros H. apply check_ready. unfold ready. rewrite H. repeat split; discriminate. Qed.

Definition accepts (c : conf) (dt : Z) (s : st) : Prop :=
  isCouplingOngoing c s = true /\ c_eps c < dt /\
  match getMaxTimeStepSize c s with None => True | Some m => dt <= m + c_eps c end.

Definition entry (c : conf) (E : env (V:=V)) (dt : Z) (s : st) : prog st :=
  handleDataBeforeAdvance E c (reachedEndOfTimeWindow c (set_s_time (th_progressBy dt (s_time s)) s)) s (set_s_time (th_progressBy dt (s_time s)) s).

Lemma advance_unfold E e1 e2 c dt (s : st) : 0 <= c_eps c -> accepts c dt s ->
  advance E e1 e2 c dt s =
    (let s1 := set_s_time (th_progressBy dt (s_time s)) s in
     let atEnd := reachedEndOfTimeWindow c s1 in
     s2 <- handleDataBeforeAdvance E c atEnd s s1 ;;
     s3 <- firstExchange e1 c s2 ;;
     s4 <- secondExchange e2 c s3 ;;
     handleDataAfterAdvance c atEnd (th_time (s_time s1)) s4).
Proof.
  intros E0 (O & D & Mx). unfold advance. rewrite O. cbn [check_ bind].
  unfold equals. destruct (Z.leb_spec (Z.abs (dt - 0)) (c_eps c)) as [L|L]; [lia|]. cbn [negb check_ bind].
  destruct (Z.ltb_spec 0 dt) as [P|P]; [|lia]. cbn [check_ bind].
  unfold addComputedTime. rewrite O. cbn [assert_ bind].
  destruct (getMaxTimeStepSize c s) as [m|]; [|reflexivity].
  unfold greaterEquals. destruct (Z.leb_spec (- c_eps c) (m - dt)) as [Q|Q]; [reflexivity|lia].
Qed.

(** a step that stays inside the window communicates nothing *)
Lemma advance_sub E e1 e2 c dt (s : st) TS : 0 <= c_eps c -> accepts c dt s -> ready s ->
  reachedEndOfTimeWindow c (set_s_time (th_progressBy dt (s_time s)) s) = false ->
  sshape (length (c_send c)) TS (s_send s) -> below (c_eps c) (th_time (s_time s) + dt) TS ->
  exists ws TS', advance E e1 e2 c dt s = PRet (cleared (entered dt ws s)) /\
    sshape (length (c_send c)) TS' ws /\
    TS' = (if requiresSubsteps c then TS ++ [th_time (s_time s) + dt] else TS).
Proof.
  intros E0 A R Nr Sh B. rewrite advance_unfold by assumption. cbv zeta. rewrite Nr.
  assert (Q : exists ws, handleDataBeforeAdvance E c false s (set_s_time (th_progressBy dt (s_time s)) s) =
            PRet (set_s_send ws (set_s_time (th_progressBy dt (s_time s)) s)) /\
            sshape (length (c_send c)) (if requiresSubsteps c then TS ++ [th_time (s_time s) + dt] else TS) ws).
  { unfold handleDataBeforeAdvance. cbn [orb]. destruct (requiresSubsteps c).
    - destruct (writeAll_ok (c_eps c) (th_time (s_time s) + dt) (e_write E s) TS E0 B (s_send s) 0%nat _ Sh) as (ws & H1 & H2).
      exists ws. split; [|exact H2]. cbn [s_send set_s_time].
      replace (th_time (s_time (set_s_time (th_progressBy dt (s_time s)) s))) with (th_time (s_time s) + dt)
        by (unfold th_time, th_progressBy; cbn; lia).
      rewrite H1. reflexivity.
    - exists (s_send s). split; [destruct s; reflexivity|exact Sh]. }
  destruct Q as (ws & Q1 & Q2). exists ws, (if requiresSubsteps c then TS ++ [th_time (s_time s) + dt] else TS).
  split; [|split; [exact Q2|reflexivity]].
  rewrite Q1. cbn [bind]. unfold firstExchange.
  rewrite check_ready by exact R. cbn [bind].
  change (reachedEndOfTimeWindow c (set_s_compl false (set_s_recvd false (set_s_ful no_acts (set_s_req no_acts
    (set_s_send ws (set_s_time (th_progressBy dt (s_time s)) s)))))))
   with (reachedEndOfTimeWindow c (set_s_time (th_progressBy dt (s_time s)) s)).
  rewrite Nr. cbn [bind]. unfold secondExchange.
  rewrite cleared_ready by reflexivity. cbn [bind]. cbn [s_compl cleared set_s_ful set_s_req set_s_compl negb assert_ bind].
  match goal with |- context [reachedEndOfTimeWindow c ?x] =>
    change (reachedEndOfTimeWindow c x) with (reachedEndOfTimeWindow c (set_s_time (th_progressBy dt (s_time s)) s)) end.
  rewrite Nr. reflexivity.
Qed.

Definition finish (c : conf) (stepped : Z) (s1 : st) : prog st :=
  s4 <- (s2 <- afterSecond c s1 ;; PRet (logIteration c s2)) ;; handleDataAfterAdvance c true stepped s4.

(** a step to the window end *)
Lemma advance_end E e1 e2 c dt (s : st) TS : 0 <= c_eps c -> accepts c dt s -> ready s ->
  reachedEndOfTimeWindow c (set_s_time (th_progressBy dt (s_time s)) s) = true ->
  sshape (length (c_send c)) TS (s_send s) -> below (c_eps c) (th_time (s_time s) + dt) TS ->
  exists ws, 
    advance E e1 e2 c dt s =
      (s3 <- e1 (set_s_windows (s_windows s + 1) (entered dt ws s)) ;;
       s4 <- secondExchange e2 c s3 ;;
       handleDataAfterAdvance c true (th_time (s_time s) + dt) s4) /\
    sshape (length (c_send c)) (TS ++ [th_time (s_time s) + dt]) ws.
Proof.
  intros E0 A R Re Sh B. rewrite advance_unfold by assumption. cbv zeta. rewrite Re.
  destruct (writeAll_ok (c_eps c) (th_time (s_time s) + dt) (e_write E s) TS E0 B (s_send s) 0%nat _ Sh) as (ws & H1 & H2).
  exists ws. split; [|exact H2].
  assert (Q : th_time (s_time (set_s_time (th_progressBy dt (s_time s)) s)) = th_time (s_time s) + dt)
    by (unfold th_time, th_progressBy; cbn; lia).
  unfold handleDataBeforeAdvance. cbn [orb]. rewrite Q. cbn [s_send set_s_time]. rewrite H1. cbn [bind].
  unfold firstExchange. rewrite check_ready by exact R. cbn [bind].
  match goal with |- context [reachedEndOfTimeWindow c ?x] =>
    change (reachedEndOfTimeWindow c x) with (reachedEndOfTimeWindow c (set_s_time (th_progressBy dt (s_time s)) s)) end.
  rewrite Re. reflexivity.
Qed.

Lemma second_end e2 c stepped (s3 : st) : s_req s3 = no_acts -> s_compl s3 = false ->
  reachedEndOfTimeWindow c s3 = true ->
  (s4 <- secondExchange e2 c s3 ;; handleDataAfterAdvance c true stepped s4) =
  (s4 <- (s1 <- e2 (cleared s3) ;; s2 <- afterSecond c s1 ;; PRet (logIteration c s2)) ;;
   handleDataAfterAdvance c true stepped s4).
Proof.
  intros Q C R. unfold secondExchange. rewrite cleared_ready by exact Q. cbn [bind].
  cbn [s_compl cleared set_s_ful set_s_req]. rewrite C. cbn [negb assert_ bind].
  change (reachedEndOfTimeWindow c (cleared s3)) with (reachedEndOfTimeWindow c s3). rewrite R. reflexivity.
Qed.

Definition stamps_from (eps t : Z) (l : list Z) := forall u, In u l -> t - eps <= u.

Lemma filter_from eps t l : stamps_from eps t l -> filter (fun v => negb (smaller eps v t)) l = l.
Proof.
  induction l as [|a l IH]; intros H; [reflexivity|]. cbn. unfold smaller at 1.
  pose proof (H a (or_introl eq_refl)). destruct (Z.ltb_spec (a - t) (- eps)); [lia|]. cbn. f_equal.
  apply IH. intros u Hu. apply H. right. exact Hu.
Qed.

(** completing a window *)
Lemma finish_complete_g c (s : st) ws p w u : 0 <= c_eps c ->
  s_time s = TH (c_maxTime c) ws p -> s_tws s = Some w ->
  s_req s = no_acts ->
  s_compl s = false -> (c_implicit c = true -> s_conv s = true) ->
  negb (isCouplingOngoing c s) || s_recvd s = true ->
  Z.abs (p - w) <= c_eps c \/ th_reachedEnd (c_eps c) (s_time s) = true ->
  let ws' := if Z.abs (p - w) <=? c_eps c then ws + w else ws + p in
  ws + p <= ws' + c_eps c ->
  sshape (length (c_send c)) [u] (s_send s) -> ws' - c_eps c <= u ->
  exists s', finish c (ws + p) s = PRet s' /\
    s_time s' = TH (c_maxTime c) ws' 0 /\ s_windows s' = s_windows s /\
    s_tws s' = s_next s /\ s_next s' = s_next s /\ a_init (s_req s') = false /\
    s_it s' = (if c_implicit c then 1 else s_it s) /\
    s_compl s' = true /\
    a_write (s_req s') = c_implicit c && isCouplingOngoing c s /\ a_read (s_req s') = false /\
    sshape (length (c_send c)) [u] (s_send s') /\ s_recv s' = map (fun w0 => w_trimBefore (c_eps c) w0 ws') (s_recv s) /\
    s_hist s' = s_hist s ++ [Hist ws' (s_windows s) true (isCouplingOngoing c s')] /\
    s_sent s' = s_sent s /\ s_rcvd s' = s_rcvd s.
Proof.
  intros E0 Ht Hw Hr Hc Hcv Ho Hend ws' Le Sh Lu.
  assert (Hct : th_completeTimeWindow (c_eps c) (s_time s) w = Some (TH (c_maxTime c) ws' 0)).
  { unfold th_completeTimeWindow, equals, ws'. rewrite Ht in *. cbn [th_prog th_max th_start].
    destruct (Z.leb_spec (Z.abs (p - w)) (c_eps c)); [reflexivity|].
    destruct Hend as [Hend|Hend]; [lia|]. rewrite Hend. reflexivity. }
  set (on := isCouplingOngoing c s).
  set (req := if c_implicit c && on then Acts false false true else no_acts).
  assert (Q : exists sx, afterSecond c s = PRet sx /\
     s_time sx = TH (c_maxTime c) ws' 0 /\ s_windows sx = s_windows s /\ s_tws sx = s_next s /\ s_next sx = s_next s /\
     s_req sx = req /\ s_compl sx = true /\ s_send sx = s_send s /\ s_recv sx = s_recv s /\
     s_hist sx = s_hist s /\ s_sent sx = s_sent s /\ s_rcvd sx = s_rcvd s /\
     s_it sx = (if c_implicit c then 1 else s_it s)).
  { unfold afterSecond, req, on. destruct (c_implicit c) eqn:Hi.
    - rewrite (Hcv eq_refl). cbn [orb assert_ bind].
      change (isCouplingOngoing c (set_s_compl true s)) with (isCouplingOngoing c s).
      destruct (isCouplingOngoing c s) eqn:On.
      + match goal with |- context [isCouplingOngoing c ?x] =>
          change (isCouplingOngoing c x) with (isCouplingOngoing c s) end. rewrite On.
        cbn [s_recvd set_s_it set_s_tot requireWrite set_s_req set_s_compl].
        cbn [negb orb] in Ho. rewrite Ho. cbn [negb orb assert_ bind s_compl set_s_it set_s_tot requireWrite set_s_req set_s_compl s_tws s_time].
        rewrite Hw, Hct. cbn [bind andb]. eexists. split; [reflexivity|]. cbn. rewrite Hr. repeat split.
      + match goal with |- context [isCouplingOngoing c ?x] =>
          change (isCouplingOngoing c x) with (isCouplingOngoing c s) end. rewrite On.
        cbn [negb orb assert_ bind s_compl set_s_it set_s_tot requireWrite set_s_req set_s_compl s_tws s_time].
        rewrite Hw, Hct. cbn [bind andb]. eexists. split; [reflexivity|]. cbn. rewrite Hr. repeat split.
    - cbn [bind]. change (isCouplingOngoing c (set_s_compl true s)) with (isCouplingOngoing c s).
      cbn [s_recvd set_s_compl]. rewrite Ho. cbn [assert_ bind s_compl set_s_compl s_tws s_time]. rewrite Hw, Hct.
      cbn [bind andb]. eexists. split; [reflexivity|]. cbn. rewrite Hr. repeat split. }
  destruct Q as (sx & Q0 & Q1 & Q2 & Q3 & Q4 & Q5 & Q6 & Q7 & Q8 & Q9 & Q10 & Q11 & Q12).
  unfold finish. rewrite Q0. cbn [bind]. unfold handleDataAfterAdvance. cbn [negb].
  change (s_compl (logIteration c sx)) with (s_compl sx). rewrite Q6.
  change (s_time (logIteration c sx)) with (s_time sx). rewrite Q1.
  unfold greaterEquals, th_time. cbn [th_start th_prog].
  destruct (Z.leb_spec (- c_eps c) (ws' + 0 - (ws + p))) as [L|L]; [|exfalso; subst ws'; lia].
  cbn [assert_ bind]. eexists. split; [reflexivity|].
  cbn [s_time s_windows s_tws s_next s_req s_it s_compl s_send s_recv s_hist s_sent s_rcvd logIteration set_s_hist set_s_recv set_s_send].
  rewrite Q2, Q3, Q4, Q5, Q7, Q8, Q9, Q10, Q11, Q12.
  split; [exact Q1|]. split; [reflexivity|]. split; [reflexivity|]. split; [reflexivity|].
  split; [unfold req; destruct (c_implicit c && on); reflexivity|]. split; [reflexivity|]. split; [exact Q6|].
  split; [unfold req; destruct (c_implicit c && on); reflexivity|].
  split; [unfold req; destruct (c_implicit c && on); reflexivity|].
  split.
  { eapply sshape_map; [|exact Sh]. intros w0 H0. unfold w_trimBefore.
    rewrite (filter_stamps w0 (fun v => negb (smaller (c_eps c) v ws'))), H0. apply filter_from. intros v [<-|[]]. exact Lu. }
  split; [reflexivity|].
  rewrite Q1, Q6. repeat split.
Qed.

Lemma finish_complete c (s : st) ws p w u TB TN : 0 <= c_eps c ->
  s_time s = TH (c_maxTime c) ws p -> s_tws s = Some w ->
  s_req s = no_acts ->
  s_compl s = false -> (c_implicit c = true -> s_conv s = true) ->
  negb (isCouplingOngoing c s) || s_recvd s = true ->
  Z.abs (p - w) <= c_eps c \/ th_reachedEnd (c_eps c) (s_time s) = true ->
  let ws' := if Z.abs (p - w) <=? c_eps c then ws + w else ws + p in
  ws + p <= ws' + c_eps c ->
  sshape (length (c_send c)) [u] (s_send s) -> ws' - c_eps c <= u ->
  rshape (c_recv c) TB TN (s_recv s) -> stamps_from (c_eps c) ws' TB -> stamps_from (c_eps c) ws' TN ->
  exists s', finish c (ws + p) s = PRet s' /\
    s_time s' = TH (c_maxTime c) ws' 0 /\ s_windows s' = s_windows s /\
    s_tws s' = s_next s /\ s_next s' = s_next s /\ a_init (s_req s') = false /\
    s_it s' = (if c_implicit c then 1 else s_it s) /\
    s_compl s' = true /\
    a_write (s_req s') = c_implicit c && isCouplingOngoing c s /\ a_read (s_req s') = false /\
    sshape (length (c_send c)) [u] (s_send s') /\ rshape (c_recv c) TB TN (s_recv s') /\
    s_hist s' = s_hist s ++ [Hist ws' (s_windows s) true (isCouplingOngoing c s')] /\
    s_sent s' = s_sent s /\ s_rcvd s' = s_rcvd s.
Proof.
  intros E0 Ht Hw Hr Hc Hcv Ho Hend ws' Le Sh Lu Rsh F1 F2.
  destruct (finish_complete_g c s ws p w u E0 Ht Hw Hr Hc Hcv Ho Hend Le Sh Lu)
    as (s' & A0 & A1 & A2 & A3 & A4 & A5 & A6 & A7 & A8 & A9 & A10 & A11 & A12).
  exists s'. repeat (split; [assumption|]). split; [|exact A12]. rewrite A11.
  eapply rshape_map; [| |exact Rsh]; intros w0 H0; unfold w_trimBefore; fold ws';
    rewrite (filter_stamps w0 (fun v => negb (smaller (c_eps c) v ws'))), H0; apply filter_from; assumption.
Qed.

(** repeating a window *)
Lemma finish_repeat_g c (s : st) ws p TS : 0 <= c_eps c ->
  s_time s = TH (c_maxTime c) ws p -> s_req s = no_acts ->
  c_implicit c = true -> s_conv s = false -> s_recvd s = true ->
  c_eps c < p ->
  sshape (length (c_send c)) (ws :: TS) (s_send s) -> (forall u, In u TS -> ws + c_eps c < u) ->
  exists s', finish c (ws + p) s = PRet s' /\
    s_time s' = TH (c_maxTime c) ws 0 /\ s_windows s' = s_windows s - 1 /\
    s_tws s' = s_next s /\ s_next s' = s_next s /\ a_init (s_req s') = false /\
    s_it s' = s_it s + 1 /\
    s_compl s' = false /\ a_write (s_req s') = false /\ a_read (s_req s') = true /\
    sshape (length (c_send c)) [ws] (s_send s') /\ s_recv s' = s_recv s /\
    s_hist s' = s_hist s ++ [Hist ws (s_windows s - 1) false (isCouplingOngoing c s')] /\
    s_sent s' = s_sent s /\ s_rcvd s' = s_rcvd s.
Proof.
  intros E0 Ht Hr Hi Hcv Hrv Hp Sh Ha.
  unfold finish, afterSecond. rewrite Hi, Hcv. cbn [orb].
  rewrite Ht. unfold greater, th_time. cbn [th_start th_prog].
  destruct (Z.ltb_spec (c_eps c) (ws + p - ws)) as [L|L]; [|lia]. cbn [assert_ bind].
  cbn [s_recvd set_s_it set_s_tot set_s_compl set_s_windows requireRead set_s_req]. rewrite Hrv, orb_true_r. cbn [assert_ bind].
  cbn [s_compl set_s_it set_s_tot set_s_compl bind s_time set_s_windows requireRead set_s_req s_tws s_next set_s_time set_s_tws].
  rewrite Ht. unfold handleDataAfterAdvance. cbn [negb].
  cbn [s_compl logIteration set_s_hist set_s_tws set_s_time set_s_it set_s_tot set_s_compl s_time th_time th_resetProgress th_start th_prog th_max].
  unfold greater, th_time, th_resetProgress. cbn [th_start th_prog th_max].
  destruct (Z.ltb_spec (c_eps c) (ws + p - (ws + 0))) as [L'|L']; [|lia]. cbn [assert_ bind].
  eexists. split; [reflexivity|]. cbn [s_time s_windows s_tws s_next s_req s_it s_compl s_send s_recv s_hist s_sent s_rcvd 
    logIteration set_s_hist set_s_recv set_s_send set_s_tws set_s_time set_s_it set_s_tot set_s_compl set_s_windows requireRead set_s_req a_init a_read a_write].
  rewrite Hr. repeat (split; [reflexivity|]).
  split; [|split; [reflexivity|repeat split]].
  eapply sshape_map; [|exact Sh]. intros w0 H0. unfold w_trimAfter.
  rewrite (filter_stamps w0 (fun v => negb (greater (c_eps c) v (ws + 0)))), H0, Z.add_0_r. apply trimAfter_first; assumption.
Qed.

Lemma finish_repeat c (s : st) ws p TS TB TN : 0 <= c_eps c ->
  s_time s = TH (c_maxTime c) ws p -> s_req s = no_acts ->
  c_implicit c = true -> s_conv s = false -> s_recvd s = true ->
  c_eps c < p ->
  sshape (length (c_send c)) (ws :: TS) (s_send s) -> (forall u, In u TS -> ws + c_eps c < u) ->
  rshape (c_recv c) TB TN (s_recv s) ->
  exists s', finish c (ws + p) s = PRet s' /\
    s_time s' = TH (c_maxTime c) ws 0 /\ s_windows s' = s_windows s - 1 /\
    s_tws s' = s_next s /\ s_next s' = s_next s /\ a_init (s_req s') = false /\
    s_it s' = s_it s + 1 /\
    s_compl s' = false /\ a_write (s_req s') = false /\ a_read (s_req s') = true /\
    sshape (length (c_send c)) [ws] (s_send s') /\ rshape (c_recv c) TB TN (s_recv s') /\
    s_hist s' = s_hist s ++ [Hist ws (s_windows s - 1) false (isCouplingOngoing c s')] /\
    s_sent s' = s_sent s /\ s_rcvd s' = s_rcvd s.
Proof.
  intros E0 Ht Hr Hi Hcv Hrv Hp Sh Ha Rsh.
  destruct (finish_repeat_g c s ws p TS E0 Ht Hr Hi Hcv Hrv Hp Sh Ha)
    as (s' & A0 & A1 & A2 & A3 & A4 & A5 & A6 & A7 & A8 & A9 & A10 & A11 & A12).
  exists s'. repeat (split; [assumption|]). split; [rewrite A11; exact Rsh|exact A12].
Qed.

End Step.
