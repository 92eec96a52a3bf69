(** Serial coupling of two participants (C13, C14, C18). *)
From Coq Require Import ZArith Bool List Lia.
From Verif Require Import M_Net M_Time M_Wave M_Cpl S_Prog S_Cpl S_Net P_Prog P_Net P_Pair P_Log P_NetLift P_CplData P_CplStep P_CplWin P_NetPar.
Import ListNotations.
Open Scope Z_scope.

Lemma pair_returns {M A B} i j (p : proc M A) (q : proc M B) p' s : pair i j p q p' (PRet s) -> returns q s.
Proof.
  intros H. remember (PRet s) as q'. revert Heqq'. induction H as [p q|m k f p' q' H IH|m k f p' q' H IH]; intros E; subst.
  - reflexivity.
  - cbn. exists m. apply IH. reflexivity.
  - cbn. apply IH. reflexivity.
Qed.

Section Ser.
Context {V : Type}.
Variables (gnone vzero : V).
Notation st := (st (V:=V)).
Variables (cA cB : conf) (EA EB : env (V:=V)).
Variables (fp : bool) (w0 : Z) (f : Z -> Z).
Hypothesis HP : partners cA cB.
Hypothesis HA : exact_solver cA EA.
Hypothesis HB : exact_solver cB EB.
Hypothesis HM : c_implicit cB = true -> measures_ok cB EB.
Definition all_sub : Prop := forall d, In d (c_send cA) -> d_sub d = true.
Hypothesis Hmode :
  if fp then first_participant cA cB /\ forall s, e_dt EA s = f (th_start (s_time s))
  else fixed_window w0 cA cB /\
       (c_implicit cA = true -> all_sub \/ forall T, c_maxTime cA = Some T -> (w0 | T)).
Notation body := (couple gnone Serial cA cB EA EB).

Definition ww (ws : Z) : Z := if fp then f ws else w0.
Definition LL (ws : Z) : Z := wlen cA (ww ws) ws.
Definition otws : option Z := if fp then None else Some w0.
Definition XX (ws : Z) : Z := if c_implicit cA then ws + LL ws else ws + ww ws.

Record good (ws n : Z) : Prop := {
  gd_win : winok cA n;
  gd_len : c_eps cA < LL ws;
  gd_cut : c_implicit cA = true -> LL ws = ww ws \/ all_sub;
  gd_fp : fp = true -> LL ws = ww ws;
  gd_al : fp = false -> (w0 | ws)
}.

Record Begin (c : conf) (o : option Z) (ws n : Z) (TB TN : list Z) (s : st) : Prop := {
  bn_time : s_time s = TH (c_maxTime c) ws 0;
  bn_windows : s_windows s = n;
  bn_tws : s_tws s = o;
  bn_next : s_next s = o;
  bn_init : a_init (s_req s) = true -> a_init (s_ful s) = true;
  bn_send : sshape (length (c_send c)) [ws] (s_send s);
  bn_recv : rshape (c_recv c) TB TN (s_recv s)
}.

Record AtEnd (c : conf) (o : option Z) (ws n : Z) (TS TB TN : list Z) (x : st) : Prop := {
  ae_time : s_time x = TH (c_maxTime c) ws (LL ws);
  ae_windows : s_windows x = n + 1;
  ae_tws : s_tws x = o;
  ae_next : s_next x = o;
  ae_req : s_req x = no_acts;
  ae_compl : s_compl x = false;
  ae_recvd : s_recvd x = false;
  ae_send : sshape (length (c_send c)) TS (s_send x);
  ae_recv : rshape (c_recv c) TB TN (s_recv x)
}.

Definition stampsA (ws : Z) (TS : list Z) : Prop :=
  exists r, TS = ws :: r ++ [ws + LL ws] /\ spaced (c_eps cA) TS.

Lemma E0 : 0 <= c_eps cA. Proof. apply HP. Qed.
Lemma EB0 : c_eps cB = c_eps cA. Proof. apply HP. Qed.
Lemma E0B : 0 <= c_eps cB. Proof. rewrite EB0. exact E0. Qed.
Lemma wB w ws : wlen cB w ws = wlen cA w ws.
Proof. unfold wlen. rewrite (pt_maxTime _ _ HP). reflexivity. Qed.
Lemma LL_le ws : LL ws <= ww ws.
Proof. unfold LL, wlen. destruct (c_maxTime cA); lia. Qed.

Lemma rshape_sub (TB TN TN' : list Z) (ws : list (wave (smp V))) : all_sub -> rshape (c_recv cB) TB TN ws -> rshape (c_recv cB) TB TN' ws.
Proof.
  unfold all_sub. rewrite <- (pt_AB _ _ HP). unfold rshape. intros H F. induction F as [|d w ds wr F1 F2 IH]; constructor.
  - rewrite (H d (or_introl eq_refl)) in *. exact F1.
  - apply IH. intros d' Hd. apply H. right. exact Hd.
Qed.

(** A runs to its last step of the window *)
Lemma A_last sA ws n TB TN : Begin cA otws ws n TB TN sA -> good ws n ->
  exists s1 x TS, local body 0 sA s1 /\
    body 0%nat s1 = Some
      (bind (ser_first gnone EA cA x) (fun s3 => bind (secondExchange (ser_second gnone cA) cA s3)
        (fun s4 => handleDataAfterAdvance cA true (ws + LL ws) s4))) /\
    AtEnd cA otws ws n TS TB TN x /\ stampsA ws TS /\
    s_hist x = s_hist sA /\ s_sent x = s_sent sA /\ s_rcvd x = s_rcvd sA.
Proof.
  intros I G. pose proof E0 as e0. unfold LL, ww, otws in *. destruct fp eqn:Fp.
  - destruct Hmode as (F & Hf). 
    assert (Lw : wlen cA (f ws) ws = f ws) by (pose proof (gd_fp _ _ G Fp) as Q; unfold LL, ww in Q; rewrite Fp in Q; exact Q).
    assert (Gl : c_eps cA < wlen cA (f ws) ws) by (pose proof (gd_len _ _ G) as Q; unfold LL, ww in Q; rewrite Fp in Q; exact Q).
    pose proof (gd_win _ _ G) as W.
    assert (Lm : match c_maxTime cA with None => True | Some T => f ws <= T - ws end).
    { revert Lw. unfold wlen. destruct (c_maxTime cA); [lia|trivial]. }
    rewrite Lw in *.
    assert (On : isCouplingOngoing cA sA = true).
    { unfold isCouplingOngoing. rewrite (bn_windows _ _ _ _ _ _ _ I), (bn_time _ _ _ _ _ _ _ I).
      apply andb_true_intro. split.
      - unfold winok in W. destruct (c_maxWindows cA); [apply Z.leb_le; exact W|reflexivity].
      - unfold th_reachedEnd, th_untilTime, equals. cbn [th_max th_start th_prog]. destruct (c_maxTime cA) as [T|]; [|reflexivity].
        apply negb_true_iff, Z.leb_gt. lia. }
    assert (Dt : e_dt EA sA = f ws).
    { rewrite Hf, (bn_time _ _ _ _ _ _ _ I). reflexivity. }
    destruct (answered_eq sA) as (fu & Qa). pose proof (answered_ready sA (bn_init _ _ _ _ _ _ _ I)) as R.
    assert (Acc : accepts cA (e_dt EA sA) (answered sA)).
    { rewrite Qa, Dt. split; [exact On|]. split; [exact Gl|]. unfold getMaxTimeStepSize.
      change (isCouplingOngoing cA (set_s_ful fu sA)) with (isCouplingOngoing cA sA). rewrite On. cbn [s_tws set_s_ful s_time].
      rewrite (bn_tws _ _ _ _ _ _ _ I), (bn_time _ _ _ _ _ _ _ I). unfold th_untilEnd, th_untilTime. cbn [th_max th_start th_prog].
      destruct (c_maxTime cA); [lia|trivial]. }
    assert (Re : reachedEndOfTimeWindow cA (set_s_time (th_progressBy (e_dt EA sA) (s_time (answered sA))) (answered sA)) = true).
    { rewrite Qa. unfold reachedEndOfTimeWindow. cbn [s_tws set_s_time set_s_ful]. rewrite (bn_tws _ _ _ _ _ _ _ I). reflexivity. }
    assert (Tt : th_time (s_time (answered sA)) + e_dt EA sA = ws + f ws).
    { rewrite Qa, Dt. cbn [s_time set_s_ful]. rewrite (bn_time _ _ _ _ _ _ _ I). unfold th_time. cbn [th_start th_prog]. lia. }
    assert (Sh : sshape (length (c_send cA)) [ws] (s_send (answered sA))) by (rewrite Qa; apply I).
    destruct (advance_end EA (ex1 gnone Serial EA cA) (ex2 gnone Serial EA cA) cA (e_dt EA sA) (answered sA) [ws] e0 Acc R Re Sh)
      as (ws1 & A1 & A2).
    { rewrite Tt. intros u [<-|[]]. lia. }
    rewrite Tt in A1, A2.
    exists sA, (set_s_windows (s_windows (answered sA) + 1) (entered (e_dt EA sA) ws1 (answered sA))), [ws; ws + f ws].
    split; [constructor|]. split; [cbn [couple]; unfold solverLoop; rewrite On; f_equal; exact A1|].
    split; [|split].
    + rewrite Qa in *. constructor; cbn [entered s_time s_windows s_tws s_next s_req s_compl s_recvd s_ful s_send s_recv set_s_windows set_s_ful set_s_req set_s_compl set_s_recvd set_s_send set_s_time].
      * rewrite (bn_time _ _ _ _ _ _ _ I), Dt. unfold th_progressBy, LL, ww. rewrite Fp, Lw. cbn [th_max th_start th_prog]. f_equal.
      * rewrite (bn_windows _ _ _ _ _ _ _ I). reflexivity.
      * apply I. * apply I. * reflexivity. * reflexivity. * reflexivity. * exact A2. * apply I.
    + exists []. unfold LL, ww. rewrite Fp, Lw. split; [reflexivity|]. split; [lia|exact Logic.I].
    + rewrite Qa. repeat split.
  - pose proof (gd_len _ _ G) as Gl. unfold LL, ww in Gl. rewrite Fp in Gl.
    assert (I' : AtStart cA w0 ws n TB TN sA) by (constructor; apply I).
    destruct (to_last gnone body 0%nat Serial EA cA w0 ws n TB TN sA e0 HA ltac:(apply Hmode) (gd_win _ _ G) Gl (fun s => eq_refl) I')
      as (s1 & x & TS & l & b & a1 & a2 & a3 & a4 & a5 & a6 & a7 & a8 & a9 & a10 & _ & a11 & a12 & a13).
    exists s1, x, (ws :: TS ++ [ws + wlen cA w0 ws]). split; [exact l|]. split; [exact b|].
    split; [|split; [|repeat split; assumption]].
    + constructor; try assumption. unfold LL, ww. rewrite Fp. exact a1.
    + exists TS. unfold LL, ww. rewrite Fp. split; [reflexivity|exact a9].
Qed.

(** A after sendTimeWindowSize *)
Definition sized (x : st) : st := if fp then set_s_next None (set_s_tws (Some (th_prog (s_time x))) x) else x.
Definition sizedB (ws : Z) (z : st) : st := if fp then set_s_next (Some (ww ws)) z else z.

Lemma sized_facts ws n TS TB TN x : AtEnd cA otws ws n TS TB TN x -> good ws n ->
  s_tws (sized x) = Some (ww ws) /\ s_next (sized x) = otws /\ s_time (sized x) = s_time x /\ s_windows (sized x) = s_windows x /\
  s_send (sized x) = s_send x /\ s_recv (sized x) = s_recv x /\ s_req (sized x) = s_req x /\ s_compl (sized x) = s_compl x /\
  s_recvd (sized x) = s_recvd x /\ s_hist (sized x) = s_hist x /\ s_sent (sized x) = s_sent x /\ s_rcvd (sized x) = s_rcvd x /\
  s_conv (sized x) = s_conv x.
Proof.
  intros A G. unfold sized, otws. destruct fp eqn:Fp.
  - cbn. rewrite (ae_time _ _ _ _ _ _ _ _ A). cbn [th_prog]. rewrite (gd_fp _ _ G Fp). repeat split.
  - unfold ww. rewrite Fp. pose proof (ae_tws _ _ _ _ _ _ _ _ A) as Q1. pose proof (ae_next _ _ _ _ _ _ _ _ A) as Q2. unfold otws in Q1, Q2. rewrite Fp in Q1, Q2.
    repeat split; assumption.
Qed.

Lemma size_pair ws n TS TB TN x z (F : st -> proc (msg V) st) : AtEnd cA otws ws n TS TB TN x -> good ws n ->
  (fp = true -> c_implicit cB = true -> s_conv z = false -> s_tws z = None \/ s_tws z = Some (ww ws)) ->
  pair 0 1 (ser_first gnone EA cA x) (s3 <- receiveAndSetTimeWindowSize cB z ;; F s3) (sendData gnone cA (sized x)) (F (sizedB ws z)).
Proof.
  intros A G Hc. destruct (sized_facts _ _ _ _ _ _ A G) as (T1 & T2 & T3 & T4 & T5 & T6 & T7 & T8 & T9 & _).
  assert (Ae : atWindowEnd cA (sized x) = true).
  { eapply at_end; [exact E0| |exact T1]. rewrite T3. exact (ae_time _ _ _ _ _ _ _ _ A). }
  unfold ser_first. rewrite (pt_firstA _ _ HP). unfold sendTimeWindowSize, receiveAndSetTimeWindowSize, sized, sizedB in *.
  destruct fp eqn:Fp.
  - destruct Hmode as ((F1 & F2 & F3 & F4 & F5 & F6) & Hf). rewrite F3, F6. unfold send, recvTime, recv. rewrite (pt_pA _ _ HP), (pt_pB _ _ HP).
    cbn [bind]. apply pair_ab. cbn [bind]. rewrite (ae_time _ _ _ _ _ _ _ _ A) in *. cbn [th_prog] in *. rewrite (gd_fp _ _ G Fp) in *.
    match goal with |- pair _ _ _ (bind (bind (check_ ?b _) _) _) _ _ => assert (B : b = true) end.
    { destruct (s_tws z) as [v|] eqn:Z1; [|reflexivity]. destruct (c_implicit cB && negb (s_conv z)) eqn:C; [|reflexivity].
      apply andb_prop in C as (C1 & C2). apply negb_true_iff in C2. destruct (Hc eq_refl C1 C2) as [Q|Q]; [discriminate Q|].
      injection Q as ->. apply Z.eqb_refl. }
    rewrite B. cbn [check_ bind]. rewrite Ae. cbn [assert_ bind]. constructor.
  - destruct Hmode as ((F1 & F2 & F3 & F4 & F5 & F6 & F7) & _). rewrite F4, F7. cbn [bind]. rewrite Ae. cbn [assert_ bind]. constructor.
Qed.

Definition Ready (ws n : Z) (sA : st) (q : proc (msg V) st) : Prop :=
  forall TS TB TN x, AtEnd cA otws ws n TS TB TN x -> stampsA ws TS ->
  exists sB v, pair 0 1 (ser_first gnone EA cA x) q (PRet (set_s_sent (s_sent x ++ [v]) (sized x))) (PRet sB) /\
    AtStart cB (ww ws) ws n TS [ws; XX ws] sB /\
    s_hist sB = s_hist sA /\ s_sent sB = s_rcvd sA /\ s_rcvd sB = s_sent sA ++ [v].

Definition TNokA (ws : Z) (TN : list Z) : Prop := TN = [ws] \/ TN = [ws; ws + LL ws].

Inductive KS : net (M:=msg V) (S:=st) -> Prop :=
| KS_end sA sB : isCouplingOngoing cA sA = false -> isCouplingOngoing cB sB = false -> agree_fully sA sB ->
    KS [PRet sA; PRet sB]
| KS_round sA q ws n TB TN : good ws n -> Begin cA otws ws n TB TN sA -> TNokA ws TN -> Ready ws n sA q ->
    KS [PRet sA; q].

(** whether the coupling goes on does not change when the window is closed *)
Lemma ongoing_close c w ws (s s' : st) : 0 <= c_eps c -> c_eps c < wlen c w ws ->
  s_time s = TH (c_maxTime c) ws (wlen c w ws) -> s_time s' = TH (c_maxTime c) (next_start c w ws) 0 ->
  s_windows s' = s_windows s -> isCouplingOngoing c s = isCouplingOngoing c s'.
Proof.
  intros e0 L H1 H2 H3. unfold isCouplingOngoing. rewrite H1, H2, H3. f_equal. f_equal.
  unfold th_reachedEnd, th_untilTime, equals, next_start, wlen in *. cbn [th_max th_start th_prog].
  destruct (c_maxTime c) as [T|]; [|reflexivity].
  destruct (Z.leb_spec (Z.abs (Z.min w (T - ws) - w)) (c_eps c)).
  - destruct (Z.leb_spec (Z.abs (- (ws + w + 0 - T))) (c_eps c)); destruct (Z.leb_spec (Z.abs (- (ws + Z.min w (T - ws) - T))) (c_eps c)); try reflexivity; lia.
  - f_equal. lia.
Qed.

(** the next window is a good one *)
Lemma good_next ws n (tA : st) : good ws n -> s_time tA = TH (c_maxTime cA) (next_start cA (ww ws) ws) 0 -> s_windows tA = n + 1 ->
  s_tws tA = otws -> isCouplingOngoing cA tA = true ->
  LL ws = ww ws /\ next_start cA (ww ws) ws = ws + ww ws /\ good (ws + ww ws) (n + 1).
Proof.
  intros G Ht Hn Htw O. pose proof E0 as e0. pose proof (gd_len _ _ G) as L. pose proof (LL_le ws) as Lw.
  assert (Ew : c_eps cA < ww ws) by lia.
  destruct (next_ongoing cA (ww ws) ws (n + 1) tA e0 Ew L Ht Hn O) as (B1 & B2 & B3 & B4).
  split; [exact B1|]. split; [exact B2|]. rewrite B2 in Ht. unfold LL, ww, otws in *. destruct fp eqn:Fp.
  - destruct Hmode as (F & Hf). pose proof (HA tA O) as X. rewrite Ht in X. specialize (X eq_refl (fun _ => conj Htw eq_refl)). unfold getMaxTimeStepSize in X. rewrite O, Htw, Ht in X.
    unfold th_untilEnd, th_untilTime in X. cbn [th_max th_start th_prog] in X. rewrite Hf, Ht in X. cbn [th_start] in X.
    assert (Q : c_eps cA < f (ws + f ws) /\ wlen cA (f (ws + f ws)) (ws + f ws) = f (ws + f ws)).
    { unfold wlen in *. destruct (c_maxTime cA) as [T|]; [|split; [exact X|reflexivity]].
      destruct X as (X1 & X2); [lia|]. split; [exact X1|]. lia. }
    destruct Q as (Q1 & Q2). constructor; unfold LL, ww; rewrite ?Fp; try assumption; try congruence; try (rewrite Q2; assumption).
    intros _. left. exact Q2.
  - destruct Hmode as (F & Cut). constructor; unfold LL, ww; rewrite ?Fp; try assumption; try congruence.
    + intros Hi. destruct (Cut Hi) as [C|C]; [right; exact C|left]. unfold wlen in *. destruct (c_maxTime cA) as [T|] eqn:HT; [|reflexivity].
      pose proof (C T eq_refl) as DT. pose proof (gd_al _ _ G Fp) as DW. destruct DT as (a & ->). destruct DW as (b & ->).
      assert (0 < (a - (b + 1)) * w0) by lia. assert (1 <= a - (b + 1)) by nia. nia.
    + intros _. apply Z.divide_add_r; [apply (gd_al _ _ G Fp)|exists 1; lia].
Qed.

Ltac proj := cbn [s_time s_windows s_tws s_next s_it s_tot s_conv s_compl s_recvd s_req s_ful s_send s_recv s_hist s_sent s_rcvd
  set_s_time set_s_windows set_s_tws set_s_next set_s_it set_s_tot set_s_conv set_s_compl set_s_recvd set_s_req set_s_ful set_s_send
  set_s_recv set_s_hist set_s_sent set_s_rcvd cleared moveToNextWindow].

Lemma sizedB_same ws (z : st) : s_time (sizedB ws z) = s_time z /\ s_windows (sizedB ws z) = s_windows z /\ s_tws (sizedB ws z) = s_tws z /\
  s_send (sizedB ws z) = s_send z /\ s_recv (sizedB ws z) = s_recv z /\ s_req (sizedB ws z) = s_req z /\ s_compl (sizedB ws z) = s_compl z /\
  s_recvd (sizedB ws z) = s_recvd z /\ s_hist (sizedB ws z) = s_hist z /\ s_sent (sizedB ws z) = s_sent z /\ s_rcvd (sizedB ws z) = s_rcvd z /\
  s_conv (sizedB ws z) = s_conv z /\ s_ful (sizedB ws z) = s_ful z /\ s_it (sizedB ws z) = s_it z.
Proof. unfold sizedB. destruct fp; repeat split. Qed.

(** B receives the data for the end of the window [ws] *)
Lemma window_end_pair ws n TS TB TN TB0 x (z : st) : AtEnd cA otws ws n TS TB TN x -> good ws n -> stampsA ws TS ->
  th_time (s_time z) = ws -> s_next z = Some (ww ws) -> s_recvd z = false ->
  rshape (c_recv cB) TB0 [ws] (s_recv z) ->
  exists r v, pair 0 1 (sendData gnone cA (sized x)) (s4 <- receiveDataForWindowEnd gnone cB z ;; notifyDataHasBeenReceived s4)
    (PRet (set_s_sent (s_sent x ++ [v]) (sized x))) (PRet (set_s_recvd true (set_s_rcvd (s_rcvd z ++ [v]) (set_s_recv r z)))) /\
    rshape (c_recv cB) TS [ws; XX ws] r.
Proof.
  intros A G (r0 & HTS & Sp) Ht Hn Hr R. pose proof E0 as e0. pose proof (gd_len _ _ G) as L. pose proof (LL_le ws) as Lw.
  destruct (sized_facts _ _ _ _ _ _ A G) as (T1 & T2 & T3 & T4 & T5 & T6 & T7 & T8 & T9 & T10 & T11 & T12 & T13).
  destruct (xmit gnone 0%nat 1%nat cA cB (sized x) (set_s_time (th_progressBy (ww ws) (s_time z)) z) TS TB0 [ws] [ws; ws + ww ws]) as (r & v & X1 & X2).
  { apply HP. } { apply HP. } { apply HP. } { exact E0B. } { rewrite HTS. discriminate. } { rewrite EB0. exact Sp. }
  { assert (Q : th_time (s_time (set_s_time (th_progressBy (ww ws) (s_time z)) z)) = ws + ww ws).
    { revert Ht. proj. unfold th_time, th_progressBy. cbn [th_start th_prog]. lia. }
    rewrite Q. apply (settable_append _ [ws]); [exact E0B|]. intros u [<-|[]]. rewrite EB0. lia. }
  { rewrite T5. exact (ae_send _ _ _ _ _ _ _ _ A). }
  { exact R. }
  exists r, v. split.
  - unfold receiveDataForWindowEnd. rewrite Hn. rewrite T11 in X1. eapply pair_trans; [do 2 apply pair_bindr; exact X1|]. cbn [bind].
    unfold notifyDataHasBeenReceived. proj. rewrite Hr. cbn [negb assert_ bind]. destruct z. constructor.
  - unfold XX. destruct (c_implicit cA) eqn:Hi; [|exact X2]. destruct (gd_cut _ _ G Hi) as [C|C]; [rewrite C; exact X2|].
    eapply rshape_sub; [exact C|exact X2].
Qed.

(** ... or repeats the window *)
Lemma repeat_pair ws n TS TB TN TB0 x (z : st) : AtEnd cA otws ws n TS TB TN x -> good ws n -> stampsA ws TS ->
  c_implicit cA = true ->
  th_time (s_time z) = ws + LL ws -> s_recvd z = false ->
  rshape (c_recv cB) TB0 [ws; XX ws] (s_recv z) ->
  exists r v, pair 0 1 (sendData gnone cA (sized x)) (s4 <- receiveData gnone cB z ;; notifyDataHasBeenReceived s4)
    (PRet (set_s_sent (s_sent x ++ [v]) (sized x))) (PRet (set_s_recvd true (set_s_rcvd (s_rcvd z ++ [v]) (set_s_recv r z)))) /\
    rshape (c_recv cB) TS [ws; XX ws] r.
Proof.
  intros A G (r0 & HTS & Sp) Hi Ht Hr R. pose proof E0 as e0. pose proof (gd_len _ _ G) as L.
  destruct (sized_facts _ _ _ _ _ _ A G) as (T1 & T2 & T3 & T4 & T5 & T6 & T7 & T8 & T9 & T10 & T11 & T12 & T13).
  assert (HX : XX ws = ws + LL ws) by (unfold XX; rewrite Hi; reflexivity). rewrite HX in *.
  destruct (xmit gnone 0%nat 1%nat cA cB (sized x) z TS TB0 [ws; ws + LL ws] [ws; ws + LL ws]) as (r & v & X1 & X2).
  { apply HP. } { apply HP. } { apply HP. } { exact E0B. } { rewrite HTS. discriminate. } { rewrite EB0. exact Sp. }
  { rewrite Ht. apply (settable_last _ [ws]); [exact E0B| |rewrite Z.sub_diag; apply E0B]. intros u [<-|[]]. rewrite EB0. lia. }
  { rewrite T5. exact (ae_send _ _ _ _ _ _ _ _ A). }
  { exact R. }
  exists r, v. split; [|exact X2]. rewrite T11 in X1. eapply pair_trans; [apply pair_bindr; exact X1|]. cbn [bind].
  unfold notifyDataHasBeenReceived. proj. rewrite Hr. constructor.
Qed.

Record DoneS (c : conf) (w : Z) (o : option Z) (ws n : Z) (TS TB TN : list Z) (rv : bool) (h : list hist) (s : st) : Prop := {
  ds_time : s_time s = TH (c_maxTime c) ws (wlen c w ws);
  ds_windows : s_windows s = n + 1;
  ds_tws : s_tws s = Some w;
  ds_next : s_next s = o;
  ds_req : s_req s = no_acts;
  ds_compl : s_compl s = false;
  ds_recvd : s_recvd s = rv;
  ds_hist : s_hist s = h;
  ds_send : sshape (length (c_send c)) TS (s_send s);
  ds_recv : rshape (c_recv c) TB TN (s_recv s)
}.

Lemma close c w o ws n u TB TN rv h s : 0 <= c_eps c -> c_eps c < wlen c w ws ->
  DoneS c w o ws n [u] TB TN rv h s -> (c_implicit c = true -> s_conv s = true) ->
  negb (isCouplingOngoing c s) || rv = true ->
  next_start c w ws - c_eps c <= u -> stamps_from (c_eps c) (next_start c w ws) TB -> stamps_from (c_eps c) (next_start c w ws) TN ->
  exists s', finish c (ws + wlen c w ws) s = PRet s' /\
    s_time s' = TH (c_maxTime c) (next_start c w ws) 0 /\ s_windows s' = n + 1 /\ s_tws s' = o /\ s_next s' = o /\
    a_init (s_req s') = false /\ sshape (length (c_send c)) [u] (s_send s') /\ rshape (c_recv c) TB TN (s_recv s') /\
    s_hist s' = h ++ [Hist (next_start c w ws) (n + 1) true (isCouplingOngoing c s')] /\
    s_sent s' = s_sent s /\ s_rcvd s' = s_rcvd s /\ isCouplingOngoing c s' = isCouplingOngoing c s.
Proof.
  intros e0 L D Hc Ho Hu H1 H2. destruct (next_facts c w ws e0 L) as (N1 & N2 & N3).
  destruct (finish_complete c s ws (wlen c w ws) w u TB TN e0)
    as (s' & F & A1 & A2 & A3 & A4 & A5 & A6 & A7 & A8 & A9 & A10 & A11 & A12 & A13 & A14); try apply D; try assumption.
  - rewrite (ds_recvd _ _ _ _ _ _ _ _ _ _ _ D). exact Ho.
  - rewrite (ds_time _ _ _ _ _ _ _ _ _ _ _ D). exact N1.
  - pose proof (ds_windows _ _ _ _ _ _ _ _ _ _ _ D) as Dw. exists s'. split; [exact F|]. split; [exact A1|]. rewrite <- (ds_next _ _ _ _ _ _ _ _ _ _ _ D), <- (ds_hist _ _ _ _ _ _ _ _ _ _ _ D).
    repeat (split; [first [assumption|congruence]|]). split; [rewrite A12, Dw; reflexivity|]. split; [exact A13|]. split; [exact A14|].
    symmetry. eapply ongoing_close; [exact e0|exact L|apply D|exact A1|exact A2].
Qed.

Lemma repeat_close c w ws n TS1 TB TN h s : 0 <= c_eps c -> c_eps c < wlen c w ws ->
  DoneS c w (s_next s) ws n (ws :: TS1) TB TN true h s -> c_implicit c = true -> s_conv s = false ->
  spaced (c_eps c) (ws :: TS1) ->
  exists s', finish c (ws + wlen c w ws) s = PRet s' /\
    s_time s' = TH (c_maxTime c) ws 0 /\ s_windows s' = n /\ s_tws s' = s_next s /\ s_next s' = s_next s /\
    a_init (s_req s') = false /\ sshape (length (c_send c)) [ws] (s_send s') /\ rshape (c_recv c) TB TN (s_recv s') /\
    s_hist s' = h ++ [Hist ws n false (isCouplingOngoing c s')] /\
    s_sent s' = s_sent s /\ s_rcvd s' = s_rcvd s.
Proof.
  intros e0 L D Hi Hc Sp.
  destruct (finish_repeat c s ws (wlen c w ws) TS1 TB TN e0)
    as (s' & F & A1 & A2 & A3 & A4 & A5 & A6 & A7 & A8 & A9 & A10 & A11 & A12 & A13 & A14); try apply D; try assumption.
  - apply spaced_head; assumption.
  - pose proof (ds_windows _ _ _ _ _ _ _ _ _ _ _ D) as Dw. rewrite Dw in A2, A12. replace (n + 1 - 1) with n in A2, A12 by lia.
    exists s'. split; [exact F|]. rewrite <- (ds_hist _ _ _ _ _ _ _ _ _ _ _ D).
    repeat (split; [assumption|]). assumption.
Qed.

(** B sends its result, A receives it *)
Lemma result_pair ws n TSA TBA TNA TSB xA xB v1 : good ws n ->
  AtEnd cA otws ws n TSA TBA TNA xA -> stampsA ws TSA -> TNokA ws TNA ->
  AtEnd cB (Some (ww ws)) ws n TSB TSA [ws; XX ws] xB -> stampsA ws TSB ->
  exists cv zA yB v2,
    pair 0 1 (ser_second gnone cA (cleared (set_s_sent (s_sent xA ++ [v1]) (sized xA)))) (ser_first gnone EB cB xB) (PRet zA) (PRet yB) /\
    AtEnd cB (Some (ww ws)) ws n TSB TSA [ws; XX ws] yB /\ (c_implicit cA = true -> s_conv yB = cv) /\
    s_hist yB = s_hist xB /\ s_sent yB = s_sent xB ++ [v2] /\ s_rcvd yB = s_rcvd xB /\
    s_sent zA = s_sent xA ++ [v1] /\ s_rcvd zA = s_rcvd xA ++ [v2] /\
    ((c_implicit cA = true -> cv = true) /\ (c_implicit cA = true -> s_conv zA = true) /\
      DoneS cA (ww ws) otws ws n [ws + LL ws] [ws + LL ws] [ws + LL ws] true (s_hist xA) zA \/
     c_implicit cA = true /\ cv = false /\ s_conv zA = false /\
      DoneS cA (ww ws) otws ws n TSA TSB [ws; ws + LL ws] true (s_hist xA) zA).
Proof.
  intros G A SA NA B SB. pose proof E0 as e0. pose proof EB0 as eb. pose proof (gd_len _ _ G) as L.
  destruct (sized_facts _ _ _ _ _ _ A G) as (T1 & T2 & T3 & T4 & T5 & T6 & T7 & T8 & T9 & T10 & T11 & T12 & T13).
  set (yA := set_s_sent (s_sent xA ++ [v1]) (sized xA)).
  destruct SA as (ra & HTA & SpA). destruct SB as (rb & HTB & SpB).
  assert (Tm : s_time (cleared yA) = TH (c_maxTime cA) ws (LL ws)) by (change (s_time (sized xA) = TH (c_maxTime cA) ws (LL ws)); rewrite T3; apply A).
  assert (Tw : s_tws (cleared yA) = Some (ww ws)) by exact T1.
  assert (AeA : forall s : st, s_time s = s_time (cleared yA) -> s_tws s = s_tws (cleared yA) -> atWindowEnd cA s = true).
  { intros s H1 H2. eapply at_end; [exact e0|rewrite H1; exact Tm|rewrite H2; exact Tw]. }
  assert (AeB : forall s : st, s_time s = s_time xB -> s_tws s = s_tws xB -> atWindowEnd cB s = true).
  { intros s H1 H2. eapply (at_end cB s (ww ws) ws); [exact E0B|rewrite H1, (ae_time _ _ _ _ _ _ _ _ B), wB; reflexivity|rewrite H2; apply B]. }
  assert (Set' : settable (c_eps cA) TNA (ws + LL ws) [ws; ws + LL ws]) by (apply tn_settable; assumption).
  assert (SpB' : spaced (c_eps cA) TSB) by exact SpB.
  assert (Fin : forall (uA uB : st), s_time uA = s_time (cleared yA) -> s_recv uA = s_recv xA -> s_recvd uA = false ->
     s_send uB = s_send xB \/ sshape (length (c_send cB)) TSB (s_send uB) ->
     exists rA v2, pair 0 1 (sb <- receiveData gnone cA uA ;; notifyDataHasBeenReceived sb) (sendData gnone cB uB)
        (PRet (set_s_recvd true (set_s_rcvd (s_rcvd uA ++ [v2]) (set_s_recv rA uA)))) (PRet (set_s_sent (s_sent uB ++ [v2]) uB)) /\
        rshape (c_recv cA) TSB [ws; ws + LL ws] rA).
  { intros uA uB H1 H2 H3 H4.
    assert (Sh : sshape (length (c_send cB)) TSB (s_send uB)) by (destruct H4 as [H4|H4]; [rewrite H4; apply B|exact H4]).
    destruct (xmit gnone 1%nat 0%nat cB cA uB uA TSB TBA TNA [ws; ws + LL ws]) as (rA & v2 & Y1 & Y2).
    { apply HP. } { apply HP. } { apply HP. } { exact e0. } { rewrite HTB. discriminate. } { exact SpB'. }
    { rewrite H1, Tm. exact Set'. } { exact Sh. } { rewrite H2. apply A. }
    exists rA, v2. split; [|exact Y2]. eapply pair_trans; [apply pair_bindl, pair_swap, Y1|]. cbn [bind]. unfold notifyDataHasBeenReceived. proj.
    rewrite H3. cbn [negb assert_ bind]. constructor. }
  unfold ser_second, ser_first. rewrite (pt_implicit _ _ HP), (pt_firstA _ _ HP), (pt_firstB _ _ HP). cbn [negb andb].
  destruct (c_implicit cA) eqn:Hi.
  - assert (HiB : c_implicit cB = true) by (rewrite (pt_implicit _ _ HP); exact Hi).
    destruct (implicit_ok cB EB false xB (HM HiB)) as (cv & uB & U0 & U1 & U2 & U3 & U4 & U5 & U6 & U7 & U8 & U9 & U10 & U11 & U12 & U13 & U14 & U15).
    rewrite U0. cbn [bind]. set (uA := set_s_conv cv (cleared yA)).
    destruct (Fin uA uB) as (rA & v2 & Y1 & Y2).
    { reflexivity. } { change (s_recv (sized xA) = s_recv xA). exact T6. } { change (s_recvd (sized xA) = false). rewrite T9. apply A. }
    { right. apply U13. apply B. }
    set (qA := set_s_recvd true (set_s_rcvd (s_rcvd uA ++ [v2]) (set_s_recv rA uA))) in *.
    set (yB := set_s_sent (s_sent uB ++ [v2]) uB) in *.
    set (zA := if cv then moveToNextWindow qA else qA).
    assert (SqA : sshape (length (c_send cA)) ((ws :: ra) ++ [ws + LL ws]) (s_send qA)).
    { change (sshape (length (c_send cA)) ((ws :: ra) ++ [ws + LL ws]) (s_send (sized xA))). rewrite T5, <- app_comm_cons, <- HTA. apply A. }
    assert (RqA : rshape (c_recv cA) ((ws :: rb) ++ [ws + LL ws]) ([ws] ++ [ws + LL ws]) (s_recv qA)).
    { change (rshape (c_recv cA) ((ws :: rb) ++ [ws + LL ws]) [ws; ws + LL ws] rA). rewrite <- app_comm_cons, <- HTB. exact Y2. }
    assert (DA : if cv then DoneS cA (ww ws) otws ws n [ws + LL ws] [ws + LL ws] [ws + LL ws] true (s_hist xA) zA
                 else DoneS cA (ww ws) otws ws n TSA TSB [ws; ws + LL ws] true (s_hist xA) zA).
    { unfold zA. destruct cv; (constructor; [exact Tm|change (s_windows (sized xA) = n + 1); rewrite T4; apply A|exact T1|exact T2|reflexivity|
        change (s_compl (sized xA) = false); rewrite T8; apply A|reflexivity|exact T10| |]).
      - eapply move_send, SqA.
      - eapply move_recv, RqA.
      - rewrite HTA. exact SqA.
      - rewrite HTB. exact RqA. }
    exists cv, zA, yB, v2. split.
    { unfold receiveConvergence, recvBool, sendConvergence, send, recv. rewrite (pt_pA _ _ HP), (pt_pB _ _ HP). cbn [bind].
      apply pair_ba. cbn [bind]. rewrite U1. fold uA. rewrite (AeA uA eq_refl eq_refl), (AeB uB U2 U4). cbn [assert_ bind].
      eapply pair_trans; [apply pair_bindl, Y1|]. cbn [bind].
      assert (Cq : s_conv qA = cv) by reflexivity. rewrite Cq. fold zA.
      rewrite (store_ok cA zA (if cv then [ws + LL ws] else TSA) (if cv then [ws + LL ws] else TSB) (if cv then [ws + LL ws] else [ws; ws + LL ws])).
      - cbn [bind]. constructor.
      - destruct cv; apply DA.
      - destruct cv; apply DA.
      - destruct cv; [discriminate|rewrite HTA; discriminate].
      - destruct cv; [discriminate|rewrite HTB; discriminate].
      - destruct cv; discriminate. }
    split.
    { unfold yB. constructor; proj.
      - rewrite U2. apply B. - rewrite U3. apply B. - rewrite U4. apply B. - rewrite U5. apply B. - rewrite U9. apply B.
      - rewrite U7. apply B. - rewrite U8. apply B. - apply U13, B. - apply U14, B. }
    split; [intros _; exact U1|]. split; [exact U10|]. split; [unfold yB; proj; rewrite U11; reflexivity|]. split; [exact U12|].
    split; [unfold zA; destruct cv; change (s_sent xA ++ [v1] = s_sent xA ++ [v1]); reflexivity|].
    split; [unfold zA; destruct cv; change (s_rcvd (sized xA) ++ [v2] = s_rcvd xA ++ [v2]); rewrite T12; reflexivity|].
    destruct cv.
    + left. split; [reflexivity|]. split; [reflexivity|exact DA].
    + right. split; [reflexivity|]. split; [reflexivity|]. split; [reflexivity|exact DA].
  - destruct (Fin (cleared yA) xB) as (rA & v2 & Y1 & Y2).
    { reflexivity. } { change (s_recv (sized xA) = s_recv xA). exact T6. } { change (s_recvd (sized xA) = false). rewrite T9. apply A. }
    { left. reflexivity. }
    set (qA := set_s_recvd true (set_s_rcvd (s_rcvd (cleared yA) ++ [v2]) (set_s_recv rA (cleared yA)))) in *.
    exists true, (moveToNextWindow qA), (set_s_sent (s_sent xB ++ [v2]) xB), v2.
    split.
    { rewrite (AeA (cleared yA) eq_refl eq_refl), (AeB xB eq_refl eq_refl). cbn [assert_ bind].
      eapply pair_trans; [apply pair_bindl, Y1|]. cbn [bind]. constructor. }
    split.
    { constructor; proj; apply B. }
    split; [discriminate|]. split; [reflexivity|]. split; [reflexivity|]. split; [reflexivity|].
    split; [reflexivity|]. split; [change (s_rcvd (sized xA) ++ [v2] = s_rcvd xA ++ [v2]); rewrite T12; reflexivity|].
    left. split; [discriminate|]. split; [discriminate|].
    constructor; [exact Tm|change (s_windows (sized xA) = n + 1); rewrite T4; apply A|exact T1|exact T2|reflexivity|
        change (s_compl (sized xA) = false); rewrite T8; apply A|reflexivity|exact T10| |].
    + eapply (move_send _ (ws :: ra)). change (sshape (length (c_send cA)) ((ws :: ra) ++ [ws + LL ws]) (s_send (sized xA))). rewrite T5, <- app_comm_cons, <- HTA. apply A.
    + eapply (move_recv _ (ws :: rb) _ [ws]). change (rshape (c_recv cA) ((ws :: rb) ++ [ws + LL ws]) [ws; ws + LL ws] rA). rewrite <- app_comm_cons, <- HTB. exact Y2.
Qed.

Definition QB (ws : Z) (yB : st) : proc (msg V) st :=
  bind (secondExchange (ser_second gnone cB) cB yB) (fun s4 => handleDataAfterAdvance cB true (ws + LL ws) s4).

Lemma QB_end ws n TSB TSA TN yB : AtEnd cB (Some (ww ws)) ws n TSB TSA TN yB ->
  QB ws yB = (s4 <- (s1 <- ser_second gnone cB (cleared yB) ;; s2 <- afterSecond cB s1 ;; PRet (logIteration cB s2)) ;;
   handleDataAfterAdvance cB true (ws + LL ws) s4).
Proof.
  intros B. unfold QB. apply second_end; [apply B|apply B|].
  eapply (reached_end cB yB (ww ws) ws); [exact E0B|rewrite (ae_time _ _ _ _ _ _ _ _ B), wB; reflexivity|apply B].
Qed.

Lemma nextB w ws : next_start cB w ws = next_start cA w ws.
Proof. unfold next_start. rewrite wB, EB0. reflexivity. Qed.

Lemma next_ww ws n z : good ws n -> s_next z = Some w0 \/ fp = true -> s_next (sizedB ws z) = Some (ww ws).
Proof.
  intros G H. unfold sizedB, ww. destruct fp; [reflexivity|]. destruct H as [H|H]; [exact H|discriminate H].
Qed.

Lemma second_B ws n TSA TSB (yB : st) : good ws n -> AtEnd cB (Some (ww ws)) ws n TSB TSA [ws; XX ws] yB ->
  stampsA ws TSA -> stampsA ws TSB ->
  (c_implicit cA = true -> s_conv yB = true) ->
  let zB := moveToNextWindow (cleared yB) in
  exists F, ser_second gnone cB (cleared yB) =
    (if isCouplingOngoing cB zB then s3 <- receiveAndSetTimeWindowSize cB zB ;; F s3 else PRet zB) /\
    forall s3 : st, (c_implicit cA = true -> s_conv s3 = true) -> atWindowEnd cB s3 = true ->
      F s3 = (s4 <- receiveDataForWindowEnd gnone cB s3 ;; notifyDataHasBeenReceived s4).
Proof.
  intros G B (ra & HTA & _) (rb & HTB & _) Hc zB. unfold ser_second. rewrite (pt_implicit _ _ HP), (pt_firstB _ _ HP). cbn [bind negb andb].
  destruct (c_implicit cA) eqn:Hi.
  - assert (C : s_conv (cleared yB) = true) by exact (Hc eq_refl). rewrite C. fold zB.
    rewrite (store_ok cB zB [ws + LL ws] [ws + LL ws] [XX ws]); try discriminate.
    + cbn [bind]. assert (C' : s_conv zB = true) by exact C. rewrite C'. cbn [negb]. rewrite orb_false_r.
      eexists. split; [reflexivity|]. intros s3 H1 H2. cbv beta. rewrite (H1 eq_refl), H2. reflexivity.
    + eapply (move_send _ (ws :: rb)). pose proof (ae_send _ _ _ _ _ _ _ _ B) as S. rewrite HTB in S. exact S.
    + eapply (move_recv _ (ws :: ra) _ [ws]). pose proof (ae_recv _ _ _ _ _ _ _ _ B) as S. rewrite HTA in S. exact S.
  - eexists. split; [reflexivity|]. intros s3 H1 H2. cbv beta. rewrite H2. reflexivity.
Qed.

Lemma stampsA_from ws TS : stampsA ws TS -> stamps_from (c_eps cB) ws TS.
Proof.
  intros (r & -> & Sp) u [<-|Hu]; pose proof E0; rewrite EB0; [lia|]. pose proof (spaced_head _ _ _ E0 Sp u Hu). lia.
Qed.

(** B after a completed window *)
Lemma B_complete ws n TSA TSB (yB tA : st) : good ws n -> AtEnd cB (Some (ww ws)) ws n TSB TSA [ws; XX ws] yB ->
  stampsA ws TSA -> stampsA ws TSB ->
  (c_implicit cA = true -> s_conv yB = true) ->
  s_time tA = TH (c_maxTime cA) (next_start cA (ww ws) ws) 0 -> s_windows tA = n + 1 -> s_tws tA = otws ->
  s_hist tA = s_hist yB ++ [Hist (next_start cA (ww ws) ws) (n + 1) true (isCouplingOngoing cA tA)] ->
  s_sent tA = s_rcvd yB -> s_rcvd tA = s_sent yB ->
  (isCouplingOngoing cA tA = false /\ exists tB, QB ws yB = PRet tB /\ isCouplingOngoing cB tB = false /\ agree_fully tA tB) \/
  (isCouplingOngoing cA tA = true /\ LL ws = ww ws /\ next_start cA (ww ws) ws = ws + ww ws /\ good (ws + ww ws) (n + 1) /\
   Ready (ws + ww ws) (n + 1) tA (QB ws yB)).
Proof.
  intros G B SA SB Hc Ht Hn Htw Hh Hs Hr. pose proof E0 as e0. pose proof EB0 as eb. pose proof (gd_len _ _ G) as L.
  assert (LB : c_eps cB < wlen cB (ww ws) ws) by (rewrite wB, eb; exact L).
  destruct (second_B _ _ _ _ _ G B SA SB Hc) as (F & HF & HF2). cbv zeta in HF.
  rewrite (QB_end _ _ _ _ _ _ B), HF.
  set (zB := moveToNextWindow (cleared yB)) in *.
  assert (Sz : sshape (length (c_send cB)) [ws + LL ws] (s_send zB)).
  { destruct SB as (rb & HTB & _). eapply (move_send _ (ws :: rb)). pose proof (ae_send _ _ _ _ _ _ _ _ B) as S. rewrite HTB in S. exact S. }
  assert (Rz : rshape (c_recv cB) [ws + LL ws] [XX ws] (s_recv zB)).
  { destruct SA as (ra & HTA & _). eapply (move_recv _ (ws :: ra) _ [ws]). pose proof (ae_recv _ _ _ _ _ _ _ _ B) as S. rewrite HTA in S. exact S. }
  assert (Tz : s_time zB = TH (c_maxTime cB) ws (LL ws)) by apply B.
  assert (OnA : isCouplingOngoing cA tA = isCouplingOngoing cB zB).
  { transitivity (isCouplingOngoing cA (set_s_time (TH (c_maxTime cA) ws (LL ws)) tA)).
    - symmetry. eapply (ongoing_close cA (ww ws) ws); [exact e0|exact L|reflexivity|exact Ht|reflexivity].
    - apply same_ongoing; [exact HP|proj; rewrite Tz, (pt_maxTime _ _ HP); reflexivity|].
      proj. rewrite Hn. symmetry. apply B. }
  destruct (next_facts cB (ww ws) ws E0B LB) as (N1 & N2 & N3). rewrite nextB, wB in N3. change (wlen cA (ww ws) ws) with (LL ws) in N3.
  destruct (isCouplingOngoing cB zB) eqn:On.
  - right. split; [exact OnA|].
    destruct (good_next ws n tA G Ht Hn Htw OnA) as (Lw & Ns & G'). split; [exact Lw|]. split; [exact Ns|]. split; [exact G'|].
    intros TS TB TN x A SX. set (ws' := ws + ww ws) in *.
    destruct (sizedB_same ws' zB) as (z1 & z2 & z3 & z4 & z5 & z6 & z7 & z8 & z9 & z10 & z11 & z12 & z13 & z14).
    assert (XXe : XX ws = ws') by (unfold XX; rewrite Lw; destruct (c_implicit cA); reflexivity).
    rewrite XXe, Lw in *. fold ws' in Rz, Sz.
    destruct (window_end_pair ws' (n + 1) TS TB TN [ws'] x (sizedB ws' zB) A G' SX) as (r & v & P1 & P2).
    { rewrite z1, Tz. reflexivity. }
    { eapply next_ww; [exact G'|]. pose proof (ae_next _ _ _ _ _ _ _ _ B) as Nx. destruct fp eqn:Fp; [right; reflexivity|left].
      change (s_next yB = Some w0). rewrite Nx. unfold ww. rewrite Fp. reflexivity. }
    { rewrite z8. apply B. } { rewrite z5. exact Rz. }
    set (sR := set_s_recvd true (set_s_rcvd (s_rcvd (sizedB ws' zB) ++ [v]) (set_s_recv r (sizedB ws' zB)))) in *.
    assert (D : DoneS cB (ww ws) (Some (ww ws')) ws n [ws'] TS [ws'; XX ws'] true (s_hist yB) sR).
    { constructor; unfold sR; proj.
      - rewrite z1, Tz, wB. fold (LL ws). rewrite Lw. reflexivity.
      - rewrite z2. apply B.
      - rewrite z3. apply B.
      - eapply next_ww; [exact G'|]. pose proof (ae_next _ _ _ _ _ _ _ _ B) as Nx. destruct fp eqn:Fp; [right; reflexivity|left].
        change (s_next yB = Some w0). rewrite Nx. unfold ww. rewrite Fp. reflexivity.
      - rewrite z6. reflexivity.
      - rewrite z7. apply B.
      - reflexivity.
      - rewrite z9. reflexivity.
      - rewrite z4. exact Sz.
      - exact P2. }
    assert (HXX : stamps_from (c_eps cB) (next_start cB (ww ws) ws) [ws'; XX ws']).
    { rewrite nextB, Ns. intros u [<-|[<-|[]]]; [rewrite eb; lia|]. unfold XX. pose proof (gd_len _ _ G'). pose proof (LL_le ws'). rewrite eb.
      destruct (c_implicit cA); lia. }
    destruct (close cB (ww ws) (Some (ww ws')) ws n ws' TS [ws'; XX ws'] true (s_hist yB) sR E0B LB D)
      as (tB & K0 & K1 & K2 & K3 & K4 & K5 & K6 & K7 & K8 & K9 & K10 & K11).
    { intros Hi. rewrite (pt_implicit _ _ HP) in Hi. unfold sR. proj. rewrite z12. apply Hc. exact Hi. }
    { apply orb_true_r. } { rewrite nextB, Ns, eb. unfold ws'. lia. } { rewrite nextB, Ns. apply stampsA_from, SX. } { exact HXX. }
    exists tB, v. split.
    { eapply pair_trans; [do 2 apply pair_bindr; apply (size_pair ws' (n + 1) TS TB TN x zB F A G')|].
      - intros _ Hi Hcv. rewrite (pt_implicit _ _ HP) in Hi. assert (s_conv zB = true) by (apply Hc, Hi). congruence.
      - rewrite HF2.
        + eapply pair_trans; [do 2 apply pair_bindr; exact P1|]. cbn [bind]. fold sR.
          unfold finish in K0. cbn [bind] in K0. rewrite wB in K0. fold (LL ws) in K0. rewrite Lw in K0. rewrite K0. constructor.
        + intros Hi. rewrite z12. apply Hc, Hi.
        + eapply (at_end cB _ (ww ws) ws); [exact E0B|rewrite z1, Tz, wB; fold (LL ws); rewrite Lw; reflexivity|rewrite z3; apply B]. }
    split.
    { constructor; try assumption.
      - rewrite K1, nextB, Ns. reflexivity.
      - intros Q. congruence. }
    assert (OnB : isCouplingOngoing cB tB = isCouplingOngoing cA tA).
    { symmetry. apply same_ongoing; [exact HP|rewrite K1, Ht, nextB, (pt_maxTime _ _ HP); reflexivity|congruence]. }
    split; [rewrite K8, Hh, OnB, nextB; reflexivity|]. split; [rewrite K9, Hr; unfold sR; proj; rewrite z10; reflexivity|].
    rewrite K10, Hs. unfold sR. proj. rewrite z11. reflexivity.
  - left. split; [exact OnA|].
    assert (D : DoneS cB (ww ws) (Some (ww ws)) ws n [ws + LL ws] [ws + LL ws] [XX ws] false (s_hist yB) zB).
    { constructor; try assumption; try reflexivity; try apply B. rewrite Tz, wB. reflexivity. }
    destruct (close cB (ww ws) (Some (ww ws)) ws n (ws + LL ws) [ws + LL ws] [XX ws] false (s_hist yB) zB E0B LB D)
      as (tB & K0 & K1 & K2 & K3 & K4 & K5 & K6 & K7 & K8 & K9 & K10 & K11).
    { intros Hi. rewrite (pt_implicit _ _ HP) in Hi. apply Hc. exact Hi. }
    { rewrite On. reflexivity. } { rewrite nextB. exact N3. } { rewrite nextB. intros u [<-|[]]. exact N3. }
    { rewrite nextB. intros u [<-|[]]. unfold XX. pose proof (LL_le ws). destruct (c_implicit cA); lia. }
    exists tB. split.
    { cbn [bind]. unfold finish in K0. cbn [bind] in K0. rewrite wB in K0. exact K0. }
    split; [rewrite K11; exact On|].
    split; [|split].
    + rewrite Hh, K8, nextB, K11, On, OnA. reflexivity.
    + rewrite K10, Hs. reflexivity.
    + rewrite K9, Hr. reflexivity.
Qed.

(** B after a window that must be repeated *)
Lemma B_repeat ws n TSA TSB (yB tA : st) : good ws n -> AtEnd cB (Some (ww ws)) ws n TSB TSA [ws; XX ws] yB ->
  stampsA ws TSA -> stampsA ws TSB ->
  c_implicit cA = true -> s_conv yB = false ->
  s_time tA = TH (c_maxTime cA) ws 0 -> s_windows tA = n ->
  s_hist tA = s_hist yB ++ [Hist ws n false (isCouplingOngoing cA tA)] ->
  s_sent tA = s_rcvd yB -> s_rcvd tA = s_sent yB ->
  Ready ws n tA (QB ws yB).
Proof.
  intros G B SA SB Hi Hc Ht Hn Hh Hs Hr TS TB TN x A SX. pose proof E0 as e0. pose proof EB0 as eb. pose proof (gd_len _ _ G) as L.
  assert (LB : c_eps cB < wlen cB (ww ws) ws) by (rewrite wB, eb; exact L).
  rewrite (QB_end _ _ _ _ _ _ B). set (zB := cleared yB).
  assert (HiB : c_implicit cB = true) by (rewrite (pt_implicit _ _ HP); exact Hi).
  assert (HF : ser_second gnone cB zB = (s3 <- receiveAndSetTimeWindowSize cB zB ;;
     (assert_ (atWindowEnd cB s3) 26 ;;; s4 <- (if s_conv s3 then receiveDataForWindowEnd gnone cB s3 else receiveData gnone cB s3) ;; notifyDataHasBeenReceived s4))).
  { unfold ser_second. rewrite HiB, (pt_firstB _ _ HP). cbn [bind negb andb]. assert (C : s_conv zB = false) by exact Hc. rewrite C.
    rewrite (store_ok cB zB TSB TSA [ws; XX ws]); try apply B.
    - cbn [bind]. rewrite C. cbn [negb]. rewrite orb_true_r. reflexivity.
    - destruct SB as (r & -> & _). discriminate.
    - destruct SA as (r & -> & _). discriminate.
    - discriminate. }
  rewrite HF.
  destruct (sizedB_same ws zB) as (z1 & z2 & z3 & z4 & z5 & z6 & z7 & z8 & z9 & z10 & z11 & z12 & z13 & z14).
  assert (Tz : s_time zB = TH (c_maxTime cB) ws (LL ws)) by apply B.
  destruct (repeat_pair ws n TS TB TN TSA x (sizedB ws zB) A G SX Hi) as (r & v & P1 & P2).
  { rewrite z1, Tz. reflexivity. } { rewrite z8. apply B. } { rewrite z5. apply B. }
  set (sR := set_s_recvd true (set_s_rcvd (s_rcvd (sizedB ws zB) ++ [v]) (set_s_recv r (sizedB ws zB)))) in *.
  assert (Nx : s_next sR = Some (ww ws)).
  { change (s_next (sizedB ws zB) = Some (ww ws)). eapply next_ww; [exact G|]. pose proof (ae_next _ _ _ _ _ _ _ _ B) as Nx. destruct fp eqn:Fp; [right; reflexivity|left].
    change (s_next yB = Some w0). rewrite Nx. unfold ww. rewrite Fp. reflexivity. }
  pose proof SB as (rb & HTB & SpB).
  assert (D : DoneS cB (ww ws) (s_next sR) ws n (ws :: rb ++ [ws + LL ws]) TS [ws; XX ws] true (s_hist yB) sR).
  { constructor; unfold sR; proj; try reflexivity.
    - rewrite z1, Tz, wB. reflexivity.
    - rewrite z2. apply B.
    - rewrite z3. apply B.
    - rewrite z6. reflexivity.
    - rewrite z7. apply B.
    - rewrite z9. reflexivity.
    - rewrite z4, <- HTB. apply B.
    - exact P2. }
  destruct (repeat_close cB (ww ws) ws n (rb ++ [ws + LL ws]) TS [ws; XX ws] (s_hist yB) sR E0B LB D HiB)
    as (tB & K0 & K1 & K2 & K3 & K4 & K5 & K6 & K7 & K8 & K9 & K10).
  { unfold sR. proj. rewrite z12. exact Hc. } { rewrite eb, <- HTB. exact SpB. }
  exists tB, v. split.
  { eapply pair_trans; [do 2 apply pair_bindr; apply (size_pair ws n TS TB TN x zB _ A G)|].
    - intros _ _ _. right. apply B.
    - cbv beta.
      assert (Ae : atWindowEnd cB (sizedB ws zB) = true).
      { eapply (at_end cB _ (ww ws) ws); [exact E0B|rewrite z1, Tz, wB; reflexivity|rewrite z3; apply B]. }
      rewrite Ae. cbn [assert_ bind]. assert (C : s_conv (sizedB ws zB) = false) by (rewrite z12; exact Hc). rewrite C.
      eapply pair_trans; [do 2 apply pair_bindr; exact P1|]. cbn [bind]. fold sR.
      unfold finish in K0. cbn [bind] in K0. rewrite wB in K0. fold (LL ws) in K0. rewrite K0. constructor. }
  split.
  { constructor; try assumption; try congruence. }
  assert (OnB : isCouplingOngoing cB tB = isCouplingOngoing cA tA).
  { symmetry. apply same_ongoing; [exact HP|rewrite K1, Ht, (pt_maxTime _ _ HP); reflexivity|congruence]. }
  split; [rewrite K8, Hh, OnB; reflexivity|]. split; [rewrite K9, Hr; unfold sR; proj; rewrite z10; reflexivity|].
  rewrite K10, Hs. unfold sR. proj. rewrite z11. reflexivity.
Qed.

Lemma HKS c : KS c -> all_finished body c \/
  exists wd c', lrun (sstep body) wd c c' /\ KS c' /\
    forall i p, nth_error c i = Some p -> ~ finished body i p -> covers wd i.
Proof.
  intros [sA sB OA OB Ag|sA q ws n TB TN G IA NA R].
  - left. intros i p Hp. destruct i as [|[|i]]; cbn in Hp; [injection Hp as <-|injection Hp as <-|destruct i; discriminate Hp].
    + exists sA. split; [reflexivity|]. cbn. unfold solverLoop. rewrite OA. reflexivity.
    + exists sB. split; [reflexivity|]. cbn. unfold solverLoop. rewrite OB. reflexivity.
  - right. pose proof E0 as e0. pose proof EB0 as eb. pose proof (gd_len _ _ G) as L.
    assert (LB : c_eps cB < wlen cB (ww ws) ws) by (rewrite wB, eb; exact L).
    assert (WB : winok cB n) by (pose proof (gd_win _ _ G) as W; unfold winok in *; rewrite (pt_maxWindows _ _ HP); exact W).
    destruct (A_last sA ws n TB TN IA G) as (sA1 & xA & TSA & lA & bA & AA & SA & hA & snA & rcA).
    destruct (R TSA TB TN xA AA SA) as (sB & v1 & P1 & IB & hB & snB & rcB).
    destruct (to_last gnone body 1%nat Serial EB cB (ww ws) ws n TSA [ws; XX ws] sB E0B HB ltac:(clear -Hmode; destruct fp; apply Hmode) WB LB (fun s => eq_refl) IB)
      as (sB1 & xB & TSB & lB & bB & b1 & b2 & b3 & b4 & b5 & b6 & b7 & b8 & b9 & b10 & _ & b11 & b12 & b13).
    cbn [ex1 ex2] in bB. rewrite wB in *. fold (LL ws) in *.
    assert (BB : AtEnd cB (Some (ww ws)) ws n (ws :: TSB ++ [ws + LL ws]) TSA [ws; XX ws] xB) by (constructor; assumption).
    assert (SB : stampsA ws (ws :: TSB ++ [ws + LL ws])) by (exists TSB; split; [reflexivity|rewrite <- eb; exact b9]).
    destruct (result_pair ws n TSA TB TN _ xA xB v1 G AA SA NA BB SB) as (cv & zA & yB & v2 & P2 & B2 & Cv & hy & sny & rcy & snz & rcz & Cases).
    destruct (sized_facts _ _ _ _ _ _ AA G) as (T1 & T2 & T3 & T4 & T5 & T6 & T7 & T8 & T9 & T10 & T11 & T12 & T13).
    set (yA := set_s_sent (s_sent xA ++ [v1]) (sized xA)) in *.
    assert (Run : forall tA, finish cA (ws + LL ws) zA = PRet tA ->
      exists wd, lrun (sstep body) wd [PRet sA; q] [PRet tA; QB ws yB] /\ covers wd 0 /\ covers wd 1).
    { intros tA FA.
      destruct (local0 body sA sA1 q lA) as (w1 & R1).
      pose proof (step0 body sA1 _ q bA) as R2.
      destruct (pair_run body _ _ _ _ (pair_bindl 0 1 _ _ _ _ (fun s3 => bind (secondExchange (ser_second gnone cA) cA s3) (fun s4 => handleDataAfterAdvance cA true (ws + LL ws) s4)) P1)) as (w3 & R3).
      cbn [bind] in R3.
      match type of R3 with lrun _ _ _ [?pA; _] => destruct (local1 body sB sB1 pA lB) as (w4 & R4); pose proof (step1 body sB1 pA _ bB) as R5 end.
      match type of R5 with lrun _ _ _ [?pA; ?pB] => assert (Pp : pair 0 1 pA pB (PRet tA) (QB ws yB)) end.
      { rewrite second_end.
        - eapply pair_trans; [apply pair_bindr; do 2 apply pair_bindl; exact P2|]. cbn [bind].
          unfold finish in FA. cbn [bind] in FA. rewrite FA. constructor.
        - change (s_req (sized xA) = no_acts). rewrite T7. apply AA.
        - change (s_compl (sized xA) = false). rewrite T8. apply AA.
        - eapply (reached_end cA yA (ww ws) ws); [exact e0| |exact T1]. change (s_time (sized xA) = TH (c_maxTime cA) ws (LL ws)). rewrite T3. apply AA. }
      destruct (pair_run body _ _ _ _ Pp) as (w6 & R6).
      exists (w1 ++ [(0, 0)%nat] ++ w3 ++ w4 ++ [(1, 1)%nat] ++ w6). split.
      - eapply lrun_app; [exact R1|]. eapply lrun_app; [exact R2|]. eapply lrun_app; [exact R3|]. eapply lrun_app; [exact R4|]. eapply lrun_app; [exact R5|exact R6].
      - split; [exists 0%nat, 0%nat|exists 1%nat, 1%nat]; (split; [|left; reflexivity]); rewrite !in_app_iff; cbn; tauto. }
    assert (Sent : s_sent zA = s_rcvd yB) by (rewrite snz, rcy, b13, rcB, snA; reflexivity).
    assert (Rcvd : s_rcvd zA = s_sent yB) by (rewrite rcz, sny, b12, snB, rcA; reflexivity).
    assert (Hist0 : s_hist xA = s_hist yB) by (rewrite hy, b11, hB, hA; reflexivity).
    destruct Cases as [(C1 & C2 & D)|(Hi & -> & C2 & D)].
    + destruct (next_facts cA (ww ws) ws e0 L) as (N1 & N2 & N3). fold (LL ws) in N3.
      destruct (close cA (ww ws) otws ws n (ws + LL ws) [ws + LL ws] [ws + LL ws] true (s_hist xA) zA e0 L D C2)
        as (tA & K0 & K1 & K2 & K3 & K4 & K5 & K6 & K7 & K8 & K9 & K10 & K11).
      { apply orb_true_r. } { exact N3. } { intros u [<-|[]]; exact N3. } { intros u [<-|[]]; exact N3. }
      destruct (Run tA K0) as (wd & Rn & Cv0 & Cv1).
      destruct (B_complete ws n TSA _ yB tA G B2 SA SB) as [(On & tB & Q1 & Q2 & Q3)|(On & Lw & Ns & G' & Rd)].
      { intros Hi. rewrite (Cv Hi). apply C1, Hi. } { exact K1. } { exact K2. } { exact K3. }
      { rewrite K8, Hist0. reflexivity. } { rewrite K9. exact Sent. } { rewrite K10. exact Rcvd. }
      * exists wd, [PRet tA; QB ws yB]. split; [exact Rn|]. split.
        -- rewrite Q1. apply KS_end; assumption.
        -- intros i p Hp _. destruct i as [|[|i]]; [exact Cv0|exact Cv1|destruct i; discriminate Hp].
      * exists wd, [PRet tA; QB ws yB]. split; [exact Rn|]. split.
        -- eapply (KS_round tA _ (ws + ww ws) (n + 1)); [exact G'| |left; reflexivity|exact Rd].
           rewrite Lw in *. constructor; try assumption.
           ++ rewrite K1, Ns. reflexivity.
           ++ intros Q. congruence.
           ++ exact K7.
        -- intros i p Hp _. destruct i as [|[|i]]; [exact Cv0|exact Cv1|destruct i; discriminate Hp].
    + destruct SA as (ra & HTA & SpA).
      assert (D' : DoneS cA (ww ws) (s_next zA) ws n (ws :: ra ++ [ws + LL ws]) (ws :: TSB ++ [ws + LL ws]) [ws; ws + LL ws] true (s_hist xA) zA).
      { rewrite (ds_next _ _ _ _ _ _ _ _ _ _ _ D), <- HTA. exact D. }
      destruct (repeat_close cA (ww ws) ws n _ _ _ _ zA e0 L D' Hi C2) as (tA & K0 & K1 & K2 & K3 & K4 & K5 & K6 & K7 & K8 & K9 & K10).
      { rewrite <- HTA. exact SpA. }
      rewrite (ds_next _ _ _ _ _ _ _ _ _ _ _ D) in *.
      destruct (Run tA K0) as (wd & Rn & Cv0 & Cv1). exists wd, [PRet tA; QB ws yB]. split; [exact Rn|]. split.
      * eapply (KS_round tA _ ws n); [exact G| |right; reflexivity|].
        -- constructor; try eassumption. intros Q. congruence.
        -- eapply B_repeat; try eassumption.
           ++ exists ra. split; [exact HTA|exact SpA].
           ++ apply Cv, Hi.
           ++ rewrite K8, Hist0. reflexivity.
           ++ rewrite K9. exact Sent.
           ++ rewrite K10. exact Rcvd.
      * intros i p Hp _. destruct i as [|[|i]]; [exact Cv0|exact Cv1|destruct i; discriminate Hp].
Qed.

Lemma good_first (x : st) : s_time x = TH (c_maxTime cA) 0 0 -> s_windows x = 1 -> s_tws x = otws -> good 0 1.
Proof.
  intros Ht Hn Htw. pose proof E0 as e0.
  assert (W : winok cA 1) by (unfold winok; destruct (c_maxWindows cA) as [N|] eqn:HN; [apply (pt_N _ _ HP N HN)|exact I]).
  assert (O : isCouplingOngoing cA x = true).
  { unfold isCouplingOngoing. rewrite Ht, Hn. apply andb_true_intro. split.
    - unfold winok in W. destruct (c_maxWindows cA); [apply Z.leb_le; exact W|reflexivity].
    - unfold th_reachedEnd, th_untilTime, equals. cbn [th_max th_start th_prog]. destruct (c_maxTime cA) as [T|] eqn:HT; [|reflexivity].
      pose proof (pt_T _ _ HP T HT). apply negb_true_iff, Z.leb_gt. lia. }
  unfold otws in Htw. destruct fp eqn:Fp.
  - destruct Hmode as (F & Hf). pose proof (HA x O) as X. rewrite Ht in X. specialize (X eq_refl (fun _ => conj Htw eq_refl)). unfold getMaxTimeStepSize in X. rewrite O, Htw, Ht in X.
    unfold th_untilEnd, th_untilTime in X. cbn [th_max th_start th_prog] in X. rewrite Hf, Ht in X. cbn [th_start] in X.
    assert (Q : c_eps cA < f 0 /\ wlen cA (f 0) 0 = f 0).
    { unfold wlen in *. destruct (c_maxTime cA) as [T|] eqn:HT; [|split; [exact X|reflexivity]].
      pose proof (pt_T _ _ HP T HT). destruct X as (X1 & X2); [lia|]. split; [exact X1|]. lia. }
    destruct Q as (Q1 & Q2). constructor; unfold LL, ww; rewrite ?Fp; try assumption; try congruence; try (rewrite Q2; assumption).
    intros _. left. exact Q2.
  - destruct Hmode as ((F1 & F2 & F3 & _) & Cut). constructor; unfold LL, ww; rewrite ?Fp; try assumption; try congruence.
    + unfold wlen. destruct (c_maxTime cA) as [T|] eqn:HT; [|exact F3]. pose proof (pt_T _ _ HP T HT). lia.
    + intros Hi. destruct (Cut Hi) as [C|C]; [right; exact C|left]. unfold wlen. destruct (c_maxTime cA) as [T|] eqn:HT; [|reflexivity].
      pose proof (pt_T _ _ HP T HT). destruct (C T eq_refl) as (a & ->). assert (0 < a * w0) by lia. assert (1 <= a) by nia. nia.
    + intros _. exists 0. reflexivity.
Qed.

Lemma ser_start : exists wd k0, lrun (sstep body) wd (start gnone vzero Serial cA cB EA EB) k0 /\ KS k0.
Proof.
  pose proof E0 as e0. pose proof EB0 as eb. pose proof E0B as e0b.
  assert (TwA : c_tws cA = otws) by (unfold otws; destruct fp; apply Hmode).
  assert (TwB : c_tws cB = otws) by (unfold otws; destruct fp; apply Hmode).
  destruct (start_init gnone vzero Serial EA cA e0) as (xA & a0 & a1 & a2 & a3 & a4 & a5 & a6 & a7 & a8 & a9 & a10 & a11 & a12 & a13).
  destruct (start_init gnone vzero Serial EB cB e0b) as (xB & b0 & b1 & b2 & b3 & b4 & b5 & b6 & b7 & b8 & b9 & b10 & b11 & b12 & b13).
  unfold start. rewrite a0, b0. cbn [exI].
  assert (Ri : receivesInitialized cA = sendsInitialized cB) by (unfold receivesInitialized, sendsInitialized; rewrite (pt_BA _ _ HP); reflexivity).
  assert (Si : receivesInitialized cB = sendsInitialized cA) by (unfold receivesInitialized, sendsInitialized; rewrite (pt_AB _ _ HP); reflexivity).
  unfold ser_initial. rewrite (pt_firstA _ _ HP), (pt_firstB _ _ HP), Ri, Si.
  (* B's initial data *)
  assert (Q1 : exists rA rv v2, pair 0 1 
     (if sendsInitialized cB then s' <- receiveData gnone cA xA ;; notifyDataHasBeenReceived s' else initializeWithZeroInitialData gnone vzero cA xA)
     (if sendsInitialized cB then sendData gnone cB xB else PRet xB)
     (PRet (set_s_recvd rv (set_s_rcvd (s_rcvd xA ++ v2) (set_s_recv rA xA)))) (PRet (set_s_sent (s_sent xB ++ v2) xB)) /\
     rshape (c_recv cA) [0] [0] rA).
  { destruct (sendsInitialized cB).
    - destruct (xmit gnone 1%nat 0%nat cB cA xB xA [0] [0] [0] [0]) as (r & v & X1 & X2); try assumption; try apply HP.
      { discriminate. } { exact I. }
      { rewrite a1. cbn. apply (settable_last _ [] 0 0); [exact e0|intros u []|cbn; lia]. }
      exists r, true, [v]. split; [|exact X2]. eapply pair_trans; [apply pair_bindl, pair_swap, X1|]. cbn [bind]. unfold notifyDataHasBeenReceived.
      proj. rewrite a8. constructor.
    - destruct (zeroAll_ok gnone vzero (c_eps cA) e0 (c_recv cA) (s_recv xA) [0] a7 (or_intror eq_refl)) as (r & Z1 & Z2).
      exists r, false, []. split; [|exact Z2]. unfold initializeWithZeroInitialData. rewrite a1. match goal with |- context [zeroAll _ _ _ ?t _ _] => change t with 0 end. rewrite Z1. cbn [bind].
      rewrite !app_nil_r. destruct xA, xB. cbn in *. subst. constructor. }
  destruct Q1 as (rA & rv & v2 & Q1 & QrA).
  set (yA := set_s_recvd rv (set_s_rcvd (s_rcvd xA ++ v2) (set_s_recv rA xA))) in *.
  set (yB := set_s_sent (s_sent xB ++ v2) xB) in *.
  (* A's initial data *)
  assert (Q2 : exists rB v1, pair 0 1 (if sendsInitialized cA then sendData gnone cA yA else PRet yA) (if sendsInitialized cA then receiveData gnone cB yB else PRet yB)
     (PRet (set_s_sent (s_sent yA ++ v1) yA)) (PRet (set_s_rcvd (s_rcvd yB ++ v1) (set_s_recv rB yB))) /\ rshape (c_recv cB) [0] [0] rB).
  { destruct (sendsInitialized cA).
    - destruct (xmit gnone 0%nat 1%nat cA cB yA yB [0] [0] [0] [0]) as (r & v & X1 & X2); try assumption; try apply HP.
      { discriminate. } { exact I. }
      { unfold yB. proj. rewrite b1. cbn. apply (settable_last _ [] 0 0); [exact e0b|intros u []|cbn; lia]. }
      exists r, [v]. split; [exact X1|exact X2].
    - exists (s_recv yB), []. rewrite !app_nil_r. split; [|exact b7]. clear. destruct yA, yB. constructor. }
  destruct Q2 as (rB & v1 & Q2 & QrB).
  set (zA := set_s_sent (s_sent yA ++ v1) yA) in *.
  set (zB := set_s_rcvd (s_rcvd yB ++ v1) (set_s_recv rB yB)) in *.
  match goal with |- exists wd k0, lrun _ wd [?p1; ?p2] k0 /\ _ => assert (P : pair 0 1 p1 p2 (PRet zA) (s3 <- receiveAndSetTimeWindowSize cB zB ;;
     (s4 <- receiveDataForWindowEnd gnone cB (set_s_tws (s_next s3) s3) ;; notifyDataHasBeenReceived s4))) end.
  { eapply pair_trans; [apply pair_bind; exact Q1|]. cbn [bind]. eapply pair_trans; [apply pair_bindr; exact Q2|]. cbn [bind]. constructor. }
  destruct (pair_run body _ _ _ _ P) as (wd & R). exists wd. eexists. split; [exact R|].
  assert (G : good 0 1).
  { apply (good_first xA); try assumption. congruence. }
  eapply (KS_round zA _ 0 1 [0] [0]); [exact G| |left; reflexivity|].
  - constructor; try assumption; try (change (s_tws xA = otws); congruence); try (change (s_next xA = otws); congruence).
  - intros TS TB TN x A SX.
    destruct (sizedB_same 0 zB) as (z1 & z2 & z3 & z4 & z5 & z6 & z7 & z8 & z9 & z10 & z11 & z12 & z13 & z14).
    assert (Nx : s_next (sizedB 0 zB) = Some (ww 0)).
    { eapply next_ww; [exact G|]. destruct fp eqn:Fp; [right; reflexivity|left].
      change (s_next xB = Some w0). rewrite b4, TwB. unfold otws. rewrite Fp. reflexivity. }
    set (uB := set_s_tws (s_next (sizedB 0 zB)) (sizedB 0 zB)) in *.
    destruct (window_end_pair 0 1 TS TB TN [0] x uB A G SX) as (r & v & P1 & P2).
    { unfold uB. proj. rewrite z1. change (th_time (s_time xB) = 0). rewrite b1. reflexivity. }
    { exact Nx. } { unfold uB. proj. rewrite z8. exact b8. } { unfold uB. proj. rewrite z5. exact QrB. }
    eexists _, v. split.
    { eapply pair_trans; [apply (size_pair 0 1 TS TB TN x zB _ A G)|].
      - intros Fp _ _. left. change (s_tws xB = None). rewrite b3, TwB. unfold otws. rewrite Fp. reflexivity.
      - cbv beta. fold uB. exact P1. }
    split; [|split; [|split]].
    + constructor; unfold uB; proj.
      * rewrite z1. exact b1. * rewrite z2. exact b2. * exact Nx. * exact Nx. * rewrite z6, z13. exact b5. * rewrite z4. exact b6. * exact P2.
    + unfold uB. proj. rewrite z9. change (s_hist xB = s_hist xA). congruence.
    + unfold uB. proj. rewrite z10. change (s_sent xB ++ v2 = s_rcvd xA ++ v2). congruence.
    + unfold uB. proj. rewrite z11. change ((s_rcvd xB ++ v1) ++ [v] = (s_sent xA ++ v1) ++ [v]). congruence.
Qed.

Theorem serial_correct : coupling_correct gnone vzero Serial cA cB EA EB.
Proof.
  apply (lift_correct gnone vzero Serial cA cB EA EB KS HKS ser_start).
  - intros c [sA sB OA OB Ag|sA q ws n TB TN G IA NA R].
    + exists (PRet sA), (PRet sB), sA, sB. split; [reflexivity|]. split; [apply bounded_self|]. split; [apply bounded_self|]. apply full_alike, Ag.
    + destruct (A_last sA ws n TB TN IA G) as (sA1 & xA & TSA & lA & bA & AA & SA & _).
      destruct (R TSA TB TN xA AA SA) as (sB & v1 & P1 & IB & hB & snB & rcB).
      exists (PRet sA), q, sA, sB. split; [reflexivity|]. split; [apply bounded_self|]. split.
      * intros s0 Hg. apply Hg. eapply pair_returns, P1.
      * split; [|split].
        -- rewrite hB. eexists; split; exists []; rewrite app_nil_r; reflexivity.
        -- exists (s_rcvd sB). split; [exists [v1]; exact rcB|exists []; rewrite app_nil_r; reflexivity].
        -- rewrite snB. eexists; split; exists []; rewrite app_nil_r; reflexivity.
  - intros sA sB H F. inversion H as [tA tB OA OB Ag Eq|tA q ws n TB TN G IA NA R Eq]; [subst; exact Ag|]. subst tA.
    exfalso. pose proof (F 0%nat (PRet sA) eq_refl) as (s' & E & Fb). injection E as <-.
    destruct (A_last sA ws n TB TN IA G) as (sA1 & xA & TSA & lA & bA & _).
    inversion lA as [s1 Q|s1 s2 s3 Hs Hl]; [subst sA1; congruence|congruence].
Qed.
End Ser.
