(** Parallel coupling of two participants (C15, C16). *)
From Coq Require Import ZArith Bool List Lia.
From Verif Require Import M_Net M_Time M_Wave M_Cpl S_Prog S_Cpl S_Net P_Prog P_Net P_Pair P_Log P_NetLift P_CplData P_CplStep P_CplWin.
Import ListNotations.
Open Scope Z_scope.

Section Common.
Context {V : Type}.
Variables (gnone vzero : V).
Notation st := (st (V:=V)).

Lemma xmit i j cX cY (sX sY : st) TS TB TN TN' :
  c_partner cX = j -> c_partner cY = i -> c_recv cY = c_send cX -> 0 <= c_eps cY ->
  TS <> [] -> spaced (c_eps cY) TS -> settable (c_eps cY) TN (th_time (s_time sY)) TN' ->
  sshape (length (c_send cX)) TS (s_send sX) -> rshape (c_recv cY) TB TN (s_recv sY) ->
  exists r v, pair i j (sendData gnone cX sX) (receiveData gnone cY sY)
      (PRet (set_s_sent (s_sent sX ++ [v]) sX)) (PRet (set_s_rcvd (s_rcvd sY ++ [v]) (set_s_recv r sY))) /\
    rshape (c_recv cY) TS TN' r.
Proof.
  intros HX HY Hc E N S St Ss Rs. rewrite Hc in Rs.
  destruct (transmit gnone i j _ _ _ _ _ _ _ E N S St _ _ Ss Rs) as (r & H1 & H2 & H3).
  exists r, (viewsOf gnone (c_send cX) (s_send sX)). split.
  - unfold sendData, receiveData. rewrite HX, HY, Hc, <- H2. eapply pair_trans; [apply pair_bind, H1|]. cbn [bind].
    rewrite H2. constructor.
  - rewrite Hc. exact H3.
Qed.

Lemma measure_ok c E (s : st) : measures_ok c E -> exists b, measureConvergence c (e_measure E s) s = PRet b.
Proof.
  intros H. destruct (H s) as (L & Sf). unfold measureConvergence.
  destruct (c_measures c) as [|m0 ms0] eqn:Hms; [exists false; reflexivity|]. rewrite <- Hms in *. 
  assert (G : forall ms os a b d, length os = length ms ->
     (strict_failed (combine ms os) -> exists mx, c_maxIt c = Some mx /\ s_it s < mx) ->
     exists r, measureLoop (V:=V) (s_it s) (c_maxIt c) ms os a b d = PRet r).
  { clear. induction ms as [|(su, sr) ms IH]; intros os a b d L Sf; [eexists; reflexivity|].
    destruct os as [|o os]; [discriminate L|]. cbn [measureLoop].
    assert (Sf' : strict_failed (combine ms os) -> exists mx, c_maxIt c = Some mx /\ s_it s < mx).
    { intros (m & M1 & M2). apply Sf. exists m. split; [right; exact M1|exact M2]. }
    assert (L' : length os = length ms) by (cbn in L; lia).
    destruct o; [apply IH; assumption|]. destruct sr; [|apply IH; assumption].
    destruct Sf as (mx & H1 & H2). { exists (su, true, false). split; [left; reflexivity|split; reflexivity]. }
    rewrite H1 in *. destruct (Z.ltb_spec (s_it s) mx) as [Q|Q]; [|lia]. cbn [check_ bind]. apply IH; assumption. }
  destruct (G (c_measures c) (e_measure E s) true false false L Sf) as (((a, b), d) & Q). rewrite Q. cbn [bind].
  eexists. reflexivity.
Qed.

Lemma implicit_ok c E b (s : st) : measures_ok c E -> exists cv s', doImplicitStep E b c s = PRet s' /\
  s_conv s' = cv /\ s_time s' = s_time s /\ s_windows s' = s_windows s /\ s_tws s' = s_tws s /\ s_next s' = s_next s /\
  s_it s' = s_it s /\ s_compl s' = s_compl s /\ s_recvd s' = s_recvd s /\ s_req s' = s_req s /\
  s_hist s' = s_hist s /\ s_sent s' = s_sent s /\ s_rcvd s' = s_rcvd s /\
  (forall n TS, sshape n TS (s_send s) -> sshape n TS (s_send s')) /\
  (forall ds TB TN, rshape ds TB TN (s_recv s) -> rshape ds TB TN (s_recv s')) /\
  (b = false -> s_recv s' = s_recv s).
Proof.
  intros H. destruct (measure_ok c E s H) as (x & Q). unfold doImplicitStep. rewrite Q. cbn [bind]. cbv zeta.
  set (cv := x || _). exists cv.
  assert (A : forall X, X = accelerate E b (set_s_conv cv s) \/ X = set_s_conv cv s ->
    s_conv X = cv /\ s_time X = s_time s /\ s_windows X = s_windows s /\ s_tws X = s_tws s /\ s_next X = s_next s /\
    s_it X = s_it s /\ s_compl X = s_compl s /\ s_recvd X = s_recvd s /\ s_req X = s_req s /\
    s_hist X = s_hist s /\ s_sent X = s_sent s /\ s_rcvd X = s_rcvd s /\
    (forall n TS, sshape n TS (s_send s) -> sshape n TS (s_send X)) /\
    (forall ds TB TN, rshape ds TB TN (s_recv s) -> rshape ds TB TN (s_recv X)) /\
    (b = false -> s_recv X = s_recv s)).
  { intros X [-> | ->]; [|repeat split; intros; try assumption; apply H0].
    destruct b; cbn; repeat (split; [reflexivity|]).
    - split; [|split; [|discriminate]].
      + intros n TS Hs. apply sshape_mapi; [|exact Hs]. intros kk w Hw. rewrite map_map. exact Hw.
      + intros ds TB TN Hs. apply rshape_mapi; [|exact Hs]. intros kk w. rewrite map_map. reflexivity.
    - split; [|split; [|reflexivity]].
      + intros n TS Hs. apply sshape_mapi; [|exact Hs]. intros kk w Hw. rewrite map_map. exact Hw.
      + intros ds TB TN Hs. exact Hs. }
  destruct cv eqn:Hcv.
  - exists (set_s_conv true s). split; [reflexivity|]. apply A. right. reflexivity.
  - exists (accelerate E b (set_s_conv false s)). split; [reflexivity|]. apply A. left. reflexivity.
Qed.

Lemma at_end c (s : st) w ws : 0 <= c_eps c -> s_time s = TH (c_maxTime c) ws (wlen c w ws) -> s_tws s = Some w -> atWindowEnd c s = true.
Proof.
  intros E0 Ht Hw. unfold atWindowEnd, getWindowEndTime. rewrite Hw, Ht. unfold equals, th_time, th_untilWindowEnd, th_untilProgress, th_untilTime, wlen.
  cbn [th_max th_start th_prog]. apply Z.leb_le. destruct (c_maxTime c); lia.
Qed.

Lemma reached_end c (s : st) w ws : 0 <= c_eps c -> s_time s = TH (c_maxTime c) ws (wlen c w ws) -> s_tws s = Some w -> reachedEndOfTimeWindow c s = true.
Proof.
  intros E0 Ht Hw. unfold reachedEndOfTimeWindow, th_reachedEndOfWindow. rewrite Hw, Ht. unfold equals, th_untilWindowEnd, th_untilProgress, th_untilTime, wlen.
  cbn [th_max th_start th_prog]. apply Z.leb_le. destruct (c_maxTime c); lia.
Qed.

Lemma store_ok c (s : st) TS TB TN : sshape (length (c_send c)) TS (s_send s) -> rshape (c_recv c) TB TN (s_recv s) ->
  TS <> [] -> TB <> [] -> TN <> [] -> storeIteration s = PRet s.
Proof.
  intros A B N1 N2 N3. unfold storeIteration. rewrite forallb_app, (nonempty_send _ _ _ N1 A), (nonempty_recv _ _ _ _ N2 N3 B).
  reflexivity.
Qed.

(** start of the next window *)
Definition next_start (c : conf) (w ws : Z) : Z :=
  if Z.abs (wlen c w ws - w) <=? c_eps c then ws + w else ws + wlen c w ws.

Lemma next_facts c w ws : 0 <= c_eps c -> c_eps c < wlen c w ws ->
  (Z.abs (wlen c w ws - w) <= c_eps c \/ th_reachedEnd (c_eps c) (TH (c_maxTime c) ws (wlen c w ws)) = true) /\
  ws + wlen c w ws <= next_start c w ws + c_eps c /\ next_start c w ws - c_eps c <= ws + wlen c w ws.
Proof.
  intros E0 L. unfold next_start, th_reachedEnd, th_untilTime, equals. cbn [th_max th_start th_prog].
  destruct (Z.leb_spec (Z.abs (wlen c w ws - w)) (c_eps c)) as [Q|Q].
  - split; [left; exact Q|lia].
  - split; [|lia]. right. unfold wlen in *. destruct (c_maxTime c) as [T|]; [|lia]. apply Z.leb_le. lia.
Qed.

(** if the coupling goes on, the window was not cut *)
Lemma next_ongoing c w ws n (s : st) : 0 <= c_eps c -> c_eps c < w -> c_eps c < wlen c w ws ->
  s_time s = TH (c_maxTime c) (next_start c w ws) 0 -> s_windows s = n ->
  isCouplingOngoing c s = true ->
  wlen c w ws = w /\ next_start c w ws = ws + w /\ winok c n /\ c_eps c < wlen c w (ws + w).
Proof.
  intros E0 Ew L Ht Hn O. unfold isCouplingOngoing in O. apply andb_prop in O as (O1 & O2). rewrite Hn in O1.
  apply negb_true_iff in O2. rewrite Ht in O2.
  assert (W : winok c n) by (unfold winok; destruct (c_maxWindows c); [apply Z.leb_le; exact O1|exact I]).
  unfold th_reachedEnd, th_untilTime, equals, next_start, wlen in *. cbn [th_max th_start th_prog] in O2.
  destruct (c_maxTime c) as [T|].
  - apply Z.leb_gt in O2. destruct (Z.leb_spec (Z.abs (Z.min w (T - ws) - w)) (c_eps c)); repeat split; try assumption; lia.
  - destruct (Z.leb_spec (Z.abs (w - w)) (c_eps c)); repeat split; try assumption; lia.
Qed.

(** the next window is ongoing for both or for none *)
Lemma same_ongoing cA cB (sA sB : st) : partners cA cB -> s_time sA = s_time sB -> s_windows sA = s_windows sB ->
  isCouplingOngoing cA sA = isCouplingOngoing cB sB.
Proof.
  intros P Ht Hw. unfold isCouplingOngoing. rewrite Ht, Hw, (pt_maxWindows _ _ P), (pt_eps _ _ P). reflexivity.
Qed.

(** participant at the beginning of a window *)
Record AtStart (c : conf) (w ws n : Z) (TB TN : list Z) (s : st) : Prop := {
  bg_time : s_time s = TH (c_maxTime c) ws 0;
  bg_windows : s_windows s = n;
  bg_tws : s_tws s = Some w;
  bg_next : s_next s = Some w;
  bg_init : a_init (s_req s) = true -> a_init (s_ful s) = true;
  bg_send : sshape (length (c_send c)) [ws] (s_send s);
  bg_recv : rshape (c_recv c) TB TN (s_recv s)
}.

Lemma start_inwin c w ws n TB TN s : AtStart c w ws n TB TN s -> InWin c w ws 0 n [ws] s.
Proof.
  intros I. constructor; try apply I. split; [exact Logic.I|]. split; [exists []; reflexivity|].
  intros u [<-|[]]. lia.
Qed.

(** running a participant to its last step in the window *)
Lemma to_last (body : nat -> st -> option (proc (msg V) st)) i k E c w ws n TB TN s :
  0 <= c_eps c -> exact_solver c E -> c_sets c = false -> winok c n -> c_eps c < wlen c w ws ->
  (forall s, body i s = solverLoop gnone k E c s) ->
  AtStart c w ws n TB TN s ->
  exists s1 x TS1, local body i s s1 /\
    body i s1 = Some
      (bind (ex1 gnone k E c x) (fun s3 => bind (secondExchange (ex2 gnone k E c) c s3)
        (fun s4 => handleDataAfterAdvance c true (ws + wlen c w ws) s4))) /\
    s_time x = TH (c_maxTime c) ws (wlen c w ws) /\ s_windows x = n + 1 /\ s_tws x = Some w /\ s_next x = Some w /\
    s_req x = no_acts /\ s_compl x = false /\ s_recvd x = false /\
    sshape (length (c_send c)) (ws :: TS1 ++ [ws + wlen c w ws]) (s_send x) /\
    spaced (c_eps c) (ws :: TS1 ++ [ws + wlen c w ws]) /\
    rshape (c_recv c) TB TN (s_recv x) /\ s_it x = s_it s /\
    s_hist x = s_hist s /\ s_sent x = s_sent s /\ s_rcvd x = s_rcvd s.
Proof.
  intros E0 Ex Hs W L Hb I.
  destruct (to_end gnone body i k E c w ws n E0 Ex Hs W Hb (Z.to_nat (wlen c w ws)) 0 [ws] s) as (s1 & p1 & TS1 & A1 & A2 & A3 & A4 & A5);
    [lia|eapply start_inwin, I|lia|].
  destruct (last_step gnone k E c w ws p1 n TS1 s1 E0 W A2 A3 A4) as (x & TS2 & B1 & B2 & B3 & B4 & B5 & B6 & B7 & B8 & B9 & B10).
  exists s1, x, TS2. destruct A5 as (C1 & C2 & C3 & C4 & C5 & C6). destruct B10 as (D1 & D2 & D3 & D4 & D5 & D6).
  split; [exact A1|]. split; [rewrite Hb; exact B1|]. repeat (split; [assumption|]).
  split; [rewrite D1, C1; apply I|]. repeat (split; [assumption|]).
  split; [rewrite D3, C3; apply I|]. repeat split; congruence.
Qed.

Lemma move_send n TS u (ws : list (wave (smp V))) : sshape n (TS ++ [u]) ws -> sshape n [u] (map d_moveToNextWindow ws).
Proof. apply sshape_map. intros w H. eapply move_stamps, H. Qed.
Lemma move_recv ds l1 u1 l2 u2 (ws : list (wave (smp V))) : rshape ds (l1 ++ [u1]) (l2 ++ [u2]) ws ->
  rshape ds [u1] [u2] (map d_moveToNextWindow ws).
Proof. apply rshape_map; intros w H; eapply move_stamps, H. Qed.
(** initialize() up to the exchange of initial data *)
Lemma start_init_g E e c : 0 <= c_eps c -> exists x, initialize gnone vzero E e c (answerInit (st0 c)) = e x /\
  s_time x = TH (c_maxTime c) 0 0 /\ s_windows x = 1 /\ s_tws x = c_tws c /\ s_next x = c_tws c /\
  (a_init (s_req x) = true -> a_init (s_ful x) = true) /\
  sshape (length (c_send c)) [0] (s_send x) /\ rshape (c_recv c) [0] [0] (s_recv x) /\ s_recvd x = false /\
  s_it x = 1 /\ s_conv x = false /\ s_hist x = [] /\ s_sent x = [] /\ s_rcvd x = [].
Proof.
  intros E0. set (x0 := answerInit (st0 c)).
  assert (A : (negb (a_init (s_req x0)) || a_init (s_ful x0) = true) /\ s_time x0 = TH (c_maxTime c) 0 0 /\ s_tws x0 = c_tws c /\ s_next x0 = c_tws c /\
    s_send x0 = map (fun _ => []) (c_send c) /\ s_recv x0 = map (fun _ => []) (c_recv c) /\ s_it x0 = 1 /\ s_conv x0 = false /\ s_hist x0 = [] /\ s_sent x0 = [] /\ s_rcvd x0 = []).
  { unfold x0, answerInit, st0. cbn. destruct (sendsInitialized c); cbn; repeat split. }
  destruct A as (A0 & A1 & A2 & A3 & A4 & A5 & A6 & A7 & A8 & A9 & A10).
  clearbody x0. unfold initialize. rewrite A0. cbn [check_ bind].
  assert (S0 : sshape (length (c_send c)) [] (s_send x0)).
  { rewrite A4. clear. induction (c_send c) as [|d ds IH]; split; cbn; try constructor; try reflexivity; [f_equal; apply IH|apply IH]. }
  destruct (writeAll_ok (c_eps c) 0 (e_write0 E) [] E0 ltac:(intros u []) (s_send x0) 0%nat _ S0) as (ws & H1 & H2).
  rewrite H1. cbn [bind]. cbv zeta.
  assert (R0 : rshape (c_recv c) [] [] (s_recv x0)).
  { rewrite A5. clear. induction (c_recv c) as [|d ds IH]; constructor; [destruct (d_sub d); reflexivity|exact IH]. }
  unfold initializeWithZeroInitialData. cbn [s_recv set_s_time set_s_send s_time th_resetTo th_time th_start th_prog]. rewrite A1.
  destruct (zeroAll_ok gnone vzero (c_eps c) E0 (c_recv c) (s_recv x0) [] R0 (or_introl eq_refl)) as (r & H3 & H4).
  match goal with |- context [zeroAll _ _ _ ?t _ _] => change t with 0 end.
  rewrite H3. cbn [bind].
  match goal with |- context [check_ ?b 44] => assert (B : b = true) end.
  { cbn [s_send set_s_recvd set_s_windows set_s_recv set_s_time set_s_send]. eapply nonempty_send; [|exact H2]. discriminate. }
  rewrite B. cbn [check_ bind].
  assert (I0 : a_init (s_req x0) = true -> a_init (s_ful x0) = true).
  { intros Q. rewrite Q in A0. exact A0. }
  destruct (c_implicit c) eqn:Hi.
  - rewrite (store_ok c _ [0] [0] [0]); [|exact H2|exact H4|discriminate|discriminate|discriminate]. cbn [bind].
    eexists. split; [reflexivity|]. cbn. rewrite ?A1. cbn. repeat (split; [first [reflexivity|assumption]|]). assumption.
  - cbn [bind]. eexists. split; [reflexivity|]. cbn. rewrite ?A1. cbn. repeat (split; [first [reflexivity|assumption]|]). assumption.
Qed.
Lemma start_init k E c : 0 <= c_eps c -> exists x, solverStart gnone vzero k E c = exI gnone vzero k c x /\
  s_time x = TH (c_maxTime c) 0 0 /\ s_windows x = 1 /\ s_tws x = c_tws c /\ s_next x = c_tws c /\
  (a_init (s_req x) = true -> a_init (s_ful x) = true) /\
  sshape (length (c_send c)) [0] (s_send x) /\ rshape (c_recv c) [0] [0] (s_recv x) /\ s_recvd x = false /\
  s_it x = 1 /\ s_conv x = false /\ s_hist x = [] /\ s_sent x = [] /\ s_rcvd x = [].
Proof. exact (start_init_g E (exI gnone vzero k c) c). Qed.

(** measuring and accelerating keeps the time stamps of received data *)
Lemma implicit_stamps c E b (s s' : st) : doImplicitStep E b c s = PRet s' ->
  map (map fst) (s_recv s') = map (map fst) (s_recv s).
Proof.
  unfold doImplicitStep. destruct (measureConvergence c (e_measure E s) s) as [x|e|j m k|j k]; cbn [bind]; try discriminate.
  cbv zeta. destruct (x || _); intros H; injection H as <-; [reflexivity|].
  unfold accelerate. destruct b; [|reflexivity]. cbn [s_recv set_s_recv set_s_send set_s_conv].
  generalize 0%nat. induction (s_recv s) as [|w0 r IH]; intros k0; [reflexivity|]. cbn [mapi map]. rewrite IH, map_map. reflexivity.
Qed.
End Common.

Section Par.
Context {V : Type}.
Variables (gnone vzero : V).
Notation st := (st (V:=V)).
Variables (cA cB : conf) (EA EB : env (V:=V)) (w : Z).
Hypothesis HP : partners cA cB.
Hypothesis HW : fixed_window w cA cB.
Hypothesis HA : exact_solver cA EA.
Hypothesis HB : exact_solver cB EB.
Hypothesis HM : c_implicit cB = true -> measures_ok cB EB.
Notation body := (couple gnone Parallel cA cB EA EB).

Definition TNok (c : conf) (ws : Z) (TN : list Z) : Prop := TN = [ws] \/ TN = [ws; ws + wlen c w ws].

Inductive KP : net (M:=msg V) (S:=st) -> Prop :=
| KP_end sA sB : isCouplingOngoing cA sA = false -> isCouplingOngoing cB sB = false -> agree_fully sA sB ->
    KP [PRet sA; PRet sB]
| KP_round sA sB ws n TBA TNA TBB TNB :
    winok cA n -> c_eps cA < wlen cA w ws -> agree_fully sA sB ->
    AtStart cA w ws n TBA TNA sA -> AtStart cB w ws n TBB TNB sB -> TNok cA ws TNA -> TNok cA ws TNB ->
    KP [PRet sA; PRet sB].

Lemma wlenB ws : wlen cB w ws = wlen cA w ws.
Proof. unfold wlen. rewrite (pt_maxTime _ _ HP). reflexivity. Qed.

Lemma tn_settable c ws TN : 0 <= c_eps c -> c_eps c < wlen c w ws -> TNok c ws TN ->
  settable (c_eps c) TN (ws + wlen c w ws) [ws; ws + wlen c w ws].
Proof.
  intros E0 L [-> | ->].
  - apply (settable_append _ [ws]); [exact E0|]. intros u [<-|[]]. lia.
  - apply (settable_last _ [ws]); [exact E0| |rewrite Z.sub_diag; cbn; lia]. intros u [<-|[]]. lia.
Qed.

Lemma last_two (a : Z) l b : a :: l ++ [b] = (a :: l) ++ [b].
Proof. reflexivity. Qed.

Lemma spaced_tail eps a l b : 0 <= eps -> spaced eps (a :: l ++ [b]) -> forall u, In u (l ++ [b]) -> a + eps < u.
Proof. intros E S. apply spaced_head; assumption. Qed.

(** everything known about a participant after both exchanges *)
Record Done (c : conf) (ws n : Z) (TS TB TN : list Z) (cv : bool) (x s1 : st) : Prop := {
  dn_time : s_time s1 = TH (c_maxTime c) ws (wlen c w ws);
  dn_windows : s_windows s1 = n + 1;
  dn_tws : s_tws s1 = Some w;
  dn_next : s_next s1 = Some w;
  dn_req : s_req s1 = no_acts;
  dn_compl : s_compl s1 = false;
  dn_recvd : s_recvd s1 = true;
  dn_conv : s_conv s1 = cv;
  dn_hist : s_hist s1 = s_hist x;
  dn_send : sshape (length (c_send c)) TS (s_send s1);
  dn_recv : rshape (c_recv c) TB TN (s_recv s1)
}.

(** one participant: from the end of the exchanges to the next window *)
Lemma conclude c ws n TS1 x s1 :
  0 <= c_eps c -> c_eps c < w -> c_eps c < wlen c w ws ->
  c_tws c = Some w ->
  spaced (c_eps c) (ws :: TS1 ++ [ws + wlen c w ws]) ->
  (Done c ws n [ws + wlen c w ws] [ws + wlen c w ws] [ws + wlen c w ws] true x s1 /\ c_implicit c = true \/
   c_implicit c = false /\ exists cv, Done c ws n [ws + wlen c w ws] [ws + wlen c w ws] [ws + wlen c w ws] cv x s1) ->
  exists s', finish c (ws + wlen c w ws) s1 = PRet s' /\
    s_time s' = TH (c_maxTime c) (next_start c w ws) 0 /\ s_windows s' = n + 1 /\
    s_hist s' = s_hist x ++ [Hist (next_start c w ws) (n + 1) true (isCouplingOngoing c s')] /\
    s_sent s' = s_sent s1 /\ s_rcvd s' = s_rcvd s1 /\
    (isCouplingOngoing c s' = true -> AtStart c w (ws + w) (n + 1) [ws + w] [ws + w] s').
Proof.
  intros E0 Ew L Hw Sp H.
  assert (Q : exists cv, Done c ws n [ws + wlen c w ws] [ws + wlen c w ws] [ws + wlen c w ws] cv x s1 /\ (c_implicit c = true -> cv = true)).
  { destruct H as [(D & Hi)|(Hi & cv & D)]; [exists true; auto|exists cv; split; [exact D|congruence]]. }
  clear H. destruct Q as (cv & D & Hcv).
  destruct (next_facts c w ws E0 L) as (N1 & N2 & N3).
  destruct (finish_complete c s1 ws (wlen c w ws) w (ws + wlen c w ws) [ws + wlen c w ws] [ws + wlen c w ws] E0)
    as (s' & F & A1 & A2 & A3 & A4 & A5 & A6 & A7 & A8 & A9 & A10 & A11 & A12 & A13 & A14).
  - apply D. - apply D. - apply D. - apply D.
  - rewrite (dn_conv _ _ _ _ _ _ _ _ _ D). exact Hcv.
  - rewrite (dn_recvd _ _ _ _ _ _ _ _ _ D). apply orb_true_r.
  - rewrite (dn_time _ _ _ _ _ _ _ _ _ D). exact N1.
  - exact N2.
  - apply D. - exact N3.
  - apply D.
  - intros u [<-|[]]. exact N3.
  - intros u [<-|[]]. exact N3.
  - exists s'. split; [exact F|]. split; [exact A1|]. rewrite (dn_windows _ _ _ _ _ _ _ _ _ D) in A2, A12. split; [exact A2|].
    split; [rewrite A12, (dn_hist _ _ _ _ _ _ _ _ _ D); reflexivity|]. split; [exact A13|]. split; [exact A14|].
    intros O. destruct (next_ongoing c w ws (n + 1) s' E0 Ew L A1 A2 O) as (B1 & B2 & B3 & B4).
    unfold next_start in B2. rewrite B1 in *.
    constructor; try assumption.
    + rewrite A1. f_equal. exact B2.
    + rewrite A3. apply D.
    + rewrite A4. apply D.
    + rewrite A5. discriminate.
Qed.

Lemma conclude_repeat c ws n TS1 TB1 x s1 :
  0 <= c_eps c -> c_eps c < wlen c w ws -> c_implicit c = true ->
  spaced (c_eps c) (ws :: TS1 ++ [ws + wlen c w ws]) ->
  Done c ws n (ws :: TS1 ++ [ws + wlen c w ws]) TB1 [ws; ws + wlen c w ws] false x s1 ->
  exists s', finish c (ws + wlen c w ws) s1 = PRet s' /\
    s_hist s' = s_hist x ++ [Hist ws n false (isCouplingOngoing c s')] /\
    s_sent s' = s_sent s1 /\ s_rcvd s' = s_rcvd s1 /\
    AtStart c w ws n TB1 [ws; ws + wlen c w ws] s'.
Proof.
  intros E0 L Hi Sp D.
  destruct (finish_repeat c s1 ws (wlen c w ws) (TS1 ++ [ws + wlen c w ws]) TB1 [ws; ws + wlen c w ws] E0)
    as (s' & F & A1 & A2 & A3 & A4 & A5 & A6 & A7 & A8 & A9 & A10 & A11 & A12 & A13 & A14); try apply D; try assumption.
  - apply spaced_tail; assumption.
  - rewrite (dn_windows _ _ _ _ _ _ _ _ _ D) in A2, A12. replace (n + 1 - 1) with n in A2, A12 by lia.
    exists s'. split; [exact F|]. split; [rewrite A12, (dn_hist _ _ _ _ _ _ _ _ _ D); reflexivity|]. split; [exact A13|]. split; [exact A14|].
    constructor; try assumption.
    + rewrite A3. apply D. + rewrite A4. apply D. + rewrite A5. discriminate.
Qed.

Ltac proj := cbn [s_time s_windows s_tws s_next s_it s_tot s_conv s_compl s_recvd s_req s_ful s_send s_recv s_hist s_sent s_rcvd
  set_s_time set_s_windows set_s_tws set_s_next set_s_it set_s_tot set_s_conv set_s_compl set_s_recvd set_s_req set_s_ful set_s_send
  set_s_recv set_s_hist set_s_sent set_s_rcvd cleared moveToNextWindow].

Lemma HKP c : KP c -> all_finished body c \/
  exists wd c', lrun (sstep body) wd c c' /\ KP c' /\
    forall i p, nth_error c i = Some p -> ~ finished body i p -> covers wd i.
Proof.
  intros [sA sB OA OB Ag|sA sB ws n TBA TNA TBB TNB W L Ag IA IB NA NB].
  - left. intros i p Hp. destruct i as [|[|i]]; cbn in Hp; [injection Hp as <-|injection Hp as <-|destruct i; discriminate Hp].
    + exists sA. split; [reflexivity|]. cbn. unfold solverLoop. rewrite OA. reflexivity.
    + exists sB. split; [reflexivity|]. cbn. unfold solverLoop. rewrite OB. reflexivity.
  - right.
    pose proof (pt_eps0 _ _ HP) as E0. pose proof (pt_eps _ _ HP) as EB0.
    assert (E0B : 0 <= c_eps cB) by (rewrite EB0; exact E0).
    destruct HW as (W1 & W2 & W3 & W4 & W5 & W6 & W7).
    pose proof (wlenB ws) as LB. assert (L' : c_eps cB < wlen cB w ws) by (rewrite LB, EB0; exact L).
    assert (WB : winok cB n) by (unfold winok in *; rewrite (pt_maxWindows _ _ HP); exact W).
    destruct (to_last gnone body 0%nat Parallel EA cA w ws n TBA TNA sA E0 HA ltac:(apply HW) W L (fun s => eq_refl) IA)
      as (sA1 & xA & TSA & lA & bA & a1 & a2 & a3 & a4 & a5 & a6 & a7 & a8 & a9 & a10 & _ & a11 & a12 & a13).
    destruct (to_last gnone body 1%nat Parallel EB cB w ws n TBB TNB sB E0B HB ltac:(apply HW) WB L' (fun s => eq_refl) IB)
      as (sB1 & xB & TSB & lB & bB & b1 & b2 & b3 & b4 & b5 & b6 & b7 & b8 & b9 & b10 & _ & b11 & b12 & b13).
    cbn [ex1 ex2] in bA, bB.
    rewrite LB in *. set (e := ws + wlen cA w ws) in *.
    assert (AeA : atWindowEnd cA xA = true) by (eapply at_end; eassumption).
    assert (AeB : atWindowEnd cB xB = true) by (eapply at_end; [exact E0B|rewrite LB; exact b1|exact b3]).
    (* first exchange *)
    destruct (xmit gnone 0%nat 1%nat cA cB xA xB (ws :: TSA ++ [e]) TBB TNB [ws; e]) as (rB & v1 & X1 & X2).
    { apply HP. } { apply HP. } { apply HP. } { exact E0B. } { discriminate. } { rewrite EB0. exact a9. }
    { rewrite b1. unfold th_time. cbn [th_start th_prog]. unfold e. rewrite <- LB. apply tn_settable; [exact E0B|rewrite LB, EB0; exact L|].
      unfold TNok in *. rewrite LB. exact NB. }
    { exact a8. } { exact b10. }
    set (yA := set_s_sent (s_sent xA ++ [v1]) xA) in *.

    set (yB0 := set_s_rcvd (s_rcvd xB ++ [v1]) (set_s_recv rB xB)) in *.
    set (yB := set_s_recvd true yB0).
    assert (P1 : pair 0 1 (par_first gnone cA xA) (par_first gnone cB xB) (PRet yA) (PRet yB)).
    { unfold par_first. rewrite AeA, AeB, (pt_firstA _ _ HP), (pt_firstB _ _ HP). cbn [assert_ bind].
      eapply pair_trans; [apply pair_bindr, X1|]. cbn [bind]. unfold notifyDataHasBeenReceived.
      change (s_recvd yB0) with (s_recvd xB). rewrite b7. constructor. }
    (* second exchange *)
    assert (P2 : exists cv zA zB TBA' TNA' TBB' TNB' v2,
      pair 0 1 (par_second gnone EA cA (cleared yA)) (par_second gnone EB cB (cleared yB)) (PRet zA) (PRet zB) /\
      s_sent zA = s_sent xA ++ [v1] /\ s_rcvd zA = s_rcvd xA ++ [v2] /\ s_sent zB = s_sent xB ++ [v2] /\ s_rcvd zB = s_rcvd xB ++ [v1] /\
      ((c_implicit cA = true /\ cv = false /\ TBA' = ws :: TSB ++ [e] /\ TNA' = [ws; e] /\ TBB' = ws :: TSA ++ [e] /\ TNB' = [ws; e] /\
        Done cA ws n (ws :: TSA ++ [e]) TBA' TNA' cv xA zA /\ Done cB ws n (ws :: TSB ++ [e]) TBB' TNB' cv xB zB) \/
       ((c_implicit cA = true -> cv = true) /\ TBA' = [e] /\ TNA' = [e] /\ TBB' = [e] /\ TNB' = [e] /\
        (exists ca, (c_implicit cA = true -> ca = true) /\ Done cA ws n [e] [e] [e] ca xA zA) /\
        (exists cb, (c_implicit cA = true -> cb = true) /\ Done cB ws n [e] [e] [e] cb xB zB)))).
    { assert (AeA' : atWindowEnd cA (cleared yA) = true) by exact AeA.
      assert (AeB' : atWindowEnd cB (cleared yB) = true) by exact AeB.
      unfold par_second. rewrite AeA', AeB', (pt_implicit _ _ HP), (pt_firstA _ _ HP), (pt_firstB _ _ HP). cbn [assert_ bind].
      destruct (c_implicit cA) eqn:Hi.
      - assert (HiB : c_implicit cB = true) by (rewrite (pt_implicit _ _ HP); exact Hi).
        destruct (implicit_ok cB EB true (cleared yB) (HM HiB)) as (cv & uB & U0 & U1 & U2 & U3 & U4 & U5 & U6 & U7 & U8 & U9 & U10 & U11 & U12 & U13 & U14 & _).
        rewrite U0. cbn [bind]. set (uA := set_s_conv cv (cleared yA)).
        destruct (xmit gnone 1%nat 0%nat cB cA uB uA (ws :: TSB ++ [e]) TBA TNA [ws; e]) as (rA & v2 & Y1 & Y2).
        { apply HP. } { apply HP. } { apply HP. } { exact E0. } { discriminate. } { rewrite <- EB0. exact b9. }
        { unfold uA. proj. unfold yA. proj. rewrite a1. unfold th_time. cbn [th_start th_prog]. apply tn_settable; assumption. }
        { apply U13. exact b8. } { exact a10. }
        set (qA0 := set_s_rcvd (s_rcvd uA ++ [v2]) (set_s_recv rA uA)) in *.
        set (qA := set_s_recvd true qA0).
        set (qB := set_s_sent (s_sent uB ++ [v2]) uB) in *.
        assert (Cq : s_conv qA = cv) by reflexivity. assert (CqB : s_conv qB = cv) by exact U1.
        set (zA := if cv then moveToNextWindow qA else qA). set (zB := if cv then moveToNextWindow qB else qB).
        assert (SA : sshape (length (c_send cA)) (ws :: TSA ++ [e]) (s_send qA)) by exact a8.
        assert (SB : sshape (length (c_send cB)) (ws :: TSB ++ [e]) (s_send qB)) by (apply U13; exact b8).
        assert (RA : rshape (c_recv cA) (ws :: TSB ++ [e]) [ws; e] (s_recv qA)) by exact Y2.
        assert (RB : rshape (c_recv cB) (ws :: TSA ++ [e]) [ws; e] (s_recv qB)) by (apply U14; exact X2).
        exists cv, zA, zB, (if cv then [e] else ws :: TSB ++ [e]), (if cv then [e] else [ws; e]),
           (if cv then [e] else ws :: TSA ++ [e]), (if cv then [e] else [ws; e]), v2.
        split.
        { eapply pair_trans; [apply pair_bind with (f := fun s1 => storeIteration (if s_conv s1 then moveToNextWindow s1 else s1)) (g := fun s1 => storeIteration (if s_conv s1 then moveToNextWindow s1 else s1))|].
          - unfold receiveConvergence, recvBool, sendConvergence, send, recv. rewrite (pt_pA _ _ HP), (pt_pB _ _ HP). cbn [bind].
            apply pair_ba. cbn [bind]. rewrite U1. fold uA.
            eapply pair_trans; [apply pair_bindl, pair_swap, Y1|]. cbn [bind]. unfold notifyDataHasBeenReceived.
            assert (Rq : s_recvd qA0 = false) by exact a7. rewrite Rq. cbn [negb assert_ bind]. constructor.
          - cbn [bind]. fold qA. rewrite Cq, CqB.
            rewrite (store_ok cA (if cv then moveToNextWindow qA else qA) (if cv then [e] else ws :: TSA ++ [e]) (if cv then [e] else ws :: TSB ++ [e]) (if cv then [e] else [ws; e])).
            rewrite (store_ok cB (if cv then moveToNextWindow qB else qB) (if cv then [e] else ws :: TSB ++ [e]) (if cv then [e] else ws :: TSA ++ [e]) (if cv then [e] else [ws; e])).
            + constructor.
            + destruct cv; [proj; eapply move_send, (SB : sshape _ ((ws :: TSB) ++ [e]) _)|exact SB].
            + destruct cv; [proj; eapply (move_recv _ (ws :: TSA) e [ws] e), RB|exact RB].
            + destruct cv; discriminate. + destruct cv; discriminate. + destruct cv; discriminate.
            + destruct cv; [proj; eapply move_send, (SA : sshape _ ((ws :: TSA) ++ [e]) _)|exact SA].
            + destruct cv; [proj; eapply (move_recv _ (ws :: TSB) e [ws] e), RA|exact RA].
            + destruct cv; discriminate. + destruct cv; discriminate. + destruct cv; discriminate. }
        split; [unfold zA; destruct cv; reflexivity|]. split; [unfold zA; destruct cv; reflexivity|].
        split; [unfold zB; destruct cv; unfold qB; proj; rewrite U11; reflexivity|].
        split; [unfold zB; destruct cv; unfold qB; proj; rewrite U12; reflexivity|].
        destruct cv.
        + right. split; [reflexivity|]. repeat (split; [reflexivity|]). split.
          * exists true. split; [reflexivity|]. unfold zA. constructor; proj; try assumption; try reflexivity.
            -- eapply move_send, (SA : sshape _ ((ws :: TSA) ++ [e]) _).
            -- eapply (move_recv _ (ws :: TSB) e [ws] e), RA.
          * exists true. split; [reflexivity|]. unfold zB, qB. constructor; proj; rewrite ?LB; try congruence.
            -- rewrite U2. exact b1.
            -- rewrite U3. exact b2.
            -- rewrite U4. exact b3.
            -- rewrite U5. exact b4.
            -- rewrite U9. reflexivity.
            -- rewrite U7. exact b6.
            -- rewrite U8. reflexivity.
            -- rewrite U10. reflexivity.
            -- eapply move_send, (SB : sshape _ ((ws :: TSB) ++ [e]) _).
            -- eapply (move_recv _ (ws :: TSA) e [ws] e), RB.
        + left. split; [reflexivity|]. split; [reflexivity|]. repeat (split; [reflexivity|]). split.
          * unfold zA. constructor; try assumption; try reflexivity.
          * unfold zB, qB. constructor; proj; rewrite ?LB.
            -- rewrite U2. exact b1.
            -- rewrite U3. exact b2.
            -- rewrite U4. exact b3.
            -- rewrite U5. exact b4.
            -- rewrite U9. reflexivity.
            -- rewrite U7. exact b6.
            -- rewrite U8. reflexivity.
            -- exact U1.
            -- rewrite U10. reflexivity.
            -- exact SB.
            -- exact RB.
      - destruct (xmit gnone 1%nat 0%nat cB cA (cleared yB) (cleared yA) (ws :: TSB ++ [e]) TBA TNA [ws; e]) as (rA & v2 & Y1 & Y2).
        { apply HP. } { apply HP. } { apply HP. } { exact E0. } { discriminate. } { rewrite <- EB0. exact b9. }
        { unfold yA. proj. rewrite a1. unfold th_time. cbn [th_start th_prog]. apply tn_settable; assumption. }
        { exact b8. } { exact a10. }
        set (qA0 := set_s_rcvd (s_rcvd (cleared yA) ++ [v2]) (set_s_recv rA (cleared yA))) in *.
        set (qA := set_s_recvd true qA0).
        set (qB := set_s_sent (s_sent (cleared yB) ++ [v2]) (cleared yB)) in *.
        exists true, (moveToNextWindow qA), (moveToNextWindow qB), [e], [e], [e], [e], v2.
        split.
        { eapply pair_trans; [apply pair_bind with (f := fun s1 => PRet (moveToNextWindow s1)) (g := fun s1 => PRet (moveToNextWindow s1))|].
          - eapply pair_trans; [apply pair_bindl, pair_swap, Y1|]. cbn [bind]. unfold notifyDataHasBeenReceived.
            assert (Rq : s_recvd qA0 = false) by exact a7. rewrite Rq. cbn [negb assert_ bind]. constructor.
          - cbn [bind]. constructor. }
        split; [reflexivity|]. split; [reflexivity|]. split; [reflexivity|]. split; [reflexivity|].
        right. split; [discriminate|]. repeat (split; [reflexivity|]). split.
        + exists (s_conv xA). split; [discriminate|]. constructor; proj; try assumption; try reflexivity.
          * eapply move_send, (a8 : sshape _ ((ws :: TSA) ++ [e]) _).
          * eapply (move_recv _ (ws :: TSB) e [ws] e), Y2.
        + exists (s_conv xB). split; [discriminate|]. constructor; proj; rewrite ?LB; try assumption; try reflexivity.
          * eapply move_send, (b8 : sshape _ ((ws :: TSB) ++ [e]) _).
          * eapply (move_recv _ (ws :: TSA) e [ws] e), X2. }
    destruct P2 as (cv & zA & zB & TBA' & TNA' & TBB' & TNB' & v2 & P2 & S1 & S2 & S3 & S4 & Cases).
    (* assemble *)
    assert (Run : forall tA tB, finish cA e zA = PRet tA -> finish cB e zB = PRet tB ->
      exists wd, lrun (sstep body) wd [PRet sA; PRet sB] [PRet tA; PRet tB] /\ covers wd 0 /\ covers wd 1).
    { intros tA tB FA FB.
      destruct (local0 body sA sA1 (PRet sB) lA) as (w1 & R1).
      destruct (local1 body sB sB1 (PRet sA1) lB) as (w2 & R2).
      pose proof (step0 body sA1 _ (PRet sB1) bA) as R3.
      match type of R3 with lrun _ _ _ [?pA; _] => pose proof (step1 body sB1 pA _ bB) as R4 end.
      match type of R4 with lrun _ _ _ [?pA; ?pB] => assert (Pp : pair 0 1 pA pB (PRet tA) (PRet tB)) end.
      { eapply pair_trans; [apply pair_bind, P1|]. cbn [bind].
        rewrite second_end; [|exact a5|exact a6|eapply reached_end; eassumption].
        rewrite (second_end _ cB); [|exact b5|exact b6|eapply reached_end; [exact E0B|rewrite LB; exact b1|exact b3]].
        eapply pair_trans; [do 2 apply pair_bind; exact P2|]. cbn [bind].
        unfold finish in FA, FB. cbn [bind] in FA, FB. rewrite FA, FB. constructor. }
      destruct (pair_run body _ _ _ _ Pp) as (w5 & R5).
      exists (w1 ++ w2 ++ [(0, 0)%nat] ++ [(1, 1)%nat] ++ w5). split.
      - eapply lrun_app; [exact R1|]. eapply lrun_app; [exact R2|]. eapply lrun_app; [exact R3|]. eapply lrun_app; [exact R4|exact R5].
      - split; [exists 0%nat, 0%nat|exists 1%nat, 1%nat]; (split; [|left; reflexivity]); rewrite !in_app_iff; cbn; tauto. }
    destruct Ag as (G1 & G2 & G3).
    assert (NsB : next_start cB w ws = next_start cA w ws) by (unfold next_start; rewrite LB, EB0; reflexivity).
    destruct Cases as [(Hi & -> & -> & -> & -> & -> & DA & DB)|(Hcv & -> & -> & -> & -> & (ca & Hca & DA) & (cb & Hcb & DB))].
    + assert (HiB : c_implicit cB = true) by (rewrite (pt_implicit _ _ HP); exact Hi).
      destruct (conclude_repeat cA ws n TSA (ws :: TSB ++ [e]) xA zA E0 L Hi a9 DA) as (tA & FA & hA & sA' & rA' & IA').
      unfold e in DB, b9. rewrite <- LB in DB, b9. 
      destruct (conclude_repeat cB ws n TSB (ws :: TSA ++ [ws + wlen cB w ws]) xB zB E0B (eq_ind_r (fun z => c_eps cB < z) L' LB) HiB b9 DB) as (tB & FB & hB & sB' & rB' & IB').
      rewrite LB in FB. destruct (Run tA tB FA FB) as (wd & R & C0 & C1).
      exists wd, [PRet tA; PRet tB]. split; [exact R|]. split.
      * eapply (KP_round tA tB ws n); try eassumption.
        { assert (On : isCouplingOngoing cA tA = isCouplingOngoing cB tB).
          { apply same_ongoing; [exact HP|rewrite (bg_time _ _ _ _ _ _ _ IA'), (bg_time _ _ _ _ _ _ _ IB'), (pt_maxTime _ _ HP); reflexivity|rewrite (bg_windows _ _ _ _ _ _ _ IA'), (bg_windows _ _ _ _ _ _ _ IB'); reflexivity]. }
          split; [|split].
          - rewrite hA, hB, a11, b11, G1, On. reflexivity.
          - rewrite sA', S1, rB', S4, a12, b13, G2. reflexivity.
          - rewrite sB', S3, rA', S2, a13, b12, G3. reflexivity. }
        { right. reflexivity. } { right. rewrite LB. reflexivity. }
      * intros i p Hp _. destruct i as [|[|i]]; [exact C0|exact C1|destruct i; discriminate Hp].
    + assert (QA : Done cA ws n [e] [e] [e] true xA zA /\ c_implicit cA = true \/
                   c_implicit cA = false /\ exists cv, Done cA ws n [e] [e] [e] cv xA zA).
      { destruct (c_implicit cA); [left; rewrite <- (Hca eq_refl); auto|right; split; [reflexivity|exists ca; exact DA]]. }
      assert (QB : Done cB ws n [e] [e] [e] true xB zB /\ c_implicit cB = true \/
                   c_implicit cB = false /\ exists cv, Done cB ws n [e] [e] [e] cv xB zB).
      { rewrite (pt_implicit _ _ HP). destruct (c_implicit cA); [left; rewrite <- (Hcb eq_refl); auto|right; split; [reflexivity|exists cb; exact DB]]. }
      destruct (conclude cA ws n TSA xA zA E0 W3 L W1 a9 QA) as (tA & FA & tmA & wnA & hA & sA' & rA' & IA').
      unfold e in QB, b9. rewrite <- LB in QB, b9. assert (W3' : c_eps cB < w) by (rewrite EB0; exact W3).
      destruct (conclude cB ws n TSB xB zB E0B W3' (eq_ind_r (fun z => c_eps cB < z) L' LB) W2 b9 QB) as (tB & FB & tmB & wnB & hB & sB' & rB' & IB').
      rewrite LB in FB. destruct (Run tA tB FA FB) as (wd & R & C0 & C1).
      exists wd, [PRet tA; PRet tB]. split; [exact R|].
      assert (On : isCouplingOngoing cA tA = isCouplingOngoing cB tB).
      { apply same_ongoing; [exact HP|rewrite tmA, tmB, NsB, (pt_maxTime _ _ HP); reflexivity|rewrite wnA, wnB; reflexivity]. }
      assert (Ag : agree_fully tA tB).
      { split; [|split].
        - rewrite hA, hB, a11, b11, G1, On, NsB. reflexivity.
        - rewrite sA', S1, rB', S4, a12, b13, G2. reflexivity.
        - rewrite sB', S3, rA', S2, a13, b12, G3. reflexivity. }
      split.
      * destruct (isCouplingOngoing cA tA) eqn:OA.
        -- destruct (next_ongoing cA w ws (n + 1) tA E0 W3 L tmA wnA OA) as (B1 & B2 & B3 & B4).
           eapply (KP_round tA tB (ws + w) (n + 1)); [exact B3|exact B4|exact Ag|apply IA'; reflexivity|apply IB'; symmetry; exact On| |]; left; reflexivity.
        -- apply KP_end; [exact OA|symmetry; exact On|exact Ag].
      * intros i p Hp _. destruct i as [|[|i]]; [exact C0|exact C1|destruct i; discriminate Hp].
Qed.
Lemma par_start : exists wd k0, lrun (sstep body) wd (start gnone vzero Parallel cA cB EA EB) k0 /\ KP k0.
Proof.
  pose proof (pt_eps0 _ _ HP) as E0. pose proof (pt_eps _ _ HP) as EB0.
  assert (E0B : 0 <= c_eps cB) by (rewrite EB0; exact E0).
  destruct HW as (W1 & W2 & W3 & W4 & W5 & W6 & W7).
  destruct (start_init gnone vzero Parallel EA cA E0) as (xA & a0 & a1 & a2 & a3 & a4 & a5 & a6 & a7 & a8 & a9 & a10 & a11 & a12 & a13).
  destruct (start_init gnone vzero Parallel EB cB E0B) as (xB & b0 & b1 & b2 & b3 & b4 & b5 & b6 & b7 & b8 & b9 & b10 & b11 & b12 & b13).
  unfold start. rewrite a0, b0. cbn [exI].
  (* A's data to B *)
  assert (Q : forall cX cY i j (tX tY : st), c_partner cX = j -> c_partner cY = i -> c_recv cY = c_send cX -> 0 <= c_eps cY ->
     sshape (length (c_send cX)) [0] (s_send tX) -> rshape (c_recv cY) [0] [0] (s_recv tY) -> s_time tY = TH (c_maxTime cY) 0 0 ->
     s_recvd tY = false ->
     exists r v, pair i j (if sendsInitialized cX then sendData gnone cX tX else PRet tX)
       (if receivesInitialized cY then s' <- receiveData gnone cY tY ;; notifyDataHasBeenReceived s' else initializeWithZeroInitialData gnone vzero cY tY)
       (PRet (set_s_sent (s_sent tX ++ v) tX)) (PRet (set_s_recvd (sendsInitialized cX) (set_s_rcvd (s_rcvd tY ++ v) (set_s_recv r tY)))) /\
       rshape (c_recv cY) [0] [0] r).
  { intros cX cY i j tX tY PX PY Hc Ee S R Ht Hr. assert (Q : receivesInitialized cY = sendsInitialized cX) by (unfold receivesInitialized, sendsInitialized; rewrite Hc; reflexivity).
    rewrite Q. clear Q. destruct (sendsInitialized cX).
    - destruct (xmit gnone i j cX cY tX tY [0] [0] [0] [0]) as (r & v & X1 & X2); try assumption.
      { discriminate. } { exact I. }
      { rewrite Ht. cbn. apply (settable_last _ [] 0 0); [exact Ee|intros u []|cbn; lia]. }
      exists r, [v]. split; [|exact X2]. eapply pair_trans; [apply pair_bindr, X1|]. cbn [bind]. unfold notifyDataHasBeenReceived.
      cbn [s_recvd set_s_rcvd set_s_recv]. rewrite Hr. constructor.
    - destruct (zeroAll_ok gnone vzero (c_eps cY) Ee (c_recv cY) (s_recv tY) [0] R (or_intror eq_refl)) as (r & Z1 & Z2).
      exists r, []. split; [|exact Z2]. unfold initializeWithZeroInitialData. rewrite Ht. match goal with |- context [zeroAll _ _ _ ?t _ _] => change t with 0 end. rewrite Z1. cbn [bind].
      rewrite !app_nil_r. destruct tX, tY. cbn in *. subst. constructor. }
  destruct (Q cA cB 0%nat 1%nat xA xB) as (rB & v1 & X1 & X2); try assumption; try apply HP.
  set (yA := set_s_sent (s_sent xA ++ v1) xA) in *.
  set (yB := set_s_recvd (sendsInitialized cA) (set_s_rcvd (s_rcvd xB ++ v1) (set_s_recv rB xB))) in *.
  destruct (Q cB cA 1%nat 0%nat yB yA) as (rA & v2 & Y1 & Y2); try assumption; try apply HP.
  set (zB := set_s_sent (s_sent yB ++ v2) yB) in *.
  set (zA := set_s_recvd (sendsInitialized cB) (set_s_rcvd (s_rcvd yA ++ v2) (set_s_recv rA yA))) in *.
  assert (P : pair 0 1 (par_initial gnone vzero cA xA) (par_initial gnone vzero cB xB) (PRet zA) (PRet zB)).
  { unfold par_initial. rewrite (pt_firstA _ _ HP), (pt_firstB _ _ HP). eapply pair_trans; [apply pair_bind, X1|]. cbn [bind].
    apply pair_swap, Y1. }
  destruct (pair_run body _ _ _ _ P) as (wd & R). exists wd, [PRet zA; PRet zB]. split; [exact R|].
  assert (LA : c_eps cA < wlen cA w 0).
  { unfold wlen. destruct (c_maxTime cA) as [T|] eqn:HT; [|exact W3]. pose proof (pt_T _ _ HP T HT). lia. }
  eapply (KP_round zA zB 0 1 [0] [0] [0] [0]).
  - unfold winok. destruct (c_maxWindows cA) as [N|] eqn:HN; [|exact I]. apply (pt_N _ _ HP N HN).
  - exact LA.
  - split; [|split].
    + change (s_hist xA = s_hist xB). congruence.
    + change (s_sent xA ++ v1 = s_rcvd xB ++ v1). congruence.
    + change (s_sent xB ++ v2 = s_rcvd xA ++ v2). congruence.
  - constructor; try assumption; try (change (s_tws xA = Some w); congruence); try (change (s_next xA = Some w); congruence).
  - constructor; try assumption; try (change (s_tws xB = Some w); congruence); try (change (s_next xB = Some w); congruence).
  - left. reflexivity.
  - left. reflexivity.
Qed.

Lemma bounded_self (s : st) : bounded_by (PRet s) s.
Proof. intros s0 H. apply H. constructor. Qed.
Lemma full_alike (sA sB : st) : agree_fully sA sB -> alike sA sB.
Proof.
  intros (A & B & C). split; [|split]; [rewrite A|rewrite B|rewrite C]; eexists; split; exists []; rewrite app_nil_r; reflexivity.
Qed.

Theorem parallel_correct : coupling_correct gnone vzero Parallel cA cB EA EB.
Proof.
  apply (lift_correct gnone vzero Parallel cA cB EA EB KP HKP par_start).
  - intros c [sA sB OA OB Ag|sA sB ws n TBA TNA TBB TNB W L Ag IA IB NA NB]; exists (PRet sA), (PRet sB), sA, sB;
      (split; [reflexivity|]); (split; [apply bounded_self|]); (split; [apply bounded_self|]); apply full_alike, Ag.
  - intros sA sB H F. inversion H; assumption.
Qed.
End Par.
