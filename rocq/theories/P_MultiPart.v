(** One participant of a multi coupling over one time window. *)
From Coq Require Import ZArith Bool List Lia.
From Verif Require Import M_Net M_Time M_Wave M_Cpl M_Multi S_Prog S_Cpl S_Net S_Term S_Comp S_Multi
  P_Prog P_Net P_Pair P_Comp P_CplData P_CplStep P_CplWin P_NetPar P_Trace P_MultiData.
Import ListNotations.
Open Scope Z_scope.

Lemma does_tail {M A B C} (p : proc M A) (f : A -> proc M B) (g : B -> proc M C) t a b :
  does p t a -> bind (f a) g = PRet b -> does (bind (bind p f) g) t b.
Proof.
  intros H1 H2. assert (Q : does (bind (f a) g) [] b) by (rewrite H2; cbn; auto).
  apply does_bind in Q as (t1 & t2 & x & E & Q1 & Q2). symmetry in E. apply app_eq_nil in E as (-> & ->).
  eapply does_app'; [eapply does_app'; [exact H1|exact Q1|rewrite app_nil_r; reflexivity]|exact Q2|rewrite app_nil_r; reflexivity].
Qed.

Lemma Forall2_imp {A B} (P Q : A -> B -> Prop) l l' : (forall a b, P a b -> Q a b) -> Forall2 P l l' -> Forall2 Q l l'.
Proof. intros H F. induction F; constructor; auto. Qed.
Lemma Forall2_map_r {A B C} (P : A -> B -> Prop) (Q : A -> C -> Prop) (f : B -> C) l l' :
  (forall a b, P a b -> Q a (f b)) -> Forall2 P l l' -> Forall2 Q l (map f l').
Proof. intros H F. induction F; constructor; auto. Qed.

Section P.
Context {V : Type}.
Variables (gnone vzero : V).
Notation st := (st (V:=V)).
Notation env := (env (V:=V)).
Notation wv := (wave (smp V)).
Notation always := (fun _ : list dspec => true).

(** stamps of received data; those of data with substeps are the sender's *)
Definition weak (TN : list Z) (d : dspec) (x : wv) : Prop := d_sub d = false -> map fst x = TN.
Definition full (TN : list Z) (d : dspec) (x : wv) : Prop := x <> [] /\ weak TN d x.

(** what arrives *)
Definition arrives (m : mconf) (G : list dspec -> bool) (okT : list Z -> Prop) (inc : nat -> list (msg V)) (vin : nat -> list (view V)) : Prop :=
  forall p, In p (m_recv m) -> G (snd p) = true -> exists ws TS, inc (fst p) = allMsgs (snd p) ws /\ vin (fst p) = viewsOf gnone (snd p) ws /\
    okT TS /\ TS <> [] /\ spaced (c_eps (m_base m)) TS /\ sshape (length (snd p)) TS ws.

Variables (m : mconf) (E : env) (w : Z).
Notation c := (m_base m).
Hypothesis E0 : 0 <= c_eps c.
Hypothesis Ew : c_eps c < w.
Hypothesis Hi : c_implicit c = true.
Hypothesis Hs : c_sets c = false.
Hypothesis Hx : exact_solver c E.
Hypothesis Hcr : c_recv c = concat (map snd (m_recv m)).
Hypothesis Hix : forall j ix, In (j, ix) (m_send m) -> Forall (fun k => (k < length (c_send c))%nat) ix.

Record MStart (ws n : Z) (TN : list Z) (s : st) : Prop := {
  ms_time : s_time s = TH (c_maxTime c) ws 0;
  ms_windows : s_windows s = n;
  ms_tws : s_tws s = Some w;
  ms_next : s_next s = Some w;
  ms_init : a_init (s_req s) = true -> a_init (s_ful s) = true;
  ms_send : sshape (length (c_send c)) [ws] (s_send s);
  ms_recv : Forall2 (weak TN) (c_recv c) (s_recv s)
}.
Record AtLast (ws n : Z) (TS TN : list Z) (x : st) : Prop := {
  al_time : s_time x = TH (c_maxTime c) ws (wlen c w ws);
  al_windows : s_windows x = n + 1;
  al_tws : s_tws x = Some w;
  al_next : s_next x = Some w;
  al_req : s_req x = no_acts;
  al_compl : s_compl x = false;
  al_recvd : s_recvd x = false;
  al_send : sshape (length (c_send c)) (ws :: TS ++ [ws + wlen c w ws]) (s_send x);
  al_spaced : spaced (c_eps c) (ws :: TS ++ [ws + wlen c w ws]);
  al_recv : Forall2 (weak TN) (c_recv c) (s_recv x)
}.
Definition lastProc (ws : Z) (x : st) : proc (msg V) st :=
  bind (mu_first gnone m x) (fun s3 => bind (secondExchange (mu_second gnone E m) c s3)
    (fun s4 => handleDataAfterAdvance c true (ws + wlen c w ws) s4)).

Lemma to_last_m (body : nat -> st -> option (proc (msg V) st)) i ws n TN s :
  winok c n -> c_eps c < wlen c w ws -> (forall s, body i s = multiLoop gnone E m s) -> MStart ws n TN s ->
  exists s1 x TS, local body i s s1 /\ body i s1 = Some (lastProc ws x) /\ AtLast ws n TS TN x /\
    s_hist x = s_hist s /\ s_sent x = s_sent s /\ s_rcvd x = s_rcvd s.
Proof.
  intros W L Hb I.
  assert (I0 : InWin c w ws 0 n [ws] s).
  { constructor; try apply I. split; [exact Logic.I|]. split; [exists []; reflexivity|]. intros u [<-|[]]. lia. }
  destruct (to_end_g body i E (mu_first gnone m) (mu_second gnone E m) c w ws n E0 Hx Hs W Hb (Z.to_nat (wlen c w ws)) 0 [ws] s)
    as (s1 & p1 & TS1 & A1 & A2 & A3 & A4 & A5); [lia|exact I0|lia|].
  destruct (last_step_g E (mu_first gnone m) (mu_second gnone E m) c w ws p1 n TS1 s1 E0 W A2 A3 A4)
    as (x & TS2 & B1 & B2 & B3 & B4 & B5 & B6 & B7 & B8 & B9 & B10).
  exists s1, x, TS2. destruct A5 as (C1 & C2 & C3 & C4 & C5 & C6). destruct B10 as (D1 & D2 & D3 & D4 & D5 & D6).
  split; [exact A1|]. split; [rewrite Hb; exact B1|]. split; [|repeat split; congruence].
  constructor; try assumption.
  - rewrite D1, C1. apply I.
  - rewrite D3, C3. apply I.
Qed.

(** before the buffers move on *)
Record Pre (ws n : Z) (TS : list Z) (cv : bool) (q : st) : Prop := {
  pr_time : s_time q = TH (c_maxTime c) ws (wlen c w ws);
  pr_windows : s_windows q = n + 1;
  pr_tws : s_tws q = Some w;
  pr_next : s_next q = Some w;
  pr_req : s_req q = no_acts;
  pr_compl : s_compl q = false;
  pr_recvd : s_recvd q = true;
  pr_conv : s_conv q = cv;
  pr_send : sshape (length (c_send c)) (ws :: TS ++ [ws + wlen c w ws]) (s_send q);
  pr_spaced : spaced (c_eps c) (ws :: TS ++ [ws + wlen c w ws]);
  pr_recv : Forall2 (full [ws; ws + wlen c w ws]) (c_recv c) (s_recv q)
}.
(** after advance() *)
Definition Outcome (ws n : Z) (cv : bool) (h : list (hist)) (s' : st) : Prop :=
  s_time s' = TH (c_maxTime c) (if cv then next_start c w ws else ws) 0 /\
  s_windows s' = (if cv then n + 1 else n) /\
  s_hist s' = h ++ [Hist (if cv then next_start c w ws else ws) (if cv then n + 1 else n) cv (isCouplingOngoing c s')] /\
  (if cv then isCouplingOngoing c s' = true -> MStart (ws + w) (n + 1) [ws + w] s'
   else MStart ws n [ws; ws + wlen c w ws] s').

Lemma full_nonempty TN ds (l : list wv) : Forall2 (full TN) ds l ->
  forallb (fun x : wv => negb (match x with [] => true | _ => false end)) l = true.
Proof. intros F. induction F as [|d x ds l (N & _) F IH]; [reflexivity|]. cbn. rewrite IH. destruct x; [congruence|reflexivity]. Qed.
Lemma move_nonempty (x : wv) : x <> [] -> d_moveToNextWindow x <> [].
Proof.
  intros N. destruct x as [|a [|b x]]; [congruence|discriminate|]. unfold d_moveToNextWindow, w_move.
  destruct (last_some (a :: b :: x) N) as (p & ->). discriminate.
Qed.
Lemma move_full ds l u (r : list wv) : Forall2 (full (l ++ [u])) ds r -> Forall2 (full [u]) ds (map d_moveToNextWindow r).
Proof.
  apply Forall2_map_r. intros d x (N & W). split; [apply move_nonempty, N|]. intros Q. eapply move_stamps, W, Q.
Qed.

Lemma conclude_m ws n TS cv q : c_eps c < wlen c w ws -> Pre ws n TS cv q ->
  exists q' s', storeIteration (if s_conv q then moveToNextWindow q else q) = PRet q' /\ finish c (ws + wlen c w ws) q' = PRet s' /\
    Outcome ws n cv (s_hist q) s' /\ s_sent s' = s_sent q /\ s_rcvd s' = s_rcvd q.
Proof.
  intros L D. rewrite (pr_conv _ _ _ _ _ D). destruct cv.
  - exists (moveToNextWindow q).
    assert (S1 : sshape (length (c_send c)) [ws + wlen c w ws] (s_send (moveToNextWindow q))) by (eapply (move_send _ (ws :: TS)), (pr_send _ _ _ _ _ D)).
    assert (R1 : Forall2 (full [ws + wlen c w ws]) (c_recv c) (s_recv (moveToNextWindow q))) by (apply (move_full _ [ws]), (pr_recv _ _ _ _ _ D)).
    destruct (next_facts c w ws E0 L) as (N1 & N2 & N3).
    destruct (finish_complete_g c (moveToNextWindow q) ws (wlen c w ws) w (ws + wlen c w ws) E0)
      as (s' & F & A1 & A2 & A3 & A4 & A5 & A6 & A7 & A8 & A9 & A10 & A11 & A12 & A13 & A14).
    + exact (pr_time _ _ _ _ _ D). + exact (pr_tws _ _ _ _ _ D). + exact (pr_req _ _ _ _ _ D). + exact (pr_compl _ _ _ _ _ D).
    + intros _. exact (pr_conv _ _ _ _ _ D).
    + change (s_recvd (moveToNextWindow q)) with (s_recvd q). rewrite (pr_recvd _ _ _ _ _ D). apply orb_true_r.
    + change (s_time (moveToNextWindow q)) with (s_time q). rewrite (pr_time _ _ _ _ _ D). exact N1.
    + exact N2. + exact S1. + exact N3.
    + exists s'. split.
      { unfold storeIteration. rewrite forallb_app. rewrite (nonempty_send (length (c_send c)) [ws + wlen c w ws]), (full_nonempty [ws + wlen c w ws] (c_recv c)); [reflexivity|exact R1|discriminate|exact S1]. }
      split; [exact F|]. change (s_windows (moveToNextWindow q)) with (s_windows q) in A2, A12. rewrite (pr_windows _ _ _ _ _ D) in A2, A12.
      split; [|split; [exact A13|exact A14]].
      split; [exact A1|]. split; [exact A2|]. split; [exact A12|].
      intros O. destruct (next_ongoing c w ws (n + 1) s' E0 Ew L A1 A2 O) as (B1 & B2 & B3 & B4).
      unfold next_start in B2. rewrite B1 in *.
      constructor; try assumption.
      * rewrite A1. f_equal. exact B2.
      * rewrite A3. exact (pr_next _ _ _ _ _ D).
      * rewrite A4. exact (pr_next _ _ _ _ _ D).
      * rewrite A5. discriminate.
      * rewrite A11. eapply Forall2_map_r; [|exact R1]. intros d x (_ & W) Q. unfold w_trimBefore.
        rewrite (filter_stamps x (fun v => negb (smaller (c_eps c) v (if Z.abs (w - w) <=? c_eps c then ws + w else ws + w)))), (W Q).
        apply filter_from. intros v [<-|[]]. destruct (_ <=? _); lia.
  - exists q.
    destruct (finish_repeat_g c q ws (wlen c w ws) (TS ++ [ws + wlen c w ws]) E0)
      as (s' & F & A1 & A2 & A3 & A4 & A5 & A6 & A7 & A8 & A9 & A10 & A11 & A12 & A13 & A14); try apply D; try assumption.
    + apply spaced_tail; [exact E0|apply D].
    + rewrite (pr_windows _ _ _ _ _ D) in A2, A12. replace (n + 1 - 1) with n in A2, A12 by lia.
      exists s'. split.
      { unfold storeIteration. rewrite forallb_app.
        rewrite (nonempty_send (length (c_send c)) (ws :: TS ++ [ws + wlen c w ws])), (full_nonempty [ws; ws + wlen c w ws] (c_recv c)); [reflexivity|apply D|discriminate|apply D]. }
      split; [exact F|]. split; [|split; [exact A13|exact A14]].
      split; [exact A1|]. split; [exact A2|]. split; [exact A12|].
      constructor; try assumption.
      * rewrite A3. apply D. * rewrite A4. apply D. * rewrite A5. discriminate.
      * rewrite A11. eapply Forall2_imp; [|apply D]. intros d x (_ & W). exact W.
Qed.

Lemma recv_window ws TN inc vin s : c_eps c < wlen c w ws -> arrives m always (fun _ => True) inc vin ->
  Forall2 (weak TN) (c_recv c) (s_recv s) -> TNok w c ws TN -> th_time (s_time s) = ws + wlen c w ws ->
  exists r, does (eachFrom (recvFrom gnone m) 0 (m_recv m) s) (recvTrace always inc (m_recv m))
      (set_s_rcvd (s_rcvd s ++ recvLog always vin (m_recv m)) (set_s_recv r s)) /\
    Forall2 (full [ws; ws + wlen c w ws]) (c_recv c) r.
Proof using E0 Hcr vzero.
  intros L Ar Hr Tn Ht. rewrite Hcr in *.
  destruct (eachFrom_does gnone vzero always m (ws + wlen c w ws) (weak TN) (full [ws; ws + wlen c w ws]) inc vin (m_recv m)) with (dn := @nil wv) (rest := s_recv s) (s := s) as (r & A & B).
  - intros p rs Hp HI Hg. destruct (Ar p Hp Hg) as (sx & TS & I1 & I2 & _ & I3 & I4 & I5).
    destruct (recvAll_does gnone (fst p) (c_eps c) (ws + wlen c w ws) (snd p) TS TN [ws; ws + wlen c w ws]) with (ws := sx) (wr := rs) as (r & R1 & R2 & R3); auto.
    { apply tn_settable; assumption. }
    exists r. rewrite I1, I2. split; [exact R1|]. split; [exact R2|]. eapply Forall2_imp; [|exact R3].
    intros d x Q. cbv beta in Q. split; [|intros Hd; rewrite Hd in Q; exact Q]. intros ->. destruct (d_sub d); cbn in Q; [congruence|discriminate Q].
  - intros p rs _ _ Hg. discriminate Hg.
  - reflexivity.
  - exact Hr.
  - exact Ht.
  - exists r. split; [exact A|exact B].
Qed.

Lemma send_ok n TS (W : list wv) : n = length (c_send c) -> TS <> [] -> sshape n TS W -> forall p, In p (m_send m) ->
  length (pick (snd p) W) = length (toSpecs m p) /\ Forall (fun x => x <> []) (pick (snd p) W).
Proof using Hix.
  intros -> N S (j, ix) Hp. pose proof (pick_shape _ _ _ (c_send c) ix S eq_refl (Hix _ _ Hp)) as (A & B). split; [exact A|].
  eapply shape_nonempty; [exact N|split; [exact A|exact B]].
Qed.

(** a participant that is not the controller *)
Lemma other_does ws n TS TN x inc vin cv : c_eps c < wlen c w ws -> isController m = false -> AtLast ws n TS TN x -> TNok w c ws TN ->
  arrives m always (fun _ => True) inc vin ->
  exists s', does (lastProc ws x)
      (sendTrace always m (s_send x) (m_send m) ++ Got (m_controller m) (MBool cv) :: recvTrace always inc (m_recv m)) s' /\
    Outcome ws n cv (s_hist x) s' /\
    s_sent s' = s_sent x ++ sendLog gnone always m (s_send x) (m_send m) /\ s_rcvd s' = s_rcvd x ++ recvLog always vin (m_recv m).
Proof.
  intros L Hc A Tn Ar. set (e := ws + wlen c w ws) in *.
  set (y := set_s_sent (s_sent x ++ sendLog gnone always m (s_send x) (m_send m)) x).
  assert (Ae : atWindowEnd c x = true) by (eapply at_end; [exact E0|apply A|apply A]).
  assert (D1 : does (mu_first gnone m x) (sendTrace always m (s_send x) (m_send m)) y).
  { unfold mu_first. rewrite Ae, Hc. cbn [assert_ bind]. apply (eachTo_does gnone always).
    eapply send_ok; [reflexivity| |apply A]. discriminate. }
  set (z0 := set_s_conv cv (cleared y)).
  destruct (recv_window ws TN inc vin z0 L Ar) as (r & D2 & Fr).
  { exact (al_recv _ _ _ _ _ A). } { exact Tn. } { change (s_time z0) with (s_time x). rewrite (al_time _ _ _ _ _ A). reflexivity. }
  set (q := set_s_recvd true (set_s_rcvd (s_rcvd z0 ++ recvLog always vin (m_recv m)) (set_s_recv r z0))).
  destruct (conclude_m ws n TS cv q L) as (q' & s' & C1 & C2 & C3 & C4 & C5).
  { constructor; try exact Fr; try reflexivity; try apply A. }
  exists s'. split; [|split; [exact C3|split; [exact C4|exact C5]]].
  unfold lastProc. eapply does_app; [exact D1|].
  rewrite second_end; [|exact (al_req _ _ _ _ _ A)|exact (al_compl _ _ _ _ _ A)|eapply reached_end; [exact E0|apply A|apply A]].
  eapply does_tail; [|exact C2]. unfold mu_second. assert (Ae' : atWindowEnd c (cleared y) = true) by exact Ae.
  rewrite Ae', Hc. cbn [assert_ bind negb recvBool recv does]. eexists. split; [reflexivity|]. cbn [bind].
  eapply does_app'; [eapply does_app'; [exact D2| |rewrite app_nil_r; reflexivity]| |rewrite app_nil_r; reflexivity].
  - unfold notifyDataHasBeenReceived. assert (Rq : s_recvd (set_s_rcvd (s_rcvd z0 ++ recvLog always vin (m_recv m)) (set_s_recv r z0)) = false) by exact (al_recvd _ _ _ _ _ A).
    rewrite Rq. cbn [negb assert_ bind does]. split; reflexivity.
  - cbv beta. fold q. rewrite C1. cbn. auto.
Qed.

Lemma sendConv_does (s : st) : forall l, does (sendConvergenceTo (V:=V) l s) (flat_map (fun j => [Sent j (MBool (s_conv s))]) l) tt.
Proof using. induction l as [|j l IH]; cbn; auto. Qed.

(** the controller *)
Lemma controller_does ws n TS TN x inc vin : measures_ok c E -> c_eps c < wlen c w ws -> isController m = true -> AtLast ws n TS TN x -> TNok w c ws TN ->
  arrives m always (fun _ => True) inc vin ->
  exists cv U s', does (lastProc ws x)
      (recvTrace always inc (m_recv m) ++ flat_map (fun j => [Sent j (MBool cv)]) (m_m2ns m) ++ sendTrace always m U (m_send m)) s' /\
    sshape (length (c_send c)) (ws :: TS ++ [ws + wlen c w ws]) U /\
    Outcome ws n cv (s_hist x) s' /\
    s_sent s' = s_sent x ++ sendLog gnone always m U (m_send m) /\ s_rcvd s' = s_rcvd x ++ recvLog always vin (m_recv m).
Proof.
  intros Hm L Hc A Tn Ar. set (e := ws + wlen c w ws) in *.
  assert (Ae : atWindowEnd c x = true) by (eapply at_end; [exact E0|apply A|apply A]).
  destruct (recv_window ws TN inc vin x L Ar) as (r & D2 & Fr).
  { exact (al_recv _ _ _ _ _ A). } { exact Tn. } { rewrite (al_time _ _ _ _ _ A). reflexivity. }
  set (y := set_s_recvd true (set_s_rcvd (s_rcvd x ++ recvLog always vin (m_recv m)) (set_s_recv r x))).
  destruct (implicit_ok c E true (cleared y) Hm) as (cv & u & U0 & U1 & U2 & U3 & U4 & U5 & U6 & U7 & U8 & U9 & U10 & U11 & U12 & U13 & U14 & _).
  pose proof (implicit_stamps c E true _ _ U0) as U15. pose proof (sendConv_does u (m_m2ns m)) as U16. rewrite U1 in U16.
  set (q := set_s_sent (s_sent u ++ sendLog gnone always m (s_send u) (m_send m)) u).
  assert (Su : sshape (length (c_send c)) (ws :: TS ++ [e]) (s_send u)) by (apply U13, A).
  assert (Fu : Forall2 (full [ws; e]) (c_recv c) (s_recv u)).
  { change (s_recv (cleared y)) with r in U15. clear - Fr U15. revert U15. generalize (s_recv u). induction Fr as [|d x ds r (N & W) F IH]; intros [|b l] Q; try discriminate Q.
    - constructor.
    - injection Q as Q1 Q2. constructor; [|apply IH, Q2]. split; [|intros Hd; rewrite Q1; apply W, Hd]. intros ->. destruct x; [congruence|discriminate Q1]. }
  destruct (conclude_m ws n TS cv q L) as (q' & s' & C1 & C2 & C3 & C4 & C5).
  { constructor; try exact Fu; try exact Su; try exact U1; try apply A; unfold q; cbn [s_time s_windows s_tws s_next s_req s_compl s_recvd set_s_sent].
    - rewrite U2. apply A. - rewrite U3. apply A. - rewrite U4. apply A. - rewrite U5. apply A. - rewrite U9. reflexivity. - rewrite U7. apply A. - rewrite U8. reflexivity. }
  exists cv, (s_send u), s'. split; [|split; [exact Su|split; [|split]]].
  - unfold lastProc. eapply does_app.
    { unfold mu_first. rewrite Ae, Hc. cbn [assert_ bind]. eapply does_app'; [exact D2| |rewrite app_nil_r; reflexivity].
      unfold notifyDataHasBeenReceived. match goal with |- does (bind (assert_ (negb (s_recvd ?b)) _) _) _ _ => assert (Rq : s_recvd b = false) by exact (al_recvd _ _ _ _ _ A) end.
      rewrite Rq. cbn [negb assert_ bind does]. split; reflexivity. }
    rewrite second_end; [|exact (al_req _ _ _ _ _ A)|exact (al_compl _ _ _ _ _ A)|eapply reached_end; [exact E0|apply A|apply A]].
    eapply does_tail; [|exact C2]. fold y. unfold mu_second. assert (Ae' : atWindowEnd c (cleared y) = true) by exact Ae.
    rewrite Ae', Hc. cbn [assert_ bind negb]. rewrite U0. cbn [bind].
    eapply does_app'; [eapply does_app; [exact U16|]| |rewrite app_nil_r; reflexivity].
    + apply (eachTo_does gnone always). eapply send_ok; [reflexivity| |exact Su]. discriminate.
    + fold q. rewrite C1. cbn. auto.
  - replace (s_hist x) with (s_hist q) by exact U10. exact C3.
  - rewrite C4. unfold q. cbn [s_sent set_s_sent]. rewrite U11. reflexivity.
  - rewrite C5. unfold q. cbn [s_rcvd set_s_sent]. rewrite U12. reflexivity.
Qed.
End P.
