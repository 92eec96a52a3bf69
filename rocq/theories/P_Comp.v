From Coq Require Import ZArith Bool List Lia.
From Verif Require Import M_Net M_Time M_Wave M_Cpl M_Comp S_Prog S_Cpl S_Comp P_Prog P_Cpl.
Import ListNotations.
Open Scope Z_scope.

(** * Traces *)
Lemma does_bind {M A B} (p : proc M A) (f : A -> proc M B) b : forall tr,
  does (bind p f) tr b <-> exists tr1 tr2 a, tr = tr1 ++ tr2 /\ does p tr1 a /\ does (f a) tr2 b.
Proof.
  induction p as [x|e|d m p IH|s k IH]; intros tr; cbn [bind does].
  - split; [intros H; exists [], tr, x; auto|]. intros (tr1 & tr2 & a & -> & (-> & ->) & H). exact H.
  - split; [intros []|]. intros (? & ? & ? & _ & [] & _).
  - destruct tr as [|e tr].
    + split; [intros []|]. intros (tr1 & tr2 & a & E & H & _). destruct tr1; [exact H|discriminate].
    + rewrite IH. split.
      * intros (-> & tr1 & tr2 & a & -> & H1 & H2). exists (Sent d m :: tr1), tr2, a. auto.
      * intros (tr1 & tr2 & a & E & H1 & H2). destruct tr1 as [|e' tr1]; [destruct H1|]. injection E as -> ->. destruct H1 as (-> & H1).
        split; [reflexivity|]. exists tr1, tr2, a. auto.
  - destruct tr as [|e tr].
    + split; [intros []|]. intros (tr1 & tr2 & a & E & H & _). destruct tr1; [exact H|discriminate].
    + split.
      * intros (m & -> & H). apply IH in H. destruct H as (tr1 & tr2 & a & -> & H1 & H2). exists (Got s m :: tr1), tr2, a. split; [reflexivity|]. split; [exists m; auto|auto].
      * intros (tr1 & tr2 & a & E & H1 & H2). destruct tr1 as [|e' tr1]; [destruct H1|]. injection E as -> ->. destruct H1 as (m & -> & H1).
        exists m. split; [reflexivity|]. apply IH. exists tr1, tr2, a. auto.
Qed.
Lemma starts_bind {M A B} (p : proc M A) (f : A -> proc M B) : forall tr,
  starts (bind p f) tr -> starts p tr \/ exists tr1 tr2 a, tr = tr1 ++ tr2 /\ does p tr1 a /\ starts (f a) tr2.
Proof.
  induction p as [x|e|d m p IH|s k IH]; intros tr H; cbn [bind] in H.
  - right. exists [], tr, x. cbn. auto.
  - left. exact H.
  - destruct tr as [|e tr]; [left; exact I|]. destruct H as (-> & H). destruct (IH _ H) as [H1|(tr1 & tr2 & a & -> & H1 & H2)].
    + left. cbn. auto.
    + right. exists (Sent d m :: tr1), tr2, a. cbn. auto.
  - destruct tr as [|e tr]; [left; exact I|]. destruct H as (m & -> & H). destruct (IH _ _ H) as [H1|(tr1 & tr2 & a & -> & H1 & H2)].
    + left. cbn. exists m. auto.
    + right. exists (Got s m :: tr1), tr2, a. cbn. split; [reflexivity|]. split; [exists m; auto|auto].
Qed.
Lemma does_returns {M A} (p : proc M A) a : forall tr, does p tr a -> returns p a.
Proof.
  induction p as [x|e|d m p IH|s k IH]; intros tr H; cbn in *.
  - tauto.
  - exact H.
  - destruct tr; [destruct H|]. destruct H as (_ & H). eauto.
  - destruct tr; [destruct H|]. destruct H as (m & _ & H). exists m. eauto.
Qed.
Lemma returns_does {M A} (p : proc M A) a : returns p a -> exists tr, does p tr a.
Proof.
  induction p as [x|e|d m p IH|s k IH]; intros H; cbn in *.
  - exists []. auto.
  - destruct H.
  - destruct (IH H) as (tr & Ht). exists (Sent d m :: tr). auto.
  - destruct H as (m & H). destruct (IH m H) as (tr & Ht). exists (Got s m :: tr), m. auto.
Qed.
Lemma does_starts {M A} (p : proc M A) a : forall tr, does p tr a -> starts p tr.
Proof.
  induction p as [x|e|d m p IH|s k IH]; intros tr H; cbn in *.
  - destruct H as (-> & _). exact I.
  - destruct H.
  - destruct tr; [destruct H|]. destruct H as (-> & H). cbn. eauto.
  - destruct tr; [destruct H|]. destruct H as (m & -> & H). cbn. exists m. eauto.
Qed.

(** programs that talk to [j] only *)
Fixpoint only {M A} (j : nat) (p : proc M A) : Prop :=
  match p with
  | PRet _ | PErr _ => True
  | PSend d _ k => d = j /\ only j k
  | PRecv s k => s = j /\ forall m, only j (k m)
  end.
Lemma only_bind {M A B} j (p : proc M A) (f : A -> proc M B) : only j p -> (forall a, only j (f a)) -> only j (bind p f).
Proof. induction p as [x|e|d m p IH|s k IH]; cbn; auto; intros (H1 & H2) Hf; split; auto. Qed.
Lemma only_starts {M A} j (p : proc M A) : forall tr, only j p -> starts p tr -> forall e, In e tr -> partnerOf e = j.
Proof.
  induction p as [x|e|d m p IH|s k IH]; intros tr O S0 e0 He; destruct tr as [|e1 tr]; try contradiction; cbn in *.
  - destruct O as (-> & O). destruct S0 as (-> & S0). destruct He as [<-|He]; [reflexivity|eauto].
  - destruct O as (-> & O). destruct S0 as (m & -> & S0). destruct He as [<-|He]; [reflexivity|eauto].
Qed.
(** programs that exchange nothing *)
Definition silent {M A} (p : proc M A) : Prop := match p with PRet _ | PErr _ => True | _ => False end.
Lemma silent_bind {M A B} (p : proc M A) (f : A -> proc M B) : silent p -> (forall a, silent (f a)) -> silent (bind p f).
Proof. destruct p; cbn; auto; contradiction. Qed.
Lemma silent_starts {M A} (p : proc M A) tr : silent p -> starts p tr -> tr = [].
Proof. destruct p; cbn; try contradiction; destruct tr; auto; contradiction. Qed.
Lemma silent_does {M A} (p : proc M A) tr a : silent p -> does p tr a -> p = PRet a /\ tr = [].
Proof. destruct p; cbn; try contradiction. intros _ (-> & ->). auto. Qed.

Tactic Notation "db" hyp(H) ident(t1) ident(t2) ident(a) ident(D) := apply does_bind in H as (t1 & t2 & a & -> & D & H).

Section P.
Context {V : Type}.
Variables (gnone vzero : V).
Notation st := (st (V:=V)).
Notation env := (env (V:=V)).
Notation prog := (proc (msg V)).
Notation cst := (cst (V:=V)).

Lemma only_check b n j : only j (check_ (V:=V) b n). Proof. destruct b; exact I. Qed.
Lemma only_assert b n j : only j (assert_ (V:=V) b n). Proof. destruct b; exact I. Qed.
Lemma silent_check b n : silent (check_ (V:=V) b n). Proof. destruct b; exact I. Qed.
Lemma silent_assert b n : silent (assert_ (V:=V) b n). Proof. destruct b; exact I. Qed.
Hint Resolve only_check only_assert : only.
Ltac on := repeat (first [apply only_bind; [|intros] | progress cbn; split; [reflexivity|intros] | apply only_check | apply only_assert | exact I | match goal with |- only _ (match ?x with _ => _ end) => destruct x end | progress auto with only]).
Lemma only_sendOne j d (w : wave (smp V)) : only j (sendOne j d w).
Proof. unfold sendOne. destruct (d_sub d); [|destruct (w_last w) as [[t x]|]; [|exact I]]; destruct (d_grad d); on. Qed.
Lemma only_sendAll j : forall ds ws, only j (sendAll (V:=V) j ds ws).
Proof. induction ds as [|d ds IH]; intros [|w ws]; cbn [sendAll]; try exact I. apply only_bind; [apply only_sendOne|auto]. Qed.
Lemma only_recvOne j eps now d w : only j (recvOne gnone eps now j d w).
Proof.
  unfold recvOne, recvInt, recvTimes, recvVals, recvGrads, recv, lift, eassert. destruct (d_sub d); destruct (d_grad d); on.
Qed.
Lemma only_recvAll j eps now : forall ds ws, only j (recvAll gnone eps now j ds ws).
Proof. induction ds as [|d ds IH]; intros [|w ws]; cbn [recvAll]; try exact I. apply only_bind; [apply only_recvOne|]. intros. apply only_bind; [auto|]. intros; exact I. Qed.
Lemma only_sendData c s : only (c_partner c) (sendData gnone c s).
Proof. unfold sendData. apply only_bind; [apply only_sendAll|]. intros; exact I. Qed.
Lemma only_receiveData c s : only (c_partner c) (receiveData gnone c s).
Proof. unfold receiveData. apply only_bind; [apply only_recvAll|]. intros; exact I. Qed.
Lemma only_windowEnd c s : only (c_partner c) (receiveDataForWindowEnd gnone c s).
Proof. unfold receiveDataForWindowEnd. destruct (s_next s); [|exact I]. apply only_bind; [apply only_receiveData|]. intros; exact I. Qed.
Lemma only_notify j (s : st) : only j (notifyDataHasBeenReceived s).
Proof. unfold notifyDataHasBeenReceived. on. Qed.
Lemma only_sendTWS c (s : st) : only (c_partner c) (sendTimeWindowSize c s).
Proof. unfold sendTimeWindowSize. destruct (c_sets c); on. Qed.
Lemma only_recvTWS c (s : st) : only (c_partner c) (receiveAndSetTimeWindowSize c s).
Proof. unfold receiveAndSetTimeWindowSize, recvTime, recv, eassert. destruct (c_recvs c); on. Qed.
Lemma only_loop j it mx : forall ms os a b d, only j (measureLoop (V:=V) it mx ms os a b d).
Proof.
  induction ms as [|[suff strict] ms IH]; intros os a b d; cbn [measureLoop]; [exact I|]. destruct os as [|o os]; [exact I|]. destruct o; [apply IH|].
  destruct strict; [|apply IH]. destruct mx; [|exact I]. apply only_bind; [apply only_check|]. intros; apply IH.
Qed.
Lemma silent_loop it mx : forall ms os a b d, silent (measureLoop (V:=V) it mx ms os a b d).
Proof.
  induction ms as [|[suff strict] ms IH]; intros os a b d; cbn [measureLoop]; [exact I|]. destruct os as [|o os]; [exact I|]. destruct o; [apply IH|].
  destruct strict; [|apply IH]. destruct mx; [|exact I]. apply silent_bind; [apply silent_check|]. intros; apply IH.
Qed.
Lemma silent_implicit E b c (s : st) : silent (doImplicitStep E b c s).
Proof.
  unfold doImplicitStep, measureConvergence. apply silent_bind.
  - destruct (c_measures c); [exact I|]. apply silent_bind; [apply silent_loop|]. intros [[? ?] ?]. exact I.
  - intros a. destruct (_ || _); exact I.
Qed.
Lemma silent_only {A} j (p : prog A) : silent p -> only j p.
Proof. destruct p; cbn; auto; contradiction. Qed.
Lemma only_store j (s : st) : only j (storeIteration s).
Proof. unfold storeIteration. on. Qed.
Lemma only_recvConv c (s : st) : only (c_partner c) (receiveConvergence c s).
Proof. unfold receiveConvergence, recvBool, recv, eassert. on. Qed.
Lemma only_sendConv c (s : st) : only (c_partner c) (sendConvergence c s).
Proof. unfold sendConvergence, send. cbn. auto. Qed.
Hint Resolve only_sendData only_receiveData only_windowEnd only_notify only_sendTWS only_recvTWS only_store only_recvConv only_sendConv : only.
Ltac on2 := repeat (first [solve [auto with only] | apply silent_only, silent_implicit | match goal with |- only _ (bind _ _) => apply only_bind; [|intros] end | exact I | match goal with |- only _ (if ?x then _ else _) => destruct x end]).
Lemma only_ex1 k E c s : only (c_partner c) (ex1 gnone k E c s).
Proof. destruct k; cbn [ex1]; unfold ser_first, par_first; on2. Qed.
Lemma only_ex2 k E c s : only (c_partner c) (ex2 gnone k E c s).
Proof. destruct k; cbn [ex2]; unfold ser_second, par_second; on2. Qed.
Lemma silent_complete (s : st) : silent (checkCompleteness s).
Proof. unfold checkCompleteness. repeat (apply silent_bind; [apply silent_check|intros]). exact I. Qed.
Lemma silent_after c (s : st) : silent (afterSecond c s).
Proof.
  unfold afterSecond. apply silent_bind.
  - destruct (c_implicit c); [|exact I]. apply silent_bind; [apply silent_assert|]. intros; exact I.
  - intros a. apply silent_bind; [apply silent_assert|]. intros _. apply silent_bind; [|intros; exact I].
    destruct (s_compl a); [|exact I]. destruct (s_tws a); [|exact I]. destruct (th_completeTimeWindow _ _ _); exact I.
Qed.
Lemma only_first1 E k c s : only (c_partner c) (first1 gnone E (k, c) s).
Proof.
  unfold first1, firstExchange. cbn [fst snd]. apply only_bind; [apply silent_only, silent_complete|]. intros a. destruct (reachedEndOfTimeWindow _ _); [apply only_ex1|exact I].
Qed.
Lemma only_second1 E k c s : only (c_partner c) (second1 gnone E (k, c) s).
Proof.
  unfold second1, secondExchange. cbn [fst snd]. apply only_bind; [apply silent_only, silent_complete|]. intros a. apply only_bind; [apply only_assert|]. intros _.
  destruct (reachedEndOfTimeWindow _ _); [|exact I]. apply only_bind; [apply only_ex2|]. intros. apply only_bind; [apply silent_only, silent_after|]. intros; exact I.
Qed.
Lemma silent_add c dt (s : st) : silent (addComputedTime c dt s).
Proof. unfold addComputedTime. apply silent_bind; [apply silent_assert|]. intros. apply silent_bind; [apply silent_check|]. intros; exact I. Qed.

(** * One scheme *)
Lemma hook_ex1 k E c w : fixed k c w -> hook1 c (ex1 gnone k E c).
Proof. intros (W & _). destruct k; [apply ser_first_hook|apply par_first_hook]; exact W. Qed.
Lemma hook_ex2 k E c : hook2 (V:=V) c (ex2 gnone k E c).
Proof. destruct k; [apply ser_second_hook|apply par_second_hook]. Qed.
Lemma fixed_sets k c w : fixed k c w -> c_sets c = false /\ c_recvs c = false.
Proof.
  intros ((W1 & W2 & _) & _ & Hw). split.
  - destruct (c_sets c); [|reflexivity]. destruct W1 as (_ & _ & W1); congruence.
  - destruct (c_recvs c); [|reflexivity]. destruct W2 as (_ & _ & W2); congruence.
Qed.
(** the window size is [w] and stays so *)
Definition sized (w : Z) (s : st) : Prop := s_tws s = Some w /\ s_next s = Some w.

Lemma first1_ok E k c w s tr s' : fixed k c w -> sized w s -> does (first1 gnone E (k, c) s) tr s' ->
  s_time s' = s_time s /\ sized w s' /\ s_compl s' = false /\
  (if reachedEndOfTimeWindow c s then s_windows s' = s_windows s + 1 else s_windows s' = s_windows s /\ s_conv s' = s_conv s /\ tr = []).
Proof.
  intros F (Hw & Hn) H. unfold first1, firstExchange in H. cbn [fst snd] in H. db H t1 t2 a D.
  pose proof (silent_does _ _ _ (silent_complete s) D) as (E1 & ->). apply does_returns in D. apply check_spec in D. destruct D as (-> & _). cbn [app].
  match type of H with context [reachedEndOfTimeWindow c ?x] => change (reachedEndOfTimeWindow c x) with (reachedEndOfTimeWindow c s) in H end.
  destruct (reachedEndOfTimeWindow c s).
  - apply does_returns in H. apply (hook_ex1 k E c w F) in H. destruct (fixed_sets k c w F) as (Es & _). rewrite Es in H.
    destruct H as ((A1 & A2 & A3 & A4 & A5 & A6 & A7 & A8) & A9 & A10). cbn in *. unfold sized. repeat split; congruence.
  - destruct H as (-> & <-). cbn. unfold sized. cbn. auto 10.
Qed.
Lemma second1_ok E k c w s tr s' : fixed k c w -> sized w s -> does (second1 gnone E (k, c) s) tr s' ->
  sized w s' /\ s_compl s = false /\
  (if reachedEndOfTimeWindow c s then
     s_compl s' = (negb (c_implicit c) || s_conv s') /\
     (if s_compl s' then th_completeTimeWindow (c_eps c) (s_time s) w = Some (s_time s') /\ s_windows s' = s_windows s
      else s_time s' = th_resetProgress (s_time s) /\ s_windows s' = s_windows s - 1)
   else s_time s' = s_time s /\ s_compl s' = false /\ s_windows s' = s_windows s /\ tr = []).
Proof.
  intros F (Hw & Hn) H. unfold second1, secondExchange in H. cbn [fst snd] in H. db H t1 t2 a D.
  pose proof (silent_does _ _ _ (silent_complete s) D) as (E1 & ->). apply does_returns in D. apply check_spec in D. destruct D as (-> & _). cbn [app].
  db H t3 t4 u H1. pose proof (silent_does _ _ _ (silent_assert _ _) H1) as (_ & ->). apply does_returns in H1. apply ret_assert in H1. cbn [app].
  match type of H with context [reachedEndOfTimeWindow c ?x] => change (reachedEndOfTimeWindow c x) with (reachedEndOfTimeWindow c s) in H end.
  apply negb_true_iff in H1. change (s_compl s = false) in H1.
  destruct (reachedEndOfTimeWindow c s).
  - db H t5 t6 b H2. db H t7 t8 b' H4. apply does_returns in H2, H4, H. cbn [returns] in H. subst s'. cbn [logIteration set_s_hist s_time s_windows s_compl s_tws s_next s_conv].
    apply hook_ex2 in H2. destruct H2 as ((A1 & A2 & A3 & A4 & A5 & A6 & A7 & A8) & A9 & A10). destruct (fixed_sets k c w F) as (_ & Er). specialize (A10 Er). cbn in A1, A2, A9, A10.
    apply after_spec with (w := w) in H4; [|congruence]. destruct H4 as (B1 & B2 & B3 & B4 & B5 & B6 & B7 & _).
    split; [unfold sized; cbn; split; congruence|]. split; [exact H1|]. split; [congruence|].
    rewrite A1, A2 in B5, B6. cbn in B5, B6. match goal with |- if ?b then _ else _ => destruct b eqn:Eb end; [exact (B5 eq_refl)|exact (B6 eq_refl)].
  - destruct H as (-> & <-). unfold sized. cbn. auto 10.
Qed.

(** ** The convergence flag *)
Lemma does_store (s s' : st) tr : does (storeIteration s) tr s' -> s' = s.
Proof. intros H. apply does_returns in H. apply storeIteration_keeps in H. exact H. Qed.
Lemma does_recvConv c (s s' : st) tr : does (receiveConvergence c s) tr s' -> In (Got (c_partner c) (MBool (s_conv s'))) tr.
Proof.
  unfold receiveConvergence. intros H. db H t1 t2 b D. cbn in H. destruct H as (_ & <-). unfold recvBool in D. db D t3 t4 m D1.
  cbn in D1. destruct t3 as [|e t3]; [destruct D1|]. destruct D1 as (m' & -> & -> & ->). destruct m; try contradiction. cbn in D. destruct D as (-> & ->). cbn. auto.
Qed.
Lemma does_sendConv c (s : st) tr u : does (sendConvergence c s) tr u -> In (Sent (c_partner c) (MBool (s_conv s))) tr.
Proof. unfold sendConvergence, send. cbn. destruct tr as [|e tr]; [intros []|]. intros (-> & _). left. reflexivity. Qed.
Lemma ex1_flag E c s tr s' : c_implicit c = true -> c_first c = false -> does (ex1 gnone Serial E c s) tr s' -> In (Sent (c_partner c) (MBool (s_conv s'))) tr.
Proof.
  intros I F H. cbn [ex1] in H. unfold ser_first in H. rewrite F, I in H. db H t1 t2 a D1. db H t3 t4 u D2. db H t5 t6 u' D3.
  apply does_returns in H. apply sendData_keeps in H. destruct H as (_ & ->). apply does_sendConv in D2. rewrite !in_app_iff. auto.
Qed.
Lemma conv_move (s : st) : s_conv (if s_conv s then moveToNextWindow s else s) = s_conv s.
Proof. destruct (s_conv s) eqn:E; cbn; auto. Qed.
Lemma ex2_flag k E c s tr s' : c_implicit c = true -> does (ex2 gnone k E c s) tr s' ->
  if c_first c then In (Got (c_partner c) (MBool (s_conv s'))) tr
  else match k with Serial => s_conv s' = s_conv s | Parallel => In (Sent (c_partner c) (MBool (s_conv s'))) tr end.
Proof.
  intros I H. destruct k; cbn [ex2] in H.
  - unfold ser_second in H. rewrite I in H. db H t1 t2 s1 D1. db H t3 t4 s2 D2.
    apply does_store in D2. assert (C : s_conv s2 = s_conv s1) by (subst s2; apply conv_move). clear D2. destruct (c_first c) eqn:F.
    + cbn [negb andb] in H. destruct H as (_ & <-). rewrite C.
      db D1 t5 t6 sa Da. db D1 t7 t8 u Du. db D1 t9 t10 sb Db. apply does_recvConv in Da. apply does_returns in Db, D1. apply receiveData_keeps in Db. apply notify_keeps in D1.
      destruct D1 as (_ & ->). destruct Db as (_ & ->). rewrite !in_app_iff. auto.
    + cbn in D1. destruct D1 as (-> & ->). 
      match type of H with context [if ?b then _ else _] => destruct b end; [|destruct H as (_ & <-); exact C].
      db H t5 t6 s3 D3. db H t7 t8 u Du. db H t9 t10 s4 D4. apply does_returns in H, D3, D4. apply notify_keeps in H. apply recvTWS_spec in D3.
      destruct H as (_ & ->). destruct D3 as (_ & D3 & _). destruct (s_conv s3) eqn:Ex; [apply windowEnd_keeps in D4|apply receiveData_keeps in D4]; destruct D4 as (_ & D4); congruence.
  - unfold par_second in H. db H t1 t2 u Du. rewrite I in H. db H t3 t4 s1 D1. apply does_store in H.
    assert (C : s_conv s' = s_conv s1) by (subst s'; apply conv_move). rewrite C. destruct (c_first c) eqn:F.
    + db D1 t5 t6 sa Da. db D1 t7 t8 sb Db. apply does_recvConv in Da. apply does_returns in D1, Db. apply receiveData_keeps in Db. apply notify_keeps in D1.
      destruct D1 as (_ & ->). destruct Db as (_ & ->). rewrite !in_app_iff. auto.
    + db D1 t5 t6 sa Da. db D1 t7 t8 u' Db. apply does_sendConv in Db. apply does_returns in D1. apply sendData_keeps in D1. destruct D1 as (_ & ->). rewrite !in_app_iff. auto 6.
Qed.
(** a window of an implicit scheme is complete only after the flag was exchanged *)
Lemma flag_exchanged E E' k c w s s1 s2 tr1 tr2 : fixed k c w -> c_implicit c = true -> sized w s -> reachedEndOfTimeWindow c s = true ->
  does (first1 gnone E (k, c) s) tr1 s1 -> does (second1 gnone E' (k, c) s1) tr2 s2 -> s_compl s2 = true ->
  exists e, In e (tr1 ++ tr2) /\ (e = Sent (c_partner c) (MBool true) \/ e = Got (c_partner c) (MBool true)).
Proof.
  intros F I Hw R D1 D2 Co. pose proof (first1_ok E k c w s tr1 s1 F Hw D1) as (T1 & Z1 & C1 & _).
  pose proof (second1_ok E' k c w s1 tr2 s2 F Z1 D2) as (Z2 & _ & X).
  assert (R1 : reachedEndOfTimeWindow c s1 = true) by (rewrite (reached_eq c s s1); [exact R|exact T1|destruct Hw, Z1; congruence]).
  rewrite R1 in X. destruct X as (X & _). rewrite I, Co in X. cbn in X.
  unfold first1, firstExchange in D1. cbn [fst snd] in D1. db D1 t1 t2 a D3. pose proof (silent_does _ _ _ (silent_complete s) D3) as (E1 & ->). apply does_returns in D3. apply check_spec in D3. destruct D3 as (-> & _).
  match type of D1 with context [reachedEndOfTimeWindow c ?x] => change (reachedEndOfTimeWindow c x) with (reachedEndOfTimeWindow c s) in D1 end. rewrite R in D1.
  unfold second1, secondExchange in D2. cbn [fst snd] in D2. db D2 t3 t4 b D4. pose proof (silent_does _ _ _ (silent_complete s1) D4) as (E2 & ->). apply does_returns in D4. apply check_spec in D4. destruct D4 as (-> & _).
  db D2 t5 t6 u D5. pose proof (silent_does _ _ _ (silent_assert _ _) D5) as (_ & ->).
  match type of D2 with context [reachedEndOfTimeWindow c ?x] => change (reachedEndOfTimeWindow c x) with (reachedEndOfTimeWindow c s1) in D2 end. rewrite R1 in D2.
  db D2 t7 t8 s3 D6. db D2 t9 t10 s4 D7. cbn in D2. destruct D2 as (-> & <-). cbn in X.
  assert (Tw : s_tws s3 = Some w). { pose proof (does_returns _ _ _ D6) as Q. apply hook_ex2 in Q. destruct Q as (_ & -> & _). apply Z1. }
  apply does_returns in D7. apply after_spec with (w := w) in D7; [|exact Tw]. destruct D7 as (_ & _ & Cv & _). 
  assert (X3 : s_conv s3 = true) by congruence.
  pose proof (ex2_flag k E' c _ _ _ I D6) as Y. cbn [app]. destruct (c_first c) eqn:Fc.
  - rewrite X3 in Y. eexists. split; [rewrite !in_app_iff; right; left; exact Y|auto].
  - destruct k.
    + pose proof (ex1_flag E c _ _ _ I Fc D1) as W. cbn in Y. rewrite Y in X3. rewrite X3 in W. eexists. split; [rewrite !in_app_iff; left; exact W|auto].
    + rewrite X3 in Y. eexists. split; [rewrite !in_app_iff; right; left; exact Y|auto].
Qed.
End P.
