(** C20: a participant with several coupling schemes, every history of API calls
    without error, any partners. *)
From Coq Require Import ZArith Bool List Lia.
From Verif Require Import M_Net M_Time M_Wave M_Cpl M_Comp S_Prog S_Cpl S_Comp P_Prog P_Cpl P_CplRun P_Comp P_Comp2.
Import ListNotations.
Open Scope Z_scope.

Section T.
Context {V : Type}.
Variables (gnone vzero : V).
Notation crun := (crun gnone vzero).
Notation cAdvance := (cAdvance gnone).
Notation st := (st (V:=V)).

(** In every advance(), messages to and from explicit partners come after those of
    the implicit scheme, and only if the implicit scheme has exchanged the flag that
    it converged in this call. *)
Theorem C20_explicit_exchange_waits_for_convergence :
  forall eps w T cc ki ci Es s dt tr, compatible eps w T cc -> cc_impl cc = Some (ki, ci) ->
  crun (exact_step eps cc) cc s -> exact_step eps cc s dt -> starts (cAdvance Es cc dt s) tr ->
  exists tri tre, tr = tri ++ tre /\
    (forall e, In e tri -> partnerOf e = c_partner ci) /\
    (forall e, In e tre -> exists k c, In (k, c) (cc_expl cc) /\ partnerOf e = c_partner c) /\
    (tre <> [] -> In (Sent (c_partner ci) (MBool true)) tri \/ In (Got (c_partner ci) (MBool true)) tri).
Proof.
  intros eps w T cc ki ci Es s dt tr [He HT (ki' & ci' & Hi & Himp & Hf & Hie & HiT & _) Hs Hx] Ei R X S. rewrite Ei in Hi. injection Hi as <- <-.
  assert (J : CInv eps w T cc s) by (eapply run_inv; eauto).
  assert (Nil : tr = [] -> exists tri tre, tr = tri ++ tre /\
    (forall e, In e tri -> partnerOf e = c_partner ci) /\
    (forall e, In e tre -> exists k c, In (k, c) (cc_expl cc) /\ partnerOf e = c_partner c) /\
    (tre <> [] -> In (Sent (c_partner ci) (MBool true)) tri \/ In (Got (c_partner ci) (MBool true)) tri)).
  { intros ->. exists [], []. repeat split; try (intros e []). congruence. }
  unfold M_Comp.cAdvance in S.
  apply starts_bind in S. destruct S as [S|(t1 & t2 & u1 & -> & D1 & S)]; [apply Nil; eapply silent_starts; [|exact S]; apply silent_check|].
  pose proof (silent_does _ _ _ (silent_check _ _) D1) as (_ & ->). apply does_returns in D1. apply ret_check in D1. cbn [app] in *.
  apply starts_bind in S. destruct S as [S|(t3 & t4 & u2 & -> & D2 & S)]; [apply Nil; eapply silent_starts; [|exact S]; apply silent_check|].
  pose proof (silent_does _ _ _ (silent_check _ _) D2) as (_ & ->). clear D2. cbn [app] in *.
  apply starts_bind in S. destruct S as [S|(t5 & t6 & u3 & -> & D3 & S)]; [apply Nil; eapply silent_starts; [|exact S]; apply silent_check|].
  pose proof (silent_does _ _ _ (silent_check _ _) D3) as (_ & ->). apply does_returns in D3. apply ret_check in D3. apply Z.ltb_lt in D3. cbn [app] in *.
  apply starts_bind in S. destruct S as [S|(t7 & t8 & r & -> & Da & S)].
  { apply Nil. eapply silent_starts; [|exact S]. eapply silent_cadd; eauto. }
  destruct (add_ok eps w T cc ki ci He Ei Hie dt s t7 r J D1 D3 X Da) as (-> & b & p & i & M & _). cbn [app] in *.
  apply starts_bind in S. destruct S as [S|(t9 & t10 & s2 & -> & Db & S)].
  { apply Nil. eapply silent_starts; [|exact S]. eapply silent_before; eauto. }
  destruct (before_mid eps w T cc ki ci Ei Es _ _ _ _ _ _ _ _ M Db) as (-> & i2 & M2). cbn [app] in *.
  assert (Only1 : forall t, starts (first1 gnone (Es 0%nat) (ki, ci) i2) t -> forall e, In e t -> partnerOf e = c_partner ci).
  { intros t Q. eapply only_starts; [apply only_first1|exact Q]. }
  apply starts_bind in S. destruct S as [S|(t11 & t12 & s3 & -> & Dc & S)].
  { eapply first_starts in S; eauto. exists t10, []. rewrite app_nil_r. split; [reflexivity|]. split; [apply Only1, S|]. split; [intros e []|congruence]. }
  destruct (first_does gnone eps w T cc ki ci He Ei Es _ _ _ _ _ _ M2 Dc) as (i3 & F1 & E3 & Eh3 & F3).
  assert (Main : forall t, starts (cSecondExchange gnone Es cc s3) t -> exists tri tre, t11 ++ t = tri ++ tre /\
    (forall e, In e tri -> partnerOf e = c_partner ci) /\
    (forall e, In e tre -> exists k c, In (k, c) (cc_expl cc) /\ partnerOf e = c_partner c) /\
    (tre <> [] -> In (Sent (c_partner ci) (MBool true)) tri \/ In (Got (c_partner ci) (MBool true)) tri)).
  { intros t Q. destruct (second_starts gnone eps w T cc ki ci He Ei Hf Hie Hs Hx Es _ _ _ _ _ _ _ _ M2 F1 E3 Eh3 F3 Q) as (ta & tb & -> & Sa & Pb & Fl).
    exists (t11 ++ ta), tb. split; [apply app_assoc|]. split.
    { intros e He'. apply in_app_or in He'. destruct He' as [He'|He']; [apply (Only1 t11 (does_starts _ _ _ F1) e He')|].
      eapply only_starts; [apply only_second1|exact Sa|exact He']. }
    split; [exact Pb|]. intros Nb. destruct (Fl Nb) as (Re & i4 & Di & Ci). pose proof M2 as (_ & _ & _ & _ & (_ & _ & Sz) & _).
    destruct (flag_exchanged gnone _ _ _ _ _ _ _ _ _ _ Hf Himp Sz Re F1 Di Ci) as (e & Ie & [->| ->]); auto. }
  apply starts_bind in S. destruct S as [S|(t13 & t14 & s4 & -> & Dd & S)]; [apply Main, S|].
  apply silent_starts in S; [|eapply silent_cAfter; eauto]. subst t14. rewrite app_nil_r. eapply Main, does_starts, Dd.
Qed.

(** Whenever advance() or initialize() has returned and no iteration is going on, in
    particular when isTimeWindowComplete(), all schemes are at the same time.  The
    explicit scheme with windows of [n] times the implicit window size is in its
    window that contains the implicit scheme's window.  At the end of the
    simulation times may differ by the tolerance. *)
Theorem C20_schemes_in_step :
  forall eps w T cc s i k c e n, compatible eps w T cc ->
  crun (exact_step eps cc) cc s -> cComplete cc s = true \/ cx_hold s = false ->
  cx_impl s = Some i -> In (k, c, e) (combine (cc_expl cc) (cx_expl s)) -> c_tws c = Some (n * w) ->
  Z.abs (timeOf e - timeOf i) <= eps /\
  (n = 1 -> s_windows e = s_windows i) /\
  (cOngoing cc s = true -> timeOf e = timeOf i /\ s_windows e - 1 = (s_windows i - 1) / n).
Proof.
  intros eps w T cc s i k c e n [He HT (ki & ci & Hi & Himp & Hf & Hie & HiT & _) Hs Hx] R Hc Ei Ic Ec.
  assert (J : CInv eps w T cc s) by (eapply run_inv; eauto).
  destruct J as [b p i' Ei' L P Hm F C|b i' t Ei' Eh ET Em Ht W F]; rewrite Ei in Ei'; injection Ei' as <-.
  - assert (Eh : cx_hold s = false).
    { destruct (cx_hold s) eqn:Eh; [|reflexivity]. destruct Hc as [Hc|Hc]; [|exact Hc]. unfold cComplete, active in Hc. rewrite Hi, Ei, Eh in Hc. cbn in Hc. rewrite (C eq_refl) in Hc. discriminate. }
    rewrite Eh in F. pose proof (in_combine_2 _ _ _ _ _ F Ic) as Px. pose proof (ex_time _ _ _ _ _ _ _ Px) as Te. pose proof (im_time _ _ _ _ _ Hm) as Ti.
    destruct Px as (n' & a & (Hn & (_ & _ & Fx) & _ & _ & A & _) & _ & We). cbn [snd] in Fx. rewrite Ec in Fx. injection Fx as Fx.
    assert (n = n') by (apply Z.mul_cancel_r in Fx; lia). subst n'. destruct Hm as (_ & Wi & _).
    assert (Q : b / n = a) by (symmetry; apply Z.div_unique with (r := b - a * n); lia).
    split; [rewrite Te, Ti, Z.sub_diag; cbn; lia|]. split.
    + intros ->. rewrite Z.div_1_r in Q. lia.
    + intros _. split; [congruence|]. rewrite We, Wi. replace (a + 1 - 1) with a by lia. replace (b + 1 - 1) with b by lia. congruence.
  - pose proof (in_combine_2 _ _ _ _ _ F Ic) as (P1 & P2). split; [exact P1|]. split.
    + intros ->. rewrite W. apply P2. cbn [snd]. rewrite Ec. f_equal. lia.
    + intros O. exfalso. unfold cOngoing in O. rewrite Hi, Ei in O. cbn [snd] in O. unfold isCouplingOngoing in O. apply andb_true_iff in O. destruct O as (_ & O).
      apply negb_true_iff in O. unfold th_reachedEnd in O. rewrite Em, ET in O. unfold equals, th_untilTime in O. apply Z.leb_gt in O. unfold timeOf, th_time in Ht. rewrite Hie in O. lia.
Qed.

(** Explicit schemes alone with the same window size: in step after every call,
    whatever the steps. *)
Theorem C20_explicit_schemes_in_step :
  forall eps w T cc ok s x y, cc_impl cc = None ->
  (forall k c, In (k, c) (cc_expl cc) -> c_implicit c = false /\ c_eps c = eps /\ c_maxTime c = T /\ fixed k c w) ->
  crun ok cc s -> In x (cx_expl s) -> In y (cx_expl s) ->
  timeOf x = timeOf y /\ s_windows x = s_windows y /\ s_compl x = s_compl y.
Proof.
  intros eps w T cc ok s x y Hi Hx R Ix Iy.
  assert (J : EInv w cc s) by (eapply e_run; eauto). destruct J as (_ & h & n & b & F).
  assert (G : forall z, In z (cx_expl s) -> s_time z = h /\ s_windows z = n /\ s_compl z = b).
  { clear -F. induction F as [|c z cs zs P _ IH]; intros z'; cbn; [intros []|]. intros [<-|I]; [|apply IH, I]. destruct P as (_ & P1 & P2 & P3 & _). auto. }
  pose proof (G x Ix) as (a1 & a2 & a3). pose proof (G y Iy) as (b1 & b2 & b3). unfold timeOf. split; [congruence|]. split; congruence.
Qed.
End T.
Print Assumptions C20_explicit_exchange_waits_for_convergence.
Print Assumptions C20_schemes_in_step.
Print Assumptions C20_explicit_schemes_in_step.

(** * A participant with an implicit and two explicit schemes *)
Definition cx_env (ok : bool) : env (V:=Z) := Env (fun _ => 10) (fun s n => (th_time (s_time s), 0)) (fun _ => (0, 0)) (fun _ => [ok]) (fun _ _ _ _ x => x).
Definition cx_i : conf := Conf 1 true false false false (Some 35) None (Some 10) 1 None [(false, false)] 1 [DSpec false false false] [DSpec false false false].
Definition cx_e1 : conf := Conf 1 false true false false (Some 35) None (Some 10) 1 None [] 2 [DSpec false false false] [DSpec false false false].
Definition cx_e2 (w : Z) : conf := Conf 1 false true false false (Some 35) None (Some w) 1 None [] 3 [DSpec false false false] [DSpec false false false].
Definition cx : cconf := CConf [(Parallel, cx_e1); (Parallel, cx_e2 20)] (Some (Parallel, cx_i)).

Example cx_compatible : compatible 1 10 (Some 35) cx.
Proof.
  assert (F : forall c w, c_sets c = false -> c_recvs c = false -> c_tws c = Some w -> 0 <= c_eps c -> fixed Parallel c w).
  { intros c w A B C D. unfold fixed, wf_method. rewrite A, B, C. repeat split; try discriminate; auto. }
  split.
  - lia.
  - intros t H. injection H as <-. lia.
  - exists Parallel, cx_i. repeat split; try (cbn; discriminate); try reflexivity; try (cbn; lia).
    intros k c [H|[H|[]]]; injection H as <- <-; discriminate.
  - discriminate.
  - intros k c [H|[H|[]]]; injection H as <- <-; (repeat split; try reflexivity); [exists 1|exists 2]; (split; [lia|]); apply F; cbn; auto; lia.
Qed.
(** calls of the participant with the messages it receives *)
Definition call (cc : cconf) (ok : bool) (dt : Z) (l : list (msg Z)) (s : cst (V:=Z)) : option cst :=
  feed (cAdvance 0 (fun _ => cx_env ok) cc dt (cAnswer s)) l.
Definition begin (cc : cconf) : option (cst (V:=Z)) := feed (cInitialize 0 0 (fun _ => cx_env true) cc) [].
Lemma call_run ok' cc ok dt l s s' : crun 0 0 ok' cc s -> ok' (cAnswer s) dt -> call cc ok dt l s = Some s' -> crun 0 0 ok' cc s'.
Proof. intros R O H. eapply cr_advance; [apply cr_ask, R|exact O|eapply feed_returns, H]. Qed.
Lemma begin_run ok' cc s : begin cc = Some s -> crun 0 0 ok' cc s.
Proof. intros H. eapply cr_init, feed_returns, H. Qed.

(** one window with a second iteration, then a window that ends the larger explicit
    window as well *)
Example cx_run : exists s1 s2 s3 s4 s5,
  crun 0 0 (exact_step 1 cx) cx s5 /\ begin cx = Some s1 /\
  call cx false 10 [MVals [5]] s1 = Some s2 /\ cx_hold s2 = true /\ cComplete cx s2 = false /\
  call cx true 4 [] s2 = Some s3 /\ call cx true 6 [MVals [6]; MVals [7]] s3 = Some s4 /\ cx_hold s4 = false /\ cComplete cx s4 = true /\
  map (fun e => s_windows e) (cx_expl s4) = [2; 1] /\
  call cx true 10 [MVals [6]; MVals [8]; MVals [9]] s4 = Some s5 /\ cOngoing cx s5 = true /\ cComplete cx s5 = true /\
  map (fun e => (timeOf e, s_windows e)) (cx_expl s5) = [(20, 3); (20, 2)] /\
  match cx_impl s5 with Some i => timeOf i = 20 /\ s_windows i = 3 | None => False end.
Proof.
  destruct (begin cx) as [s1|] eqn:Q1; [|vm_compute in Q1; discriminate]. 
  assert (R1 : crun 0 0 (exact_step 1 cx) cx s1) by (eapply begin_run, Q1). vm_compute in Q1. injection Q1 as <-.
  match type of R1 with crun _ _ _ _ ?s => destruct (call cx false 10 [MVals [5]] s) as [s2|] eqn:Q2; [|vm_compute in Q2; discriminate Q2] end.
  assert (R2 : crun 0 0 (exact_step 1 cx) cx s2) by (eapply call_run; [exact R1| |exact Q2]; vm_compute; auto). pose proof Q2 as P2. vm_compute in Q2. injection Q2 as <-.
  match type of R2 with crun _ _ _ _ ?s => destruct (call cx true 4 [] s) as [s3|] eqn:Q3; [|vm_compute in Q3; discriminate Q3] end.
  assert (R3 : crun 0 0 (exact_step 1 cx) cx s3) by (eapply call_run; [exact R2| |exact Q3]; vm_compute; auto). pose proof Q3 as P3. vm_compute in Q3. injection Q3 as <-.
  match type of R3 with crun _ _ _ _ ?s => destruct (call cx true 6 [MVals [6]; MVals [7]] s) as [s4|] eqn:Q4; [|vm_compute in Q4; discriminate Q4] end.
  assert (R4 : crun 0 0 (exact_step 1 cx) cx s4) by (eapply call_run; [exact R3| |exact Q4]; vm_compute; auto). pose proof Q4 as P4. vm_compute in Q4. injection Q4 as <-.
  match type of R4 with crun _ _ _ _ ?s => destruct (call cx true 10 [MVals [6]; MVals [8]; MVals [9]] s) as [s5|] eqn:Q5; [|vm_compute in Q5; discriminate Q5] end.
  assert (R5 : crun 0 0 (exact_step 1 cx) cx s5) by (eapply call_run; [exact R4| |exact Q5]; vm_compute; auto). pose proof Q5 as P5. vm_compute in Q5. injection Q5 as <-.
  do 5 eexists. split; [exact R5|]. split; [reflexivity|]. split; [exact P2|]. split; [reflexivity|]. split; [reflexivity|]. split; [exact P3|]. split; [exact P4|].
  split; [reflexivity|]. split; [reflexivity|]. split; [reflexivity|]. split; [exact P5|]. repeat split.
Qed.

(** * What does not hold *)
(** If a step overshoots the end of the window by less than the tolerance, which
    advance() accepts, the implicit scheme completes its window, but the composition
    takes it to be iterating: the explicit schemes do not exchange and stay one
    window behind, although isTimeWindowComplete() is true. *)
Theorem C20_in_step_with_tolerance_refuted :
  ~ (forall eps w T cc s (i e : st (V:=Z)) k c, compatible eps w T cc -> crun 0 0 (fun _ _ => True) cc s -> cComplete cc s = true ->
     cx_impl s = Some i -> In (k, c, e) (combine (cc_expl cc) (cx_expl s)) -> c_tws c = Some w -> s_windows e = s_windows i).
Proof.
  intros H. destruct (begin cx) as [s1|] eqn:Q1; [|vm_compute in Q1; discriminate]. 
  assert (R1 : crun 0 0 (fun _ _ => True) cx s1) by (eapply begin_run, Q1). vm_compute in Q1. injection Q1 as <-.
  match type of R1 with crun _ _ _ _ ?s => destruct (call cx true 11 [MVals [5]] s) as [s2|] eqn:Q2; [|vm_compute in Q2; discriminate Q2] end.
  assert (R2 : crun 0 0 (fun _ _ => True) cx s2) by (eapply call_run; [exact R1|exact I|exact Q2]). vm_compute in Q2. injection Q2 as <-.
  specialize (H 1 10 (Some 35) cx _ _ _ Parallel cx_e1 cx_compatible R2 eq_refl eq_refl (or_introl eq_refl) eq_refl). discriminate H.
Qed.

Fixpoint feedT {M A} (p : proc M A) (l : list M) : option (list (io M) * A) :=
  match p with
  | PRet a => match l with [] => Some ([], a) | _ => None end
  | PErr _ => None
  | PSend j m k => match feedT k l with Some (t, a) => Some (Sent j m :: t, a) | None => None end
  | PRecv j k => match l with [] => None | m :: l' => match feedT (k m) l' with Some (t, a) => Some (Got j m :: t, a) | None => None end end
  end.
Lemma feedT_does {M A} (p : proc M A) : forall l t a, feedT p l = Some (t, a) -> does p t a.
Proof.
  induction p as [x|e|j m k IH|j k IH]; intros l t a H; cbn in *.
  - destruct l; [|discriminate]. injection H as <- <-. auto.
  - discriminate.
  - destruct (feedT k l) as [(t', a')|] eqn:Q; [|discriminate]. injection H as <- <-. split; [reflexivity|eapply IH, Q].
  - destruct l as [|m l]; [discriminate|]. destruct (feedT (k m) l) as [(t', a')|] eqn:Q; [|discriminate]. injection H as <- <-. exists m. split; [reflexivity|eapply IH, Q].
Qed.
(** Explicit windows that are no multiple of the implicit window only lead to a
    warning.  Then an explicit scheme can exchange while the implicit scheme has not
    converged, and it sends the data of one window twice. *)
Definition cx' : cconf := CConf [(Parallel, cx_e2 15)] (Some (Parallel, cx_i)).
Theorem C20_unaligned_windows_refuted :
  exists Es dt s tr s' (e e' : st (V:=Z)), crun 0 0 (exact_step 1 cx') cx' s /\ exact_step 1 cx' s dt /\ does (cAdvance 0 Es cx' dt s) tr s' /\
    (forall x, In x tr -> partnerOf x = 3%nat) /\ 
    (exists v, tr = [Sent 3%nat (MVals [v]); Sent 3%nat (MVals [v]); Got 3%nat (MVals [8])]) /\
    cx_expl s = [e] /\ cx_expl s' = [e'] /\ timeOf e' = 15 /\ s_windows e' = s_windows e + 2.
Proof.
  destruct (begin cx') as [s1|] eqn:Q1; [|vm_compute in Q1; discriminate]. 
  assert (R1 : crun 0 0 (exact_step 1 cx') cx' s1) by (eapply begin_run, Q1). vm_compute in Q1. injection Q1 as <-.
  match type of R1 with crun _ _ _ _ ?s => destruct (call cx' true 10 [MVals [5]] s) as [s2|] eqn:Q2; [|vm_compute in Q2; discriminate Q2] end.
  assert (R2 : crun 0 0 (exact_step 1 cx') cx' s2) by (eapply call_run; [exact R1| |exact Q2]; vm_compute; auto). vm_compute in Q2. injection Q2 as <-.
  apply cr_ask in R2. vm_compute in R2.
  match type of R2 with crun _ _ _ _ ?s => destruct (feedT (cAdvance 0 (fun _ => cx_env true) cx' 5 s) [MVals [8]]) as [(tr, s3)|] eqn:Q3; [|vm_compute in Q3; discriminate Q3] end.
  pose proof (feedT_does _ _ _ _ Q3) as D. vm_compute in Q3. injection Q3 as <- <-.
  eexists. exists 5. do 5 eexists. split; [exact R2|]. split; [vm_compute; auto|]. split; [exact D|]. clear. split.
  - intros x [<-|[<-|[<-|[]]]]; reflexivity.
  - split; [eexists; reflexivity|]. repeat split.
Qed.
Print Assumptions C20_in_step_with_tolerance_refuted.
Print Assumptions C20_unaligned_windows_refuted.
