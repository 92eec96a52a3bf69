(** The local part of a window: all steps but the last one. *)
From Coq Require Import ZArith Bool List Lia.
From Verif Require Import M_Net M_Time M_Wave M_Cpl S_Prog S_Cpl S_Net P_Prog P_Net P_Pair P_Log P_CplData P_CplStep.
Import ListNotations.
Open Scope Z_scope.

(** length of the window that starts at [ws] *)
Definition wlen (c : conf) (w ws : Z) : Z :=
  match c_maxTime c with None => w | Some T => Z.min w (T - ws) end.

Definition winok (c : conf) (n : Z) : Prop := match c_maxWindows c with None => True | Some m => n <= m end.

(** stamps of a storage in which the window starts at [a] and nothing is later
    than [b] *)
Definition stamped (eps a b : Z) (l : list Z) : Prop :=
  spaced eps l /\ (exists r, l = a :: r) /\ forall u, In u l -> u <= b.

Lemma spaced_head eps a r : 0 <= eps -> spaced eps (a :: r) -> forall u, In u r -> a + eps < u.
Proof.
  intros E. revert a. induction r as [|b r IH]; intros a S u Hu; [destruct Hu|].
  destruct S as (S1 & S2). destruct Hu as [<-|Hu]; [exact S1|]. specialize (IH b S2 u Hu). lia.
Qed.

Lemma stamped_add eps a b l t : 0 <= eps -> stamped eps a b l -> b + eps < t ->
  stamped eps a t (l ++ [t]) /\ below eps t l.
Proof.
  intros E (S & (r & ->) & U) H.
  assert (B : below eps t (a :: r)) by (intros u Hu; specialize (U u Hu); lia).
  split; [|exact B]. split; [apply spaced_app; assumption|]. split; [exists (r ++ [t]); reflexivity|].
  intros u Hu. apply in_app_or in Hu as [Hu|[<-|[]]]; [|lia]. specialize (U u Hu). lia.
Qed.

Lemma stamped_weaken eps a b b' l : stamped eps a b l -> b <= b' -> stamped eps a b' l.
Proof. intros (S & R & U) H. split; [exact S|]. split; [exact R|]. intros u Hu. specialize (U u Hu). lia. Qed.

Section Win.
Context {V : Type}.
Variables (gnone : V).
Notation st := (st (V:=V)).

Record InWin (c : conf) (w ws p n : Z) (TS : list Z) (s : st) : Prop := {
  iw_time : s_time s = TH (c_maxTime c) ws p;
  iw_windows : s_windows s = n;
  iw_tws : s_tws s = Some w;
  iw_init : a_init (s_req s) = true -> a_init (s_ful s) = true;
  iw_send : sshape (length (c_send c)) TS (s_send s);
  iw_TS : stamped (c_eps c) ws (ws + p) TS
}.

Lemma inwin_max c w ws p n TS (s : st) : 0 <= c_eps c -> InWin c w ws p n TS s -> winok c n -> p + c_eps c < wlen c w ws ->
  isCouplingOngoing c s = true /\ getMaxTimeStepSize c s = Some (wlen c w ws - p).
Proof.
  intros E0 I W P.
  assert (O : isCouplingOngoing c s = true).
  { unfold isCouplingOngoing. rewrite (iw_windows _ _ _ _ _ _ _ I), (iw_time _ _ _ _ _ _ _ I).
    apply andb_true_intro. split.
    - unfold winok in W. destruct (c_maxWindows c); [apply Z.leb_le; exact W|reflexivity].
    - unfold th_reachedEnd, th_untilTime, equals, wlen in *. cbn [th_max th_start th_prog]. destruct (c_maxTime c) as [T|]; [|reflexivity].
      apply negb_true_iff, Z.leb_gt. lia. }
  split; [exact O|]. unfold getMaxTimeStepSize. rewrite O, (iw_tws _ _ _ _ _ _ _ I), (iw_time _ _ _ _ _ _ _ I).
  unfold th_untilWindowEnd, th_untilProgress, th_untilTime, wlen. cbn [th_max th_start th_prog].
  destruct (c_maxTime c); f_equal; lia.
Qed.

Lemma answered_fields (s : st) : exists f, answered s = set_s_ful f s.
Proof. apply answered_eq. Qed.

Lemma inwin_answered c w ws p n TS s : InWin c w ws p n TS s -> InWin c w ws p n TS (answered s) /\ ready (answered s).
Proof.
  intros I. pose proof (answered_ready s (iw_init _ _ _ _ _ _ _ I)) as R. split; [|exact R].
  destruct (answered_eq s) as (f & Q). destruct R as (R & _).
  constructor.
  - rewrite Q. exact (iw_time _ _ _ _ _ _ _ I).
  - rewrite Q. exact (iw_windows _ _ _ _ _ _ _ I).
  - rewrite Q. exact (iw_tws _ _ _ _ _ _ _ I).
  - exact R.
  - rewrite Q. exact (iw_send _ _ _ _ _ _ _ I).
  - exact (iw_TS _ _ _ _ _ _ _ I).
Qed.

(** fields a local step leaves alone *)
Definition same_rest (s s' : st) : Prop :=
  s_next s' = s_next s /\ s_it s' = s_it s /\ s_recv s' = s_recv s /\
  s_hist s' = s_hist s /\ s_sent s' = s_sent s /\ s_rcvd s' = s_rcvd s.

Lemma reached_sub c w ws p dt n TS (s : st) : InWin c w ws p n TS s ->
  reachedEndOfTimeWindow c (set_s_time (th_progressBy dt (s_time s)) s) = (Z.abs (wlen c w ws - p - dt) <=? c_eps c).
Proof.
  intros I. unfold reachedEndOfTimeWindow. cbn [s_tws set_s_time s_time]. rewrite (iw_tws _ _ _ _ _ _ _ I), (iw_time _ _ _ _ _ _ _ I).
  unfold th_reachedEndOfWindow, equals, th_untilWindowEnd, th_untilProgress, th_untilTime, th_progressBy, wlen. cbn [th_max th_start th_prog].
  f_equal. destruct (c_maxTime c); f_equal; lia.
Qed.

(** the solver loop around arbitrary exchanges *)
Definition loopWith (E : env (V:=V)) (e1 e2 : st -> proc (msg V) st) (c : conf) (s : st) : option (proc (msg V) st) :=
  if isCouplingOngoing c s then Some (advance E e1 e2 c (e_dt E s) (answerWrite (answerRead s))) else None.

Lemma to_end_g (body : nat -> st -> option (proc (msg V) st)) i E e1 e2 c w ws n :
  0 <= c_eps c -> exact_solver c E -> c_sets c = false -> winok c n ->
  (forall s, body i s = loopWith E e1 e2 c s) ->
  forall (m : nat) p TS s, (Z.to_nat (wlen c w ws - p) <= m)%nat ->
  InWin c w ws p n TS s -> p + c_eps c < wlen c w ws ->
  exists s1 p1 TS1, local body i s s1 /\ InWin c w ws p1 n TS1 s1 /\ p1 + c_eps c < wlen c w ws /\
    e_dt E s1 = wlen c w ws - p1 /\ same_rest s s1.
Proof.
  intros E0 Ex Hs W Hb. induction m as [|m IH]; intros p TS s Hm I P; [lia|].
  destruct (inwin_max _ _ _ _ _ _ _ E0 I W P) as (O & Mx).
  pose proof (Ex s O) as D. rewrite (iw_time _ _ _ _ _ _ _ I) in D. specialize (D eq_refl ltac:(congruence)). rewrite Mx in D. destruct D as (D1 & D2); [lia|].
  destruct D2 as [D2|D2].
  - exists s, p, TS. split; [constructor|]. split; [exact I|]. split; [exact P|]. split; [exact D2|]. repeat split.
  - destruct (inwin_answered _ _ _ _ _ _ _ I) as (I' & R).
    destruct (answered_eq s) as (f & Qa).
    assert (Acc : accepts c (e_dt E s) (answered s)).
    { destruct (inwin_max _ _ _ _ _ _ _ E0 I' W P) as (O' & Mx'). split; [exact O'|]. split; [lia|]. rewrite Mx'. lia. }
    assert (Nr : reachedEndOfTimeWindow c (set_s_time (th_progressBy (e_dt E s) (s_time (answered s))) (answered s)) = false).
    { rewrite (reached_sub _ _ _ _ _ _ _ _ I'). apply Z.leb_gt. lia. }
    assert (Tt : th_time (s_time (answered s)) = ws + p) by (rewrite (iw_time _ _ _ _ _ _ _ I'); reflexivity).
    destruct (stamped_add _ _ _ _ (ws + p + e_dt E s) E0 (iw_TS _ _ _ _ _ _ _ I)) as (St & Bl); [lia|].
    destruct (advance_sub E e1 e2 c (e_dt E s) (answered s) TS E0 Acc R Nr (iw_send _ _ _ _ _ _ _ I'))
      as (ws1 & TS1 & A1 & A2 & A3).
    { rewrite Tt. exact Bl. }
    set (s' := cleared (entered (e_dt E s) ws1 (answered s))) in *.
    assert (Step : body i s = Some (PRet s')).
    { rewrite Hb. unfold loopWith. rewrite O. f_equal. exact A1. }
    assert (I1 : InWin c w ws (p + e_dt E s) n TS1 s').
    { unfold s'. constructor; cbn [cleared entered s_time s_windows s_tws s_req s_ful s_send set_s_ful set_s_req set_s_compl set_s_recvd set_s_send set_s_time].
      - rewrite (iw_time _ _ _ _ _ _ _ I'). reflexivity.
      - exact (iw_windows _ _ _ _ _ _ _ I').
      - exact (iw_tws _ _ _ _ _ _ _ I').
      - discriminate.
      - exact A2.
      - rewrite A3, Tt, Z.add_assoc. destruct (requiresSubsteps c); [exact St|].
        eapply stamped_weaken; [exact (iw_TS _ _ _ _ _ _ _ I)|lia]. }
    destruct (IH (p + e_dt E s) TS1 s') as (s1 & p1 & TS2 & B1 & B2 & B3 & B4 & B5); [lia|exact I1|lia|].
    exists s1, p1, TS2. split; [econstructor; [exact Step|exact B1]|]. split; [exact B2|]. split; [exact B3|]. split; [exact B4|].
    unfold same_rest in *. destruct B5 as (C1 & C2 & C3 & C4 & C5 & C6).
    rewrite C1, C2, C3, C4, C5, C6. unfold s'. rewrite Qa. cbn. repeat split.
Qed.

Lemma to_end (body : nat -> st -> option (proc (msg V) st)) i k E c w ws n :
  0 <= c_eps c -> exact_solver c E -> c_sets c = false -> winok c n ->
  (forall s, body i s = solverLoop gnone k E c s) ->
  forall (m : nat) p TS s, (Z.to_nat (wlen c w ws - p) <= m)%nat ->
  InWin c w ws p n TS s -> p + c_eps c < wlen c w ws ->
  exists s1 p1 TS1, local body i s s1 /\ InWin c w ws p1 n TS1 s1 /\ p1 + c_eps c < wlen c w ws /\
    e_dt E s1 = wlen c w ws - p1 /\ same_rest s s1.
Proof. intros E0 Ex Hs W Hb. exact (to_end_g body i E (ex1 gnone k E c) (ex2 gnone k E c) c w ws n E0 Ex Hs W Hb). Qed.

(** the last step of the window *)
Lemma last_step_g E e1 e2 c w ws p n TS s : 0 <= c_eps c -> winok c n -> InWin c w ws p n TS s -> p + c_eps c < wlen c w ws ->
  e_dt E s = wlen c w ws - p ->
  exists x TS1, 
    loopWith E e1 e2 c s = Some
      (bind (e1 x) (fun s3 => bind (secondExchange e2 c s3)
        (fun s4 => handleDataAfterAdvance c true (ws + wlen c w ws) s4))) /\
    s_time x = TH (c_maxTime c) ws (wlen c w ws) /\ s_windows x = n + 1 /\ s_tws x = Some w /\ s_req x = no_acts /\
    s_compl x = false /\ s_recvd x = false /\
    sshape (length (c_send c)) (ws :: TS1 ++ [ws + wlen c w ws]) (s_send x) /\
    spaced (c_eps c) (ws :: TS1 ++ [ws + wlen c w ws]) /\
    same_rest s x.
Proof.
  intros E0 W I P D.
  destruct (inwin_max _ _ _ _ _ _ _ E0 I W P) as (O & Mx).
  destruct (inwin_answered _ _ _ _ _ _ _ I) as (I' & R).
  destruct (answered_eq s) as (f & Qa).
  assert (Acc : accepts c (e_dt E s) (answered s)).
  { destruct (inwin_max _ _ _ _ _ _ _ E0 I' W P) as (O' & Mx'). split; [exact O'|]. split; [lia|]. rewrite Mx'. lia. }
  assert (Re : reachedEndOfTimeWindow c (set_s_time (th_progressBy (e_dt E s) (s_time (answered s))) (answered s)) = true).
  { rewrite (reached_sub _ _ _ _ _ _ _ _ I'). apply Z.leb_le. lia. }
  assert (Tt : th_time (s_time (answered s)) + e_dt E s = ws + wlen c w ws).
  { rewrite (iw_time _ _ _ _ _ _ _ I'). unfold th_time; cbn [th_start th_prog]. lia. }
  destruct (stamped_add _ _ _ _ (ws + wlen c w ws) E0 (iw_TS _ _ _ _ _ _ _ I)) as ((St & (r & Hr) & _) & Bl); [lia|].
  destruct (advance_end E e1 e2 c (e_dt E s) (answered s) TS E0 Acc R Re (iw_send _ _ _ _ _ _ _ I'))
    as (ws1 & A1 & A2).
  { rewrite Tt. exact Bl. }
  destruct (iw_TS _ _ _ _ _ _ _ I) as (_ & (r0 & HTS) & _). subst TS.
  eexists (set_s_windows _ (entered (e_dt E s) ws1 (answered s))), r0. split.
  { unfold loopWith. rewrite O. f_equal. rewrite Tt in A1. exact A1. }
  rewrite Tt in A2.
  cbn [entered s_time s_windows s_tws s_req s_compl s_recvd s_ful s_send set_s_windows set_s_ful set_s_req set_s_compl set_s_recvd set_s_send set_s_time].
  split; [rewrite (iw_time _ _ _ _ _ _ _ I'); unfold th_progressBy; cbn [th_max th_start th_prog]; f_equal; lia|].
  split; [rewrite (iw_windows _ _ _ _ _ _ _ I'); reflexivity|].
  split; [exact (iw_tws _ _ _ _ _ _ _ I')|]. repeat (split; [reflexivity|]).
  split; [exact A2|]. split; [exact St|].
  unfold same_rest. rewrite Qa. cbn. repeat split.
Qed.
Lemma last_step k E c w ws p n TS s : 0 <= c_eps c -> winok c n -> InWin c w ws p n TS s -> p + c_eps c < wlen c w ws ->
  e_dt E s = wlen c w ws - p ->
  exists x TS1, 
    solverLoop gnone k E c s = Some
      (bind (ex1 gnone k E c x) (fun s3 => bind (secondExchange (ex2 gnone k E c) c s3)
        (fun s4 => handleDataAfterAdvance c true (ws + wlen c w ws) s4))) /\
    s_time x = TH (c_maxTime c) ws (wlen c w ws) /\ s_windows x = n + 1 /\ s_tws x = Some w /\ s_req x = no_acts /\
    s_compl x = false /\ s_recvd x = false /\
    sshape (length (c_send c)) (ws :: TS1 ++ [ws + wlen c w ws]) (s_send x) /\
    spaced (c_eps c) (ws :: TS1 ++ [ws + wlen c w ws]) /\
    same_rest s x.
Proof. exact (last_step_g E (ex1 gnone k E c) (ex2 gnone k E c) c w ws p n TS s). Qed.
End Win.
