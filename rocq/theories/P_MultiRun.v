(** All schedules of a multi coupling (C17). *)
From Coq Require Import ZArith Bool List Lia.
From Verif Require Import M_Net M_Time M_Wave M_Cpl M_Multi S_Prog S_Cpl S_Net S_Term S_Comp S_Multi
  P_Prog P_Net P_Pair P_Log P_Term P_Comp P_Mail P_NetLift P_CplData P_CplStep P_CplWin P_NetPar P_Trace P_MultiData P_MultiPart P_MultiNet.
Import ListNotations.
Open Scope Z_scope.

(** logs grow, for any loop *)
Section Grow.
Context {V : Type}.
Notation st := (st (V:=V)).
Variable body : nat -> st -> option (proc (msg V) st).
Hypothesis body_grows : forall i s p, body i s = Some p -> gp s p.
Notation sstep := (sstep body).
Notation astep := (astep body).

Lemma ggp_sstep l c c' i p s0 : sstep l c c' -> nth_error c i = Some p -> gp s0 p ->
  exists p', nth_error c' i = Some p' /\ gp s0 p'.
Proof.
  intros St Hp G. inversion St as [a b m ka kb c0 N Ha Hb|a s q c0 Ha Hb]; subst.
  - assert (La : (a < length c)%nat) by (eapply nth_error_lt, Ha). assert (Lb : (b < length c)%nat) by (eapply nth_error_lt, Hb).
    destruct (Nat.eq_dec b i) as [->|Nb].
    + rewrite nth_upd_eq by (rewrite upd_length; exact Lb). exists (kb m). split; [reflexivity|].
      assert (p = PRecv a kb) as -> by congruence. intros s' R. apply G. exists m. exact R.
    + rewrite nth_upd_ne by exact Nb. destruct (Nat.eq_dec a i) as [->|Na].
      * rewrite nth_upd_eq by exact La. exists ka. split; [reflexivity|].
        assert (p = PSend b m ka) as -> by congruence. intros s' R. apply G. exact R.
      * rewrite nth_upd_ne by exact Na. exists p. auto.
  - assert (La : (a < length c)%nat) by (eapply nth_error_lt, Ha).
    destruct (Nat.eq_dec a i) as [->|Na].
    + rewrite nth_upd_eq by exact La. exists q. split; [reflexivity|].
      assert (p = PRet s) as -> by congruence. intros s' R. eapply grows_trans; [apply G; reflexivity|].
      eapply body_grows; eassumption.
    + rewrite nth_upd_ne by exact Na. exists p. auto.
Qed.
Lemma ggp_astep l x x' i p s0 : astep l x x' -> nth_error (fst x) i = Some p -> gp s0 p ->
  exists p', nth_error (fst x') i = Some p' /\ gp s0 p'.
Proof.
  intros St Hp G. inversion St as [a b m ka c0 q N Lb Ha|a b m ka c0 q r N Lb Ha Hq|a s p0 c0 q Ha Hb]; subst l x x'; cbn [fst] in *;
  assert (La : (a < length c0)%nat) by (eapply nth_error_lt, Ha);
  (destruct (Nat.eq_dec a i) as [->|Na]; [|rewrite nth_upd_ne by exact Na; exists p; auto]);
  rewrite nth_upd_eq by exact La; (eexists; split; [reflexivity|]).
  - assert (p = PSend b m ka) as -> by congruence. intros s' R. apply G. exact R.
  - assert (p = PRecv b ka) as -> by congruence. intros s' R. apply G. exists m. exact R.
  - assert (p = PRet s) as -> by congruence. intros s' R. eapply grows_trans; [apply G; reflexivity|].
    eapply body_grows; eassumption.
Qed.
Lemma ggp_srun w : forall c c' i p s0, lrun sstep w c c' -> nth_error c i = Some p -> gp s0 p ->
  exists p', nth_error c' i = Some p' /\ gp s0 p'.
Proof.
  induction w as [|l w IH]; intros c c' i p s0 R Hp G; inversion R as [|l0 w0 x1 x2 x3 R1 R2]; subst.
  - exists p. auto.
  - destruct (ggp_sstep _ _ _ _ _ _ R1 Hp G) as (p' & H1 & H2). eapply IH; eassumption.
Qed.
Lemma ggp_arun w : forall x x' i p s0, lrun astep w x x' -> nth_error (fst x) i = Some p -> gp s0 p ->
  exists p', nth_error (fst x') i = Some p' /\ gp s0 p'.
Proof.
  induction w as [|l w IH]; intros x x' i p s0 R Hp G; inversion R as [|l0 w0 x1 x2 x3 R1 R2]; subst.
  - exists p. auto.
  - destruct (ggp_astep _ _ _ _ _ _ R1 Hp G) as (p' & H1 & H2). eapply IH; eassumption.
Qed.
Lemma s_same_or w : forall c c' i, lrun sstep w c c' -> nth_error c' i = nth_error c i \/ covers w i.
Proof using.
  induction w as [|(a, b) w IH]; intros c c' i R; inversion R as [|l0 w0 x1 x2 x3 R1 R2]; subst.
  - left. reflexivity.
  - destruct (Nat.eq_dec a i) as [->|Na]; [right; exists i, b; cbn; auto|].
    destruct (Nat.eq_dec b i) as [->|Nb]; [right; exists a, i; cbn; auto|].
    destruct (IH _ _ i R2) as [H|H]; [left|right; apply covers_cons, H].
    rewrite H. eapply sstep_other; eassumption.
Qed.
Lemma a_same_or w : forall x x' i, lrun astep w x x' -> nth_error (fst x') i = nth_error (fst x) i \/ In i w.
Proof using.
  induction w as [|a w IH]; intros x x' i R; inversion R as [|l0 w0 x1 x2 x3 R1 R2]; subst; [left; reflexivity|].
  destruct (Nat.eq_dec a i) as [->|Na]; [right; left; reflexivity|]. destruct (IH _ _ i R2) as [H|H]; [left|right; right; exact H].
  rewrite H. inversion R1; subst; cbn [fst]; apply nth_upd_ne; exact Na.
Qed.
End Grow.

Section Logs.
Context {V : Type}.
Variables (gnone vzero : V).
Notation st := (st (V:=V)).
Lemma g_tos m : forall l (s : st), gp s (eachTo (sendTo gnone m) l s).
Proof.
  induction l as [|p l IH]; intros s; cbn [eachTo]; [apply gp_ret, grows_refl|]. apply gp_bind_st; [|intros; apply IH].
  unfold sendTo. apply gp_bind. intros _. apply gp_ret. unfold grows. cbn. repeat split; first [apply prefix_refl|apply prefix_app].
Qed.
Lemma g_froms m : forall l off (s : st), gp s (eachFrom (recvFrom gnone m) off l s).
Proof.
  induction l as [|p l IH]; intros off s; cbn [eachFrom]; [apply gp_ret, grows_refl|]. apply gp_bind_st; [|intros; apply IH].
  unfold recvFrom. apply gp_bind. intros r. apply gp_ret. unfold grows. cbn. repeat split; first [apply prefix_refl|apply prefix_app].
Qed.
Lemma g_mu1 m (s : st) : gp s (mu_first gnone m s).
Proof.
  unfold mu_first. apply gp_bind. intros _. apply g_if; [|apply g_tos]. apply gp_bind_st; [apply g_froms|]. intros. apply g_notify.
Qed.
Lemma g_mu2 E m (s : st) : gp s (mu_second gnone E m s).
Proof.
  unfold mu_second. apply gp_bind. intros _. apply gp_bind_st; [|intros; apply g_movestore]. apply g_if.
  - apply gp_bind. intros b. apply gp_bind_st; [|intros; apply g_notify]. eapply gp_pre; [|apply g_froms]. unfold grows. cbn. repeat split; apply prefix_refl.
  - apply gp_bind_st; [apply g_impl|]. intros s1. apply gp_bind. intros _. apply g_tos.
Qed.
Lemma g_multi E m (s : st) p : multiLoop gnone E m s = Some p -> gp s p.
Proof.
  unfold multiLoop. destruct (isCouplingOngoing _ s); [|discriminate]. intros H. injection H as <-.
  eapply gp_pre; [apply g_answered|]. apply g_advance; intros; [apply g_mu1|apply g_mu2].
Qed.
Lemma prefix_blocks j (l l' : list (list (view V))) : prefix l l' -> prefix (blocks j l) (blocks j l').
Proof. intros (r & ->). exists (blocks j r). unfold blocks. apply flat_map_app. Qed.
Lemma agree_of i j (si sj ti tj : st) : grows si ti -> grows sj tj -> multi_agree_fully i j ti tj -> multi_agree i j si sj.
Proof.
  intros (A1 & A2 & A3) (B1 & B2 & B3) (F1 & F2). split; intros k x y H1 H2.
  - eapply prefix_nth; [exact A1|rewrite F1; exact B1|exact H1|exact H2].
  - eapply prefix_nth; [apply prefix_blocks, A2|rewrite F2; apply prefix_blocks, B3|exact H1|exact H2].
Qed.
End Logs.

Section Run.
Context {V : Type}.
Variables (gnone vzero : V).
Notation st := (st (V:=V)).
Notation env := (env (V:=V)).
Notation wv := (wave (smp V)).
Notation always := (fun _ : list dspec => true).
Variables (n z : nat) (w : Z) (cf : nat -> mconf) (Es : nat -> env).
Hypothesis HM : multi n z w cf.
Hypothesis HX : forall i, (i < n)%nat -> exact_solver (m_base (cf i)) (Es i).
Hypothesis HZ : measures_ok (m_base (cf z)) (Es z).
Notation body := (multiBody gnone n cf Es).
Notation cz := (m_base (cf z)).

Lemma body_grows_m i s p : body i s = Some p -> gp s p.
Proof using. unfold multiBody. destruct (i <? n)%nat; [apply g_multi|discriminate]. Qed.

Record same (i : nat) : Prop := {
  sm_eps : c_eps (m_base (cf i)) = c_eps cz;
  sm_eps0 : 0 <= c_eps (m_base (cf i));
  sm_epsw : c_eps (m_base (cf i)) < w;
  sm_impl : c_implicit (m_base (cf i)) = true;
  sm_sets : c_sets (m_base (cf i)) = false;
  sm_tws : c_tws (m_base (cf i)) = Some w;
  sm_maxT : c_maxTime (m_base (cf i)) = c_maxTime cz;
  sm_maxW : c_maxWindows (m_base (cf i)) = c_maxWindows cz;
  sm_wlen : forall ws, wlen (m_base (cf i)) w ws = wlen cz w ws;
  sm_next : forall ws, next_start (m_base (cf i)) w ws = next_start cz w ws;
  sm_winok : forall k, winok cz k -> winok (m_base (cf i)) k;
  sm_recv : c_recv (m_base (cf i)) = concat (map snd (m_recv (cf i)));
  sm_ix : forall j ix, In (j, ix) (m_send (cf i)) -> Forall (fun k => (k < length (c_send (m_base (cf i))))%nat) ix;
  sm_self : isController (cf i) = (i =? z)%nat;
  sm_ctl : m_controller (cf i) = z;
  sm_on : forall s s' : st, s_time s = s_time s' -> s_windows s = s_windows s' -> isCouplingOngoing (m_base (cf i)) s = isCouplingOngoing cz s'
}.
Lemma same_all i : (i < n)%nat -> same i.
Proof using HM.
  intros Hi. destruct (mu_common _ _ _ _ HM i Hi) as (A1 & A2 & A3 & A4 & A5 & A6). pose proof (mu_eps _ _ _ _ HM) as Ee.
  destruct (mu_self _ _ _ _ HM i Hi) as (B1 & B2). destruct (mu_recv _ _ _ _ HM i Hi) as (_ & _ & R). destruct (mu_send _ _ _ _ HM i Hi) as (_ & S).
  assert (W : forall ws, wlen (m_base (cf i)) w ws = wlen cz w ws) by (intros ws; unfold wlen; rewrite A5; reflexivity).
  constructor; try assumption; try lia.
  - intros ws. unfold next_start. rewrite W, A1. reflexivity.
  - intros k. unfold winok. rewrite A6. auto.
  - intros j ix H. apply (S j ix H).
  - unfold isController. rewrite B1, B2. reflexivity.
  - intros s s' T Wn. unfold isCouplingOngoing. rewrite T, Wn, A1, A6. reflexivity.
Qed.

Definition agrees (s : nat -> st) : Prop := forall i j, (i < n)%nat -> (j < n)%nat -> multi_agree_fully i j (s i) (s j).
Definition rets (s : nat -> st) : net (M:=msg V) (S:=st) := ranks n (fun i => PRet (s i)).
Inductive KM : net (M:=msg V) (S:=st) -> Prop :=
| KM_end s : (forall i, (i < n)%nat -> isCouplingOngoing (m_base (cf i)) (s i) = false) -> agrees s -> KM (rets s)
| KM_round s ws k : winok cz k -> c_eps cz < wlen cz w ws -> agrees s ->
    (forall i, (i < n)%nat -> exists TN, TNok w (m_base (cf i)) ws TN /\ MStart (cf i) w ws k TN (s i)) -> KM (rets s).

(** one window for everybody *)
Lemma window_round s ws k : winok cz k -> c_eps cz < wlen cz w ws -> agrees s ->
  (forall i, (i < n)%nat -> exists TN, TNok w (m_base (cf i)) ws TN /\ MStart (cf i) w ws k TN (s i)) ->
  exists P s' w1, lrun (sstep body) w1 (rets s) (ranks n P) /\ (forall i, (i < n)%nat -> covers w1 i) /\
    reaches (astep body) (ranks n P, emptych n) (rets s', emptych n) /\
    (star n z cf -> reaches (sstep body) (ranks n P) (rets s')) /\ KM (rets s').
Proof.
  intros Wk L Ag H. pose proof (mu_z _ _ _ _ HM) as Hz.
  destruct (choose (fun i (a : st * st * list Z * list Z) => let '(s1, x, TS, TN) := a in
     TNok w (m_base (cf i)) ws TN /\ local body i (s i) s1 /\ body i s1 = Some (lastProc gnone (cf i) (Es i) w ws x) /\ AtLast (cf i) w ws k TS TN x /\
     s_hist x = s_hist (s i) /\ s_sent x = s_sent (s i) /\ s_rcvd x = s_rcvd (s i)) n) as (f & Hf).
  { intros i Hi. destruct (H i Hi) as (TN & T1 & T2). pose proof (same_all i Hi) as Si.
    destruct (to_last_m gnone (cf i) (Es i) w (sm_eps0 i Si) (sm_sets i Si) (HX i Hi) body i ws k TN (s i)) as (s1 & x & TS & A1 & A2 & A3 & A4).
    - apply (sm_winok i Si), Wk.
    - rewrite (sm_eps i Si), (sm_wlen i Si). exact L.
    - intros s0. unfold multiBody. rewrite (proj2 (Nat.ltb_lt i n)) by exact Hi. reflexivity.
    - exact T2.
    - exists (s1, x, TS, TN). auto. }
  { exact (s 0%nat, s 0%nat, [], []). }
  set (s1 := fun i => fst (fst (fst (f i)))). set (x := fun i => snd (fst (fst (f i)))). set (TS := fun i => snd (fst (f i))). set (TN := fun i => snd (f i)).
  assert (Hf' : forall i, (i < n)%nat -> TNok w (m_base (cf i)) ws (TN i) /\ local body i (s i) (s1 i) /\
     body i (s1 i) = Some (lastProc gnone (cf i) (Es i) w ws (x i)) /\ AtLast (cf i) w ws k (TS i) (TN i) (x i) /\
     s_hist (x i) = s_hist (s i) /\ s_sent (x i) = s_sent (s i) /\ s_rcvd (x i) = s_rcvd (s i)).
  { intros i Hi. specialize (Hf i Hi). unfold s1, x, TS, TN. destruct (f i) as (((a, b), c), d). exact Hf. }
  clear Hf. clearbody s1 x TS TN. clear f.
  set (e := ws + wlen cz w ws).
  set (W0 := fun i => s_send (x i)).
  assert (Sh0 : forall i, (i < n)%nat -> sshape (length (c_send (m_base (cf i)))) (ws :: TS i ++ [e]) (W0 i) /\ spaced (c_eps cz) (ws :: TS i ++ [e])).
  { intros i Hi. destruct (Hf' i Hi) as (_ & _ & _ & A & _). pose proof (al_send _ _ _ _ _ _ _ A) as B1. pose proof (al_spaced _ _ _ _ _ _ _ A) as B2.
    rewrite (sm_wlen i (same_all i Hi)) in B1, B2. rewrite (sm_eps i (same_all i Hi)) in B2. split; [exact B1|exact B2]. }
  assert (Ar : forall W i, (forall j, (j < n)%nat -> sshape (length (c_send (m_base (cf j)))) (ws :: TS j ++ [e]) (W j)) -> (i < n)%nat ->
     arrives gnone (cf i) always (fun _ => True) (inc cf always W i) (vin gnone cf W i)).
  { intros W i SW Hi. apply (arrives_of gnone n z w cf HM); [exact Hi|apply (sm_eps i (same_all i Hi))|].
    intros j Hj. exists (ws :: TS j ++ [e]). split; [exact I|]. split; [discriminate|]. split; [apply Sh0, Hj|apply SW, Hj]. }
  (* the controller *)
  pose proof (same_all z Hz) as Sz. destruct (Hf' z Hz) as (Tz & _ & _ & Az & Lz).
  destruct (controller_does gnone vzero (cf z) (Es z) w (sm_eps0 z Sz) (sm_epsw z Sz) (sm_impl z Sz) (sm_recv z Sz) (sm_ix z Sz)
     ws k (TS z) (TN z) (x z) (inc cf always W0 z) (vin gnone cf W0 z) HZ L) as (cv & U & s'z & Dz & SU & Oz & Sez & Rez).
  { rewrite (sm_self z Sz). apply Nat.eqb_refl. } { exact Az. } { exact Tz. } { apply (Ar W0 z); [intros j Hj; apply Sh0, Hj|exact Hz]. }
  set (W := fun i => if (i =? z)%nat then U else W0 i).
  assert (SW : forall j, (j < n)%nat -> sshape (length (c_send (m_base (cf j)))) (ws :: TS j ++ [e]) (W j)).
  { intros j Hj. unfold W. destruct (Nat.eqb_spec j z) as [->|]; [exact SU|apply Sh0, Hj]. }
  assert (WW : forall j, j <> z -> W0 j = W j) by (intros j Nj; unfold W; destruct (Nat.eqb_spec j z); [congruence|reflexivity]).
  assert (Wz : W z = U) by (unfold W; rewrite Nat.eqb_refl; reflexivity).
  destruct (Rx_ext gnone n z w cf HM always W0 W z Hz WW) as (Xz & Lgz). rewrite Lgz in Rez.
  (* the others *)
  destruct (choose (fun i (s' : st) => i <> z -> 
      does (lastProc gnone (cf i) (Es i) w ws (x i)) (Sx cf always W i ++ map (Got z) [MBool cv] ++ Rx cf always W i) s' /\
      Outcome (cf i) w ws k cv (s_hist (x i)) s' /\ s_sent s' = s_sent (x i) ++ sendLog gnone always (cf i) (W i) (m_send (cf i)) /\
      s_rcvd s' = s_rcvd (x i) ++ recvLog always (vin gnone cf W i) (m_recv (cf i))) n) as (s'o & Ho).
  { intros i Hi. destruct (Nat.eq_dec i z) as [->|Ni]; [exists s'z; congruence|].
    pose proof (same_all i Hi) as Si. destruct (Hf' i Hi) as (Ti & _ & _ & Ai & Li).
    destruct (other_does gnone vzero (cf i) (Es i) w (sm_eps0 i Si) (sm_epsw i Si) (sm_impl i Si) (sm_recv i Si) (sm_ix i Si)
      ws k (TS i) (TN i) (x i) (inc cf always W i) (vin gnone cf W i) cv) as (s' & D1 & D2 & D3 & D4).
    - rewrite (sm_eps i Si), (sm_wlen i Si). exact L.
    - rewrite (sm_self i Si). destruct (Nat.eqb_spec i z); [congruence|reflexivity].
    - exact Ai. - exact Ti. - apply (Ar W i SW Hi).
    - exists s'. intros _. rewrite (sm_ctl i Si) in D1. change (s_send (x i)) with (W0 i) in D1, D3. rewrite (WW i Ni) in D1, D3. auto. }
  { exact s'z. }
  set (s' := fun i => if (i =? z)%nat then s'z else s'o i).
  assert (Hall : forall i, (i < n)%nat -> Outcome (cf i) w ws k cv (s_hist (x i)) (s' i) /\
     s_sent (s' i) = s_sent (x i) ++ sendLog gnone always (cf i) (W i) (m_send (cf i)) /\
     s_rcvd (s' i) = s_rcvd (x i) ++ recvLog always (vin gnone cf W i) (m_recv (cf i))).
  { intros i Hi. unfold s'. destruct (Nat.eqb_spec i z) as [->|Ni]; [rewrite Wz; auto|]. apply Ho; assumption. }
  set (P := fun i => lastProc gnone (cf i) (Es i) w ws (x i)).
  assert (Do : forall i, (i < n)%nat -> i <> z -> does (P i) (Sx cf always W i ++ map (Got z) [MBool cv] ++ Rx cf always W i) (s' i)).
  { intros i Hi Ni. unfold s'. destruct (Nat.eqb_spec i z); [congruence|]. apply Ho; assumption. }
  assert (Dz' : does (P z) (Rx cf always W z ++ Bx z cf [MBool cv] ++ Sx cf always W z) (s' z)).
  { unfold s'. rewrite Nat.eqb_refl. unfold P. rewrite <- Xz. unfold Sx. rewrite Wz. exact Dz. }
  destruct (enter_all body n s s1 P) as (w1 & R1 & C1).
  { intros i Hi. destruct (Hf' i Hi) as (_ & A & B & _). auto. }
  exists P, s', w1. split; [exact R1|]. split; [exact C1|].
  split; [apply (round_buffered n z w cf HM always W [MBool cv] P s' Do Dz' body)|].
  split; [apply (round_blocking n z w cf HM always W [MBool cv] P s' Do Dz' body)|].
  (* the next window *)
  assert (Hist : forall i, (i < n)%nat -> isCouplingOngoing (m_base (cf i)) (s' i) = isCouplingOngoing cz (s' z) /\ s_hist (s' i) = s_hist (s i) ++ 
     [Hist (if cv then next_start cz w ws else ws) (if cv then k + 1 else k) cv (isCouplingOngoing cz (s' z))]).
  { intros i Hi. destruct (Hall i Hi) as ((T & N & Hh & _) & _). destruct (Hall z Hz) as ((T' & N' & _) & _). pose proof (same_all i Hi) as Si.
    rewrite (sm_maxT i Si), (sm_next i Si) in T. assert (On : isCouplingOngoing (m_base (cf i)) (s' i) = isCouplingOngoing cz (s' z)) by (apply (sm_on i Si); congruence).
    split; [exact On|]. rewrite Hh, On, (sm_next i Si). destruct (Hf' i Hi) as (_ & _ & _ & _ & -> & _). reflexivity. }
  assert (Ag' : agrees s').
  { intros i j Hi Hj. destruct (Hist i Hi) as (_ & A). destruct (Hist j Hj) as (_ & B). destruct (Ag i j Hi Hj) as (C & D). split; [rewrite A, B, C; reflexivity|].
    destruct (Hall i Hi) as (_ & E1 & _). destruct (Hall j Hj) as (_ & _ & E2). rewrite E1, E2, !blocks_app.
    destruct (Hf' i Hi) as (_ & _ & _ & _ & _ & -> & _). destruct (Hf' j Hj) as (_ & _ & _ & _ & _ & _ & ->).
    rewrite D. f_equal. apply (blocks_agree gnone n z w cf HM always W i j Hi Hj). }
  destruct cv.
  - destruct (isCouplingOngoing cz (s' z)) eqn:Oz'.
    + destruct (Hall z Hz) as ((T & N & _ & _) & _).
      destruct (next_ongoing cz w ws (k + 1) (s' z) (sm_eps0 z Sz) (sm_epsw z Sz) L T N Oz') as (B1 & B2 & B3 & B4).
      apply (KM_round s' (ws + w) (k + 1) B3 B4 Ag'). intros i Hi. destruct (Hall i Hi) as ((_ & _ & _ & M) & _).
      exists [ws + w]. split; [left; reflexivity|]. apply M. apply Hist, Hi.
    + apply KM_end; [|exact Ag']. intros i Hi. apply Hist, Hi.
  - apply (KM_round s' ws k Wk L Ag'). intros i Hi. destruct (Hall i Hi) as ((_ & _ & _ & M) & _).
    exists [ws; ws + wlen (m_base (cf i)) w ws]. split; [right; reflexivity|exact M].
Qed.

Lemma rets_ok s i p : nth_error (rets s) i = Some p -> (i < n)%nat /\ p = PRet (s i).
Proof using.
  intros H. assert (Hi : (i < n)%nat) by (apply nth_error_lt in H; unfold rets in H; rewrite ranks_len in H; exact H).
  unfold rets in H. rewrite ranks_nth in H by exact Hi. injection H as <-. auto.
Qed.
Lemma rets_fin s : (forall i, (i < n)%nat -> isCouplingOngoing (m_base (cf i)) (s i) = false) -> all_finished body (rets s).
Proof using.
  intros H i p Hp. apply rets_ok in Hp as (Hi & ->). exists (s i). split; [reflexivity|]. unfold multiBody, multiLoop.
  rewrite (proj2 (Nat.ltb_lt i n)) by exact Hi. rewrite (H i Hi). reflexivity.
Qed.

(** initialize() *)
Lemma multi_start : exists s, reaches (astep body) (multiNet gnone vzero n cf Es, emptych n) (rets s, emptych n) /\
  (star n z cf -> reaches (sstep body) (multiNet gnone vzero n cf Es) (rets s)) /\ KM (rets s).
Proof.
  pose proof (mu_z _ _ _ _ HM) as Hz.
  destruct (choose (fun i (x : st) => let c := m_base (cf i) in multiStart gnone vzero (Es i) (cf i) = mu_initial gnone vzero (cf i) x /\
    s_time x = TH (c_maxTime c) 0 0 /\ s_windows x = 1 /\ s_tws x = c_tws c /\ s_next x = c_tws c /\
    (a_init (s_req x) = true -> a_init (s_ful x) = true) /\
    sshape (length (c_send c)) [0] (s_send x) /\ rshape (c_recv c) [0] [0] (s_recv x) /\ s_recvd x = false /\
    s_hist x = [] /\ s_sent x = [] /\ s_rcvd x = []) n) as (x & Hx).
  { intros i Hi. destruct (start_init_g gnone vzero (Es i) (mu_initial gnone vzero (cf i)) (m_base (cf i)) (sm_eps0 i (same_all i Hi)))
      as (x & A0 & A1 & A2 & A3 & A4 & A5 & A6 & A7 & A8 & A9 & A10 & A11 & A12 & A13). exists x. cbv zeta. repeat (split; [assumption|]). assumption. }
  { exact (st0 cz). }
  set (Gi := existsb d_init). set (W := fun i => s_send (x i)).
  assert (Rec : forall i (s0 : st), (i < n)%nat -> s_recv s0 = s_recv (x i) -> s_time s0 = s_time (x i) -> exists r,
     does (eachFrom (fun off p => if receivesInitializedDataFrom p then recvFrom gnone (cf i) off p else zeroFrom gnone vzero (cf i) off p) 0 (m_recv (cf i)) s0)
       (Rx cf Gi W i) (set_s_rcvd (s_rcvd s0 ++ recvLog Gi (vin gnone cf W i) (m_recv (cf i))) (set_s_recv r s0)) /\
     Forall2 (fun d (y : wv) => map fst y = [0]) (c_recv (m_base (cf i))) r).
  { intros i s0 Hi Hr Ht. pose proof (same_all i Hi) as Si. destruct (Hx i Hi) as (_ & H1 & _ & _ & _ & _ & H6 & H7 & _).
    rewrite (sm_recv i Si) in *.
    assert (Ar : arrives gnone (cf i) Gi (fun TS => TS = [0]) (inc cf Gi W i) (vin gnone cf W i)).
    { apply (arrives_of gnone n z w cf HM); [exact Hi|apply (sm_eps i Si)|]. intros j Hj. exists [0]. split; [reflexivity|]. split; [discriminate|]. split; [exact I|]. apply (Hx j Hj). }
    destruct (eachFrom_does gnone vzero Gi (cf i) 0 (fun d (y : wv) => map fst y = [0]) (fun d (y : wv) => map fst y = [0]) (inc cf Gi W i) (vin gnone cf W i) (m_recv (cf i)))
      with (dn := @nil wv) (rest := s_recv s0) (s := s0) as (r & A & B).
    - intros p rs Hp HI Hg. destruct (Ar p Hp Hg) as (sx & TS & I1 & I2 & -> & I3 & I4 & I5).
      destruct (recvAll_does gnone (fst p) (c_eps (m_base (cf i))) 0 (snd p) [0] [0] [0]) with (ws := sx) (wr := rs) as (r & R1 & R2 & R3); auto.
      { apply (sm_eps0 i Si). }
      { apply (settable_last _ [] 0 0); [apply (sm_eps0 i Si)|intros u []|]. cbn. apply (sm_eps0 i Si). }
      { eapply Forall2_imp; [|exact HI]. intros d y Q _. exact Q. }
      exists r. rewrite I1, I2. split; [exact R1|]. split; [exact R2|]. eapply Forall2_imp; [|exact R3].
      intros d y Q. cbv beta in Q. destruct (d_sub d); exact Q.
    - intros p rs Hp HI Hg. destruct (zeroAll_ok gnone vzero (c_eps (m_base (cf i))) (sm_eps0 i Si) (snd p) rs [0]) as (r & R1 & R2).
      { eapply Forall2_imp; [|exact HI]. intros d y Q. cbv beta. destruct (d_sub d); exact Q. } { right; reflexivity. }
      exists r. split; [exact R1|]. eapply Forall2_imp; [|exact R2]. intros d y Q. cbv beta in Q. destruct (d_sub d); exact Q.
    - reflexivity.
    - rewrite Hr. eapply Forall2_imp; [|exact H7]. intros d y Q. cbv beta in Q. destruct (d_sub d); exact Q.
    - rewrite Ht, H1. reflexivity.
    - exists r. split; [exact A|exact B]. }
  assert (Sen : forall i (s0 : st), (i < n)%nat -> s_send s0 = s_send (x i) ->
     does (eachTo (fun p s1 => if sendsInitializedDataTo (cf i) p then sendTo gnone (cf i) p s1 else PRet s1) (m_send (cf i)) s0)
       (Sx cf Gi W i) (set_s_sent (s_sent s0 ++ sendLog gnone Gi (cf i) (W i) (m_send (cf i))) s0)).
  { intros i s0 Hi Hs. pose proof (eachTo_does gnone Gi (cf i) (m_send (cf i)) s0) as D. rewrite Hs in D. apply D.
    apply (send_ok (cf i) (sm_ix i (same_all i Hi)) (length (c_send (m_base (cf i)))) [0]); [reflexivity|discriminate|apply (Hx i Hi)]. }
  set (P := fun i => multiStart gnone vzero (Es i) (cf i)).
  destruct (choose (fun i (s' : st) => 
      does (P i) (if (i =? z)%nat then Rx cf Gi W i ++ Sx cf Gi W i else Sx cf Gi W i ++ Rx cf Gi W i) s' /\
      s_hist s' = [] /\ s_sent s' = sendLog gnone Gi (cf i) (W i) (m_send (cf i)) /\ s_rcvd s' = recvLog Gi (vin gnone cf W i) (m_recv (cf i)) /\
      MStart (cf i) w 0 1 [0] s') n) as (s' & Hs').
  { intros i Hi. pose proof (same_all i Hi) as Si. destruct (Hx i Hi) as (H0 & H1 & H2 & H3 & H4 & H5 & H6 & H7 & H8 & H9 & H10 & H11).
    assert (As : equals (c_eps (m_base (cf i))) (th_time (s_time (x i))) (th_start (s_time (x i))) = true).
    { rewrite H1. unfold equals. cbn. apply Z.leb_le. pose proof (sm_eps0 i Si). lia. }
    unfold P. rewrite H0. unfold mu_initial. rewrite As, (sm_self i Si). cbn [assert_ bind]. cbv zeta.
    destruct (Nat.eqb_spec i z) as [E|Ne].
    - destruct (Rec i (x i) Hi eq_refl eq_refl) as (r & D1 & F1).
      set (y := set_s_recvd true (set_s_rcvd (s_rcvd (x i) ++ recvLog Gi (vin gnone cf W i) (m_recv (cf i))) (set_s_recv r (x i)))).
      pose proof (Sen i y Hi eq_refl) as D2. eexists. split; [|split; [|split; [|split]]].
      + eapply does_app; [|exact D2]. eapply does_app'; [exact D1| |rewrite app_nil_r; reflexivity].
        unfold notifyDataHasBeenReceived. cbn [s_recvd set_s_rcvd set_s_recv]. rewrite H8. cbn [negb assert_ bind does]. split; reflexivity.
      + exact H9.
      + cbn. rewrite H10. reflexivity.
      + cbn. rewrite H11. reflexivity.
      + constructor; try assumption; try (cbn; congruence).
        * cbn. rewrite H3. apply (sm_tws i Si).
        * cbn. rewrite H4. apply (sm_tws i Si).
        * eapply Forall2_imp; [|exact F1]. intros d q Q _. exact Q.
    - pose proof (Sen i (x i) Hi eq_refl) as D2.
      set (y := set_s_sent (s_sent (x i) ++ sendLog gnone Gi (cf i) (W i) (m_send (cf i))) (x i)) in *.
      destruct (Rec i y Hi eq_refl eq_refl) as (r & D1 & F1). eexists. split; [|split; [|split; [|split]]].
      + eapply does_app; [exact D2|]. eapply does_app'; [exact D1| |rewrite app_nil_r; reflexivity].
        unfold notifyDataHasBeenReceived. cbn [s_recvd set_s_rcvd set_s_recv]. change (s_recvd y) with (s_recvd (x i)). rewrite H8. cbn [negb assert_ bind does]. split; reflexivity.
      + exact H9.
      + cbn. rewrite H10. reflexivity.
      + cbn. rewrite H11. reflexivity.
      + constructor; try assumption; try (cbn; congruence).
        * cbn. rewrite H3. apply (sm_tws i Si).
        * cbn. rewrite H4. apply (sm_tws i Si).
        * eapply Forall2_imp; [|exact F1]. intros d q Q _. exact Q. }
  { exact (st0 cz). }
  assert (Bnil : Bx z cf (V:=V) [] = []) by (unfold Bx; apply flat_nil; reflexivity).
  assert (Do : forall i, (i < n)%nat -> i <> z -> does (P i) (Sx cf Gi W i ++ map (Got z) [] ++ Rx cf Gi W i) (s' i)).
  { intros i Hi Ni. destruct (Hs' i Hi) as (D & _). destruct (Nat.eqb_spec i z); [congruence|exact D]. }
  assert (Dz : does (P z) (Rx cf Gi W z ++ Bx z cf [] ++ Sx cf Gi W z) (s' z)).
  { rewrite Bnil. destruct (Hs' z Hz) as (D & _). rewrite Nat.eqb_refl in D. exact D. }
  exists s'. split; [apply (round_buffered n z w cf HM Gi W [] P s' Do Dz body)|].
  split; [apply (round_blocking n z w cf HM Gi W [] P s' Do Dz body)|].
  apply (KM_round s' 0 1).
  - unfold winok. destruct (c_maxWindows cz) as [N|] eqn:HN; [|exact I]. apply (mu_N _ _ _ _ HM N HN).
  - pose proof (mu_eps _ _ _ _ HM). unfold wlen. destruct (c_maxTime cz) as [T|] eqn:HT; [|lia]. pose proof (mu_T _ _ _ _ HM T HT). lia.
  - intros i j Hi Hj. destruct (Hs' i Hi) as (_ & A1 & A2 & A3 & _). destruct (Hs' j Hj) as (_ & B1 & B2 & B3 & _).
    split; [congruence|]. rewrite A2, B3. apply (blocks_agree gnone n z w cf HM Gi W i j Hi Hj).
  - intros i Hi. exists [0]. split; [left; reflexivity|]. apply (Hs' i Hi).
Qed.

(** buffered sends *)
Definition KA (c : net (M:=msg V) (S:=st)) : Prop := length c = n /\ exists s, reaches (astep body) (c, emptych n) (rets s, emptych n) /\ KM (rets s).
Lemma KM_KA s : KM (rets s) -> KA (rets s).
Proof using. intros H. split; [apply ranks_len|]. exists s. split; [exists []; constructor|exact H]. Qed.

Lemma HKA c : KA c -> all_finished body c \/
  exists v c', lrun (astep body) v (c, emptych (length c)) (c', emptych (length c')) /\ KA c' /\
    forall i p, nth_error c i = Some p -> ~ finished body i p -> In i v.
Proof.
  intros (Lc & s & (v1 & R1) & K). rewrite Lc.
  inversion K as [s0 En Ag Eq|s0 ws k Wk L Ag H Eq].
  - right. exists v1, (rets s). unfold rets at 2. rewrite ranks_len. split; [exact R1|]. split; [apply KM_KA, K|].
    intros i p Hp Nf. destruct (a_same_or body _ _ _ i R1) as [Q|Q]; [|exact Q]. cbn [fst] in Q. exfalso. apply Nf. apply (rets_fin s0 En). rewrite Eq, Q. exact Hp.
  - right. destruct (window_round s0 ws k Wk L Ag H) as (P & s' & w1 & A1 & A2 & (v3 & A3) & _ & A5). rewrite Eq in A1.
    destruct (srun_async body _ _ _ A1) as (v2 & A6 & A7). apply wrun_arun in A6. assert (Lr : length (rets s) = n) by apply ranks_len. rewrite !Lr in A6.
    exists (v1 ++ v2 ++ v3), (rets s'). unfold rets at 2. rewrite ranks_len. split; [eapply lrun_app; [exact R1|]; eapply lrun_app; [exact A6|exact A3]|].
    split; [apply KM_KA, A5|]. intros i p Hp _. apply in_app_iff. right. apply in_app_iff. left. apply A7, A2. apply nth_error_lt in Hp. lia.
Qed.

Lemma KM_end_agree s : KM (rets s) -> agrees s.
Proof using.
  intros K. inversion K as [s0 En Ag Eq|s0 ws k Wk L Ag H Eq].
  - intros i j Hi Hj. assert (Q : forall a, (a < n)%nat -> s0 a = s a).
    { intros a Ha. assert (X : nth_error (rets s0) a = nth_error (rets s) a) by (rewrite Eq; reflexivity). unfold rets in X. rewrite !ranks_nth in X by exact Ha. congruence. }
    rewrite <- (Q i Hi), <- (Q j Hj). apply Ag; assumption.
  - intros i j Hi Hj. assert (Q : forall a, (a < n)%nat -> s0 a = s a).
    { intros a Ha. assert (X : nth_error (rets s0) a = nth_error (rets s) a) by (rewrite Eq; reflexivity). unfold rets in X. rewrite !ranks_nth in X by exact Ha. congruence. }
    rewrite <- (Q i Hi), <- (Q j Hj). apply Ag; assumption.
Qed.

Theorem multi_buffered : multi_correct_buffered gnone vzero n cf Es.
Proof.
  destruct multi_start as (s0 & R0 & _ & K0).
  assert (S0 : KA (multiNet gnone vzero n cf Es)) by (split; [apply ranks_len|]; exists s0; auto).
  assert (Ln : length (multiNet gnone vzero n cf Es) = n) by apply ranks_len.
  unfold multi_correct_buffered. cbv zeta. intros x R0'.
  assert (R : reaches (astep body) (multiNet gnone vzero n cf Es, emptych (length (multiNet gnone vzero n cf Es))) x) by (rewrite Ln; exact R0'). clear R0'.
  assert (C : exists v s, lrun (astep body) v x (rets s, emptych n) /\ KM (rets s)).
  { destruct (buf_completes body KA HKA _ _ S0 R) as (k1 & (v1 & R1) & (L1 & s & (v2 & R2) & K)). rewrite L1 in R1.
    exists (v1 ++ v2), s. split; [eapply lrun_app; eassumption|exact K]. }
  destruct C as (v & s & Rv & K). pose proof (KM_end_agree s K) as Ag.
  assert (Gr : forall i si, nth_error (fst x) i = Some (PRet si) -> (i < n)%nat /\ grows si (s i)).
  { intros i si Hi. destruct (ggp_arun body body_grows_m _ _ _ i _ si Rv Hi (gp_self si)) as (p' & E1 & G1). cbn [fst] in E1.
    apply rets_ok in E1 as (Hn & ->). split; [exact Hn|]. apply G1. reflexivity. }
  constructor.
  - eapply (buf_no_error body KA HKA); eassumption.
  - destruct (buf_progress body KA HKA _ _ S0 R) as [(F & _)|Q]; [left; exact F|right; exact Q].
  - intros i j si sj Nij Hi Hj. destruct (Gr i si Hi) as (Li & Gi). destruct (Gr j sj Hj) as (Lj & Gj).
    eapply agree_of; [exact Gi|exact Gj|apply Ag; assumption].
  - intros F i j si sj Nij Hi Hj. assert (Q : fst x = rets s).
    { destruct (buf_progress body KA HKA _ _ S0 R) as [(_ & Em & _)|(l & x' & St)].
      - destruct v as [|l v]; inversion Rv as [|l0 w0 x1 x2 x3 Ra Rb]; subst; [reflexivity|].
        exfalso. destruct x as (c, ch). cbn [fst snd] in *. rewrite Em in Ra. eapply finished_no_astep; eassumption.
      - exfalso. destruct x as (c, ch). cbn [fst] in *. inversion St as [a b m ka c0 q N Lb Ha|a b m ka c0 q r N Lb Ha Hq|a u p0 c0 q Ha Hb]; subst;
        destruct (F _ _ Ha) as (u' & E1 & E2); congruence. }
    rewrite Q in Hi, Hj. apply rets_ok in Hi as (Li & Ei). apply rets_ok in Hj as (Lj & Ej). injection Ei as ->. injection Ej as ->. apply Ag; assumption.
Qed.

(** blocking sends, all data from or to the controller *)
Definition KS (c : net (M:=msg V) (S:=st)) : Prop := length c = n /\ exists s, reaches (sstep body) c (rets s) /\ KM (rets s).
Hypothesis HS : star n z cf.
Lemma HKS c : KS c -> all_finished body c \/
  exists v c', lrun (sstep body) v c c' /\ KS c' /\ forall i p, nth_error c i = Some p -> ~ finished body i p -> covers v i.
Proof.
  intros (Lc & s & (v1 & R1) & K).
  inversion K as [s0 En Ag Eq|s0 ws k Wk L Ag H Eq].
  - right. exists v1, (rets s). split; [exact R1|]. split; [split; [apply ranks_len|]; exists s; split; [exists []; constructor|exact K]|].
    intros i p Hp Nf. destruct (s_same_or body _ _ _ i R1) as [Q|Q]; [|exact Q]. exfalso. apply Nf. apply (rets_fin s0 En). rewrite Eq, Q. exact Hp.
  - right. destruct (window_round s0 ws k Wk L Ag H) as (P & s' & w1 & A1 & A2 & _ & A4 & A5). rewrite Eq in A1. destruct (A4 HS) as (w2 & A6).
    exists (v1 ++ w1 ++ w2), (rets s'). split; [eapply lrun_app; [exact R1|]; eapply lrun_app; [exact A1|exact A6]|].
    split; [split; [apply ranks_len|]; exists s'; split; [exists []; constructor|exact A5]|].
    intros i p Hp _. apply covers_app_r, covers_app_l, A2. apply nth_error_lt in Hp. lia.
Qed.
Theorem multi_blocking : multi_correct_blocking gnone vzero n cf Es.
Proof.
  destruct multi_start as (s0 & _ & R0 & K0).
  assert (S0 : KS (multiNet gnone vzero n cf Es)) by (split; [apply ranks_len|]; exists s0; auto).
  unfold multi_correct_blocking. cbv zeta. intros c R.
  assert (C : exists v s, lrun (sstep body) v c (rets s) /\ KM (rets s)).
  { destruct (sync_completes body KS HKS _ _ S0 R) as (k1 & (v1 & R1) & (L1 & s & (v2 & R2) & K)).
    exists (v1 ++ v2), s. split; [eapply lrun_app; eassumption|exact K]. }
  destruct C as (v & s & Rv & K). pose proof (KM_end_agree s K) as Ag.
  assert (Gr : forall i si, nth_error c i = Some (PRet si) -> (i < n)%nat /\ grows si (s i)).
  { intros i si Hi. destruct (ggp_srun body body_grows_m _ _ _ i _ si Rv Hi (gp_self si)) as (p' & E1 & G1).
    apply rets_ok in E1 as (Hn & ->). split; [exact Hn|]. apply G1. reflexivity. }
  constructor.
  - eapply (sync_no_error body KS HKS); eassumption.
  - eapply (sync_progress body KS HKS); eassumption.
  - intros i j si sj Nij Hi Hj. destruct (Gr i si Hi) as (Li & Gi). destruct (Gr j sj Hj) as (Lj & Gj).
    eapply agree_of; [exact Gi|exact Gj|apply Ag; assumption].
  - intros F i j si sj Nij Hi Hj. assert (Q : c = rets s).
    { destruct v as [|l v]; inversion Rv; subst; [reflexivity|]. exfalso. eapply finished_no_sstep; eassumption. }
    rewrite Q in Hi, Hj. apply rets_ok in Hi as (Li & Ei). apply rets_ok in Hj as (Lj & Ej). injection Ei as ->. injection Ej as ->. apply Ag; assumption.
Qed.
End Run.
