From Coq Require Import ZArith Bool List Lia Arith Sorted.
From Verif Require Import M_Net M_Time M_Wave M_Cpl M_Comp S_Prog S_Cpl S_Comp P_Prog P_Cpl P_CplRun P_Net P_Comp P_Comp2 M_Fleet S_Fleet P_Sched P_FleetPlan P_Fleet.
Import ListNotations.
Open Scope Z_scope.

Section Run.
Context {V : Type}.
Variables (gnone vzero : V).
Notation st := (st (V:=V)).
Notation env := (env (V:=V)).
Notation prog := (proc (msg V)).
Notation cst := (cst (V:=V)).
Notation T1 := (fun _ => True).
Variables (n : nat) (eps w : Z) (T M : option Z) (cs : list coupling).
Hypothesis WC : well_configured n eps w T M cs.
Variable tt : timetable.
Hypothesis K : kept tt cs.
Variable Es : nat -> nat -> env.
Variable step : nat -> cst -> Z.
Hypothesis Hstep : forall i s, exact_step eps (composition cs i) s (step i s).
Notation lim := (lim w T).
Notation left_ := (left_ eps w T).
Notation after := (after eps w T).

Let Heps : 0 <= eps < w. Proof. exact (wc_eps _ _ _ _ _ _ WC). Qed.
(** window [b] is computed *)
Definition on (b : Z) : bool := (match M with None => true | Some m => b + 1 <=? m end) && (match T with None => true | Some t => eps <? t - b * w end).
Lemma on_left b : on b = true -> left_ b.
Proof. unfold on, P_Comp2.left_. intros H. apply andb_true_iff in H as [_ H]. destruct T; [apply Z.ltb_lt, H|exact I]. Qed.
Definition count_ (m : nat) (b : Z) : Prop := (forall j, b <= j < b + Z.of_nat m -> on j = true) /\ on (b + Z.of_nat m) = false.
Lemma count_first m b : on b = true -> count_ m b -> exists m', m = S m' /\ count_ m' (b + 1) /\ more m' = on (b + 1).
Proof.
  intros H [A B]. destruct m as [|m]; [rewrite Z.add_0_r in B; congruence|]. exists m. split; [reflexivity|]. split.
  - split; [intros j Hj; apply A; lia|]. rewrite <- B. f_equal. lia.
  - destruct m as [|m]; cbn [more]; symmetry; [rewrite <- B; f_equal; lia|apply A; lia].
Qed.
Lemma on_0 : on 0 = true.
Proof.
  unfold on. destruct WC. apply andb_true_iff. split.
  - destruct M as [m|]; [|reflexivity]. specialize (wc_M m eq_refl). apply Z.leb_le. lia.
  - destruct T as [t|]; [|reflexivity]. specialize (wc_T t eq_refl). apply Z.ltb_lt. lia.
Qed.
Lemma on_end : exists k, on (Z.of_nat k) = false.
Proof.
  unfold on. destruct (wc_limited _ _ _ _ _ _ WC) as [H|H].
  - destruct T as [t|]; [|congruence]. exists (Z.to_nat t). apply andb_false_iff. right. apply Z.ltb_ge. pose proof (wc_T _ _ _ _ _ _ WC t eq_refl).
    rewrite Z2Nat.id by lia. pose proof Heps. nia.
  - destruct M as [m|]; [|congruence]. exists (Z.to_nat m). apply andb_false_iff. left. apply Z.leb_gt. pose proof (wc_M _ _ _ _ _ _ WC m eq_refl). lia.
Qed.
Lemma number : exists N, (0 < N)%nat /\ count_ N 0.
Proof.
  destruct on_end as (k & Hk).
  assert (G : forall k, (exists N, (0 < N)%nat /\ count_ N 0) \/ forall j, 0 <= j < Z.of_nat k -> on j = true).
  { clear k Hk. induction k as [|k IH]; [right; intros; lia|]. destruct IH as [IH|IH]; [left; exact IH|]. destruct (on (Z.of_nat k)) eqn:E.
    - right. intros j Hj. destruct (Z.eq_dec j (Z.of_nat k)) as [->|]; [exact E|apply IH; lia].
    - left. exists k. split; [|split; [exact IH|exact E]]. destruct k; [pose proof on_0; cbn in E; congruence|lia]. }
  destruct (G (S k)) as [H|H]; [exact H|]. rewrite H in Hk by lia. discriminate.
Qed.

Variable i : nat.
Let l := mine cs i.
Definition g (p : nat * coupling) : scheme := side i (snd p).
Lemma comp_eq : composition cs i = CConf (map g l) None. Proof. reflexivity. Qed.
Lemma side_conf p : In p l -> let c := snd (g p) in c_implicit c = false /\ c_eps c = eps /\ c_maxTime c = T /\ c_maxWindows c = M /\ fixed (fst (g p)) c w /\ c_sets c = false /\ c_recvs c = false.
Proof.
  intros Hp. pose proof (mine_coupling cs i p Hp) as Hx. destruct (wc_couplings _ _ _ _ _ _ WC _ Hx) as (_ & _ & _ & _ & _ & _ & _ & _ & _ & H).
  unfold g, side. cbn [fst snd]. destruct (H (if (cp_first (snd p) =? i)%nat then cp_A (snd p) else cp_B (snd p))) as (A & B & C & D & F); [destruct (_ =? _)%nat; auto|].
  destruct (fixed_sets _ _ _ F). auto 10.
Qed.
Lemma early_shape E b p s : In p l -> shaped i (ex1 gnone (fst (g p)) E (snd (g p)) s) (earlyBlock tt i b p) T1.
Proof.
  intros Hp. destruct (side_conf p Hp) as (Im & _ & _ & _ & _ & Se & _). pose proof (mine_coupling cs i p Hp) as Hx. apply mine_in in Hp as [_ Hi].
  destruct (wc_couplings _ _ _ _ _ _ WC _ Hx) as (_ & _ & Ne & PA & PB & FA & FB & RB & RA & _).
  set (t := if waits i (snd p) then tt_answer tt (fst p) + b * tt_period tt else tt_data tt (fst p) + b * tt_period tt). pose proof (sh_ex1 gnone i (fst (g p)) E (snd (g p)) s t Im Se) as H. revert H.
  unfold g, side, earlyBlock, dataBlock, answerBlock, t, waits. cbn [fst snd]. destruct Hi as [<-|<-].
  - rewrite Nat.eqb_refl. destruct (Nat.eqb_spec (cp_second (snd p)) (cp_first (snd p))); [congruence|]. rewrite FA, PA. destruct (cp_kind (snd p)); auto.
  - rewrite Nat.eqb_refl. destruct (Nat.eqb_spec (cp_first (snd p)) (cp_second (snd p))); [congruence|]. rewrite FB, PB, RB. destruct (cp_kind (snd p)); auto.
Qed.
Lemma late_shape E b m p s : In p l -> isCouplingOngoing (snd (g p)) s = m -> shaped i (ex2 gnone (fst (g p)) E (snd (g p)) s) (lateBlock tt i b m p) T1.
Proof.
  intros Hp On. destruct (side_conf p Hp) as (Im & _ & _ & _ & _ & _ & Re). pose proof (mine_coupling cs i p Hp) as Hx. apply mine_in in Hp as [_ Hi].
  destruct (wc_couplings _ _ _ _ _ _ WC _ Hx) as (_ & _ & Ne & PA & PB & FA & FB & RB & RA & _).
  set (t := if waits i (snd p) then tt_data tt (fst p) + (b + 1) * tt_period tt else tt_answer tt (fst p) + b * tt_period tt). pose proof (sh_ex2 gnone i (fst (g p)) E (snd (g p)) s t Im Re) as H. rewrite On in H. revert H.
  unfold g, side, lateBlock, dataBlock, answerBlock, t, waits. cbn [fst snd]. destruct Hi as [<-|<-].
  - rewrite Nat.eqb_refl. destruct (Nat.eqb_spec (cp_second (snd p)) (cp_first (snd p))); [congruence|]. rewrite FA, PA, RA. destruct (cp_kind (snd p)); auto.
  - rewrite Nat.eqb_refl. destruct (Nat.eqb_spec (cp_first (snd p)) (cp_second (snd p))); [congruence|]. rewrite FB, PB, RB. destruct (cp_kind (snd p)); auto.
Qed.
Lemma start_shape E p s : In p l -> shaped i (p_initialize gnone vzero (fst (g p)) E (snd (g p)) s) (startBlock tt i p) T1.
Proof.
  intros Hp. destruct (side_conf p Hp) as (Im & _ & _ & _ & _ & _ & Re). apply sh_init; [|exact Im]. intros s'. pose proof (mine_coupling cs i p Hp) as Hx. apply mine_in in Hp as [_ Hi].
  destruct (wc_couplings _ _ _ _ _ _ WC _ Hx) as (_ & _ & Ne & PA & PB & FA & FB & RB & RA & _).
  pose proof (sh_exI gnone vzero i (fst (g p)) (snd (g p)) s' (tt_initial tt (fst p)) (tt_data tt (fst p) + 0 * tt_period tt) Im Re) as H. revert H.
  unfold g, side, startBlock, initBlock, initA, initB, dataBlock, waits, receivesInitialized. cbn [fst snd]. destruct Hi as [<-|<-].
  - rewrite Nat.eqb_refl. destruct (Nat.eqb_spec (cp_second (snd p)) (cp_first (snd p))); [congruence|]. rewrite FA, PA, RA. fold (sendsInitialized (cp_B (snd p))). destruct (cp_kind (snd p)); rewrite app_nil_r; auto.
  - rewrite Nat.eqb_refl. destruct (Nat.eqb_spec (cp_first (snd p)) (cp_second (snd p))); [congruence|]. rewrite FB, PB, RB. fold (sendsInitialized (cp_A (snd p))). destruct (cp_kind (snd p)); rewrite ?app_nil_r; auto.
Qed.

(** * States *)
Definition at_ (b p : Z) (e : st) : Prop := s_time e = TH T (b * w) p /\ s_windows e = b + 1 /\ sized w e.
Lemma at_kept b p (e e' : st) : s_time e' = s_time e -> s_windows e' = s_windows e -> s_tws e' = s_tws e -> s_next e' = s_next e -> at_ b p e -> at_ b p e'.
Proof. unfold at_, sized. intros -> -> -> ->. auto. Qed.
Lemma at_ongoing b p e x : In x l -> at_ b p e -> on b = true -> 0 <= p < lim b - eps -> isCouplingOngoing (snd (g x)) e = true.
Proof.
  intros Hx (A & B & _) O Hp. destruct (side_conf x Hx) as (_ & Ee & ET & EM & _). unfold isCouplingOngoing, th_reachedEnd, equals. rewrite A, B, Ee, EM. cbn [th_max]. unfold on in O. apply andb_true_iff in O as [O1 O2]. rewrite O1. cbn [andb].
  unfold P_Comp2.lim in Hp. destruct T as [t|]; [|reflexivity]. unfold th_untilTime. cbn [th_start th_prog]. apply negb_true_iff, Z.leb_gt. lia.
Qed.
Lemma at_reached b p e x : In x l -> at_ b p e -> reachedEndOfTimeWindow (snd (g x)) e = (Z.abs (lim b - p) <=? eps).
Proof.
  intros Hx (A & _ & B & _). destruct (side_conf x Hx) as (_ & Ee & _). unfold reachedEndOfTimeWindow, th_reachedEndOfWindow, equals. rewrite B, A, Ee, until_lim. f_equal. f_equal. lia.
Qed.
(** before the second exchange at the end of window [b] *)
Definition mid (b : Z) (e : st) : Prop := s_time e = TH T (b * w) (lim b) /\ s_windows e = b + 2 /\ sized w e /\ s_compl e = false.
Lemma mid_reached b e x : In x l -> mid b e -> reachedEndOfTimeWindow (snd (g x)) e = true.
Proof.
  intros Hx (A & _ & (B & _) & _). destruct (side_conf x Hx) as (_ & Ee & _). unfold reachedEndOfTimeWindow, th_reachedEndOfWindow, equals. rewrite B, A, Ee, until_lim. apply Z.leb_le. lia.
Qed.
Lemma mid_ongoing b (e e' : st) x : In x l -> mid b e -> on b = true -> s_time e' = s_time e -> s_windows e' = s_windows e -> isCouplingOngoing (snd (g x)) e' = on (b + 1).
Proof.
  intros Hx (A & B & _) O E1 E2. destruct (side_conf x Hx) as (_ & Ee & ET & EM & _). unfold isCouplingOngoing, th_reachedEnd, equals. rewrite E1, E2, A, B, Ee, EM. cbn [th_max].
  apply on_left in O. unfold P_Comp2.left_ in O. unfold on. f_equal; [destruct M; [f_equal; lia|reflexivity]|]. unfold P_Comp2.lim. destruct T as [t|]; [|reflexivity]. unfold th_untilTime. cbn [th_start th_prog].
  destruct (Z.ltb_spec eps (t - (b + 1) * w)); [apply negb_true_iff, Z.leb_gt|apply negb_false_iff, Z.leb_le]; lia.
Qed.
(** after the last window *)
Definition over (e : st) : Prop := forall x, In x l -> isCouplingOngoing (snd (g x)) e = false.
Definition next (b : Z) (e : st) : Prop := if on (b + 1) then at_ (b + 1) 0 e else over e.
Lemma over_kept (e e' : st) : s_time e' = s_time e -> s_windows e' = s_windows e -> over e -> over e'.
Proof. unfold over, isCouplingOngoing. intros -> ->. auto. Qed.
Lemma next_kept b (e e' : st) : s_time e' = s_time e -> s_windows e' = s_windows e -> s_tws e' = s_tws e -> s_next e' = s_next e -> next b e -> next b e'.
Proof. intros E1 E2 E3 E4. unfold next. destruct (on (b + 1)); [apply at_kept; assumption|apply over_kept; assumption]. Qed.

Lemma first_step E b x e : In x l -> on b = true -> at_ b (lim b) e -> shaped i (first1 gnone E (g x) e) (earlyBlock tt i b x) (mid b).
Proof.
  intros Hx O A. destruct (side_conf x Hx) as (_ & _ & _ & _ & F & _). assert (R : reachedEndOfTimeWindow (snd (g x)) e = true) by (rewrite (at_reached b (lim b) e x Hx A), Z.sub_diag; apply Z.leb_le; lia).
  apply shaped_does.
  - rewrite (surjective_pairing (g x)). apply sh_first1; [|exact R]. intros s'. apply early_shape, Hx.
  - intros tr e' D. rewrite (surjective_pairing (g x)) in D. destruct A as (A1 & A2 & A3). destruct (first1_ok _ _ _ _ _ _ _ _ F A3 D) as (B1 & B2 & B3 & B4). rewrite R in B4. unfold mid. rewrite B1, A1. repeat split; try apply B2; auto. lia.
Qed.
Lemma second_step E b x e : In x l -> on b = true -> mid b e -> shaped i (second1 gnone E (g x) e) (lateBlock tt i b (on (b + 1)) x) (next b).
Proof.
  intros Hx O A. destruct (side_conf x Hx) as (Im & Ee & ET & EM & F & _). pose proof (mid_reached b e x Hx A) as R.
  apply shaped_does.
  - rewrite (surjective_pairing (g x)). apply sh_second1; [|exact R]. intros s' H1 H2. apply late_shape; [exact Hx|]. exact (mid_ongoing b e s' x Hx A O H1 H2).
  - intros tr e' D. rewrite (surjective_pairing (g x)) in D. destruct A as (A1 & A2 & A3 & A4). destruct (second1_ok _ _ _ _ _ _ _ _ F A3 D) as (B1 & _ & B4). rewrite R in B4.
    destruct B4 as (C1 & C2). rewrite Im in C1. cbn in C1. rewrite C1 in C2. destruct C2 as (C2 & C3). rewrite A1, Ee in C2. pose proof (on_left b O) as L. apply (complete_i eps w T) in C2; [|exact L].
    unfold next. destruct (on (b + 1)) eqn:O1.
    + unfold at_. pose proof (on_left _ O1) as L1. destruct (after_cases eps w T Heps b L) as [(_ & Q & _)|(t & Et & Q & _)].
      * rewrite C2, Q. split; [reflexivity|]. split; [lia|exact B1].
      * rewrite C2. unfold P_Comp2.after. rewrite (lim_full eps w T Heps b L1), Z.sub_diag. destruct (Z.leb_spec (Z.abs 0) eps) as [_|X]; [|cbn in X; lia]. split; [reflexivity|]. split; [lia|exact B1].
    + intros y Hy. destruct (side_conf y Hy) as (_ & Ey & _ & My & _). unfold isCouplingOngoing, th_reachedEnd, equals, th_untilTime. rewrite C2, C3, A2, Ey, My. cbn [th_max th_start th_prog].
      unfold on in O1. apply andb_false_iff in O1 as [O1|O1].
      * apply andb_false_iff. left. destruct M; [|discriminate]. apply Z.leb_gt in O1. apply Z.leb_gt. lia.
      * apply andb_false_iff. right. destruct (after_cases eps w T Heps b L) as [(L1 & _)|(t & Et & Q & _)].
        -- unfold P_Comp2.left_ in L1. destruct T; [|discriminate]. apply Z.ltb_ge in O1. exfalso. lia.
        -- rewrite Et in Q. rewrite Et. apply negb_false_iff, Z.leb_le. lia.
Qed.
Lemma first_quiet E b p x e : In x l -> at_ b p e -> eps < lim b - p -> shaped i (first1 gnone E (g x) e) [] (at_ b p).
Proof.
  intros Hx A Hp. destruct (side_conf x Hx) as (_ & _ & _ & _ & F & _). assert (R : reachedEndOfTimeWindow (snd (g x)) e = false) by (rewrite (at_reached b p e x Hx A); apply Z.leb_gt; lia).
  apply shaped_does; [rewrite (surjective_pairing (g x)); apply sh_first1_quiet; exact R|].
  intros tr e' D. rewrite (surjective_pairing (g x)) in D. destruct A as (A1 & A2 & A3). destruct (first1_ok _ _ _ _ _ _ _ _ F A3 D) as (B1 & B2 & B3 & B4). rewrite R in B4. unfold at_. rewrite B1, A1. destruct B4 as (B4 & _). rewrite B4. auto.
Qed.
Lemma second_quiet E b p x e : In x l -> at_ b p e -> eps < lim b - p -> shaped i (second1 gnone E (g x) e) [] (at_ b p).
Proof.
  intros Hx A Hp. destruct (side_conf x Hx) as (_ & _ & _ & _ & F & _). assert (R : reachedEndOfTimeWindow (snd (g x)) e = false) by (rewrite (at_reached b p e x Hx A); apply Z.leb_gt; lia).
  apply shaped_does; [rewrite (surjective_pairing (g x)); apply sh_second1_quiet; exact R|].
  intros tr e' D. rewrite (surjective_pairing (g x)) in D. destruct A as (A1 & A2 & A3). destruct (second1_ok _ _ _ _ _ _ _ _ F A3 D) as (B1 & B2 & B4). rewrite R in B4. unfold at_. destruct B4 as (B4 & _ & B5 & _). rewrite B4, B5. auto.
Qed.

Definition states (Q : st -> Prop) (s : cst) : Prop := cx_impl s = None /\ Forall2 (fun _ => Q) l (cx_expl s).
Definition Inv (s : cst) (L : list msgEv) : Prop :=
  (exists m b p, states (at_ b p) s /\ on b = true /\ 0 <= p < lim b - eps /\ count_ m b /\ L = windows tt cs i m b) \/ (states over s /\ L = []).

(** the largest step of a running participant *)
Lemma least_const z : forall L : list (option Z), L <> [] -> (forall x, In x L -> x = Some z) -> leastOf L = Some z.
Proof.
  intros L Hn H. unfold leastOf. destruct L as [|a L]; [congruence|]. cbn [fold_left]. rewrite (H a (or_introl eq_refl)). assert (H' : forall x, In x L -> x = Some z) by (intros; apply H; right; assumption). clear H Hn a.
  induction L as [|a L IH]; [reflexivity|]. cbn [fold_left]. rewrite (H' a (or_introl eq_refl)), Z.min_id. apply IH. intros; apply H'; right; assumption.
Qed.
Lemma in_combine_l {A B C} (P : A -> B -> Prop) (h : A -> C) : forall (la : list A) (lb : list B) c b, Forall2 P la lb -> In (c, b) (combine (map h la) lb) -> exists a, In a la /\ c = h a /\ P a b.
Proof. intros la lb c b F. induction F as [|a b' la lb Pa F IH]; intros H; [destruct H|]. destruct H as [H|H]; [injection H as <- <-; exists a; cbn; auto|]. destruct (IH H) as (a' & H1 & H2). exists a'. cbn. auto. Qed.
Lemma max_at s b p : l <> [] -> states (at_ b p) s -> on b = true -> 0 <= p < lim b - eps -> cMaxTimeStepSize (composition cs i) s = Some (lim b - p).
Proof.
  intros Hl (HI & F) O Hp. unfold cMaxTimeStepSize, active. rewrite comp_eq. cbn [cc_impl cc_expl]. apply least_const.
  - inversion F as [Q|x e l1 es Px Pr]; [symmetry in Q; contradiction|]. cbn. discriminate.
  - intros z Hz. apply in_map_iff in Hz as ((c, e) & <- & Hz). destruct (in_combine_l _ g _ _ _ _ F Hz) as (x & Hx & -> & A). cbn [fst snd]. unfold getMaxTimeStepSize. rewrite (at_ongoing b p e x Hx A O Hp).
    destruct A as (A1 & _ & A2 & _). rewrite A2, A1, until_lim. reflexivity.
Qed.
Lemma ask_states (Q : st -> Prop) s : (forall e e' : st, s_time e' = s_time e -> s_windows e' = s_windows e -> s_tws e' = s_tws e -> s_next e' = s_next e -> Q e -> Q e') -> states Q s -> states Q (cAnswer s).
Proof.
  intros H (A & F). split; [cbn; rewrite A; reflexivity|]. cbn [cAnswer cx_expl]. destruct (cx_hold s); [exact F|]. apply Forall2_mapr; [|exact F].
  intros c x. apply H; unfold answerWrite, answerRead; destruct (a_read (s_req x)); cbn; destruct (a_write (s_req x)); reflexivity.
Qed.
Lemma silent_cBefore cc E b t (s : cst) : silent (cBefore E cc b t s).
Proof.
  unfold cBefore. destruct (_ || _); [|exact I]. apply silent_bind.
  - unfold onImpl. destruct (cc_impl cc), (cx_impl s); try exact I. apply silent_bind; [|intros; exact I]. apply silent_bind; [apply silent_write|]. intros; exact I.
  - intros a. unfold onExpl. apply silent_bind; [|intros; exact I]. apply silent_each. intros. apply silent_bind; [apply silent_write|]. intros; exact I.
Qed.
Lemma after_states (Q : st -> Prop) cc a t (s : cst) : (forall e e' : st, s_time e' = s_time e -> s_windows e' = s_windows e -> s_tws e' = s_tws e -> s_next e' = s_next e -> Q e -> Q e') -> states Q s ->
  shaped i (cAfter cc a t s) [] (states Q).
Proof.
  intros H (A & F). apply shaped_does; [apply shaped_silent, silent_cAfter|]. intros tr s' D.
  assert (G : forall gg : st -> st, (forall x, s_time (gg x) = s_time x /\ s_windows (gg x) = s_windows x /\ s_tws (gg x) = s_tws x /\ s_next (gg x) = s_next x) -> states Q (CSt (map gg (cx_expl s)) (option_map gg (cx_impl s)) (cx_hold s))).
  { intros gg Hg. split; [cbn; rewrite A; reflexivity|]. cbn [cx_expl]. apply Forall2_mapr; [|exact F]. intros _ x. destruct (Hg x) as (G1 & G2 & G3 & G4). apply H; assumption. }
  unfold cAfter in D. destruct (negb a); [destruct D as (_ & <-); split; assumption|]. destruct (cComplete cc s); db D t1 t2 u D3.
  - destruct (cWindowStart cc s); [|destruct D]. destruct D as (_ & <-). apply G. intros x. cbn. auto.
  - destruct D as (_ & <-). apply G. intros x. cbn. auto.
Qed.
Lemma before_states (Q : st -> Prop) E a t (s : cst) : (forall e e' : st, s_time e' = s_time e -> s_windows e' = s_windows e -> s_tws e' = s_tws e -> s_next e' = s_next e -> Q e -> Q e') -> states Q s ->
  shaped i (cBefore E (composition cs i) a t s) [] (states Q).
Proof.
  intros H (A & F). apply shaped_does; [apply shaped_silent, silent_cBefore|]. intros tr s' D. unfold cBefore in D. destruct (_ || _); [|destruct D as (_ & <-); split; assumption].
  db D t1 t2 s1 D1. unfold onImpl in D1. rewrite comp_eq in D1. cbn [cc_impl] in D1. rewrite A in D1. destruct D1 as (_ & <-). unfold onExpl in D. db D t3 t4 es D2. cbn in D. destruct D as (_ & <-). split; [exact A|]. cbn [cx_expl].
  rewrite comp_eq in D2. cbn [cc_expl] in D2. revert F D2. generalize (cx_expl s) as ss, l as L, 1%nat as k, t3. clear -H. intros ss L k t3 F. revert k t3 es. induction F as [|x e L ss Px F IH]; intros k t3 es D; cbn [map each] in D.
  - destruct D as (_ & <-). constructor.
  - db D t1 t2 e' D1. db D t4 t5 r D2. cbn in D. destruct D as (_ & <-). constructor; [|eapply IH; exact D2]. db D1 t6 t7 ws D3. cbn in D1. destruct D1 as (_ & <-). revert Px. apply H; reflexivity.
Qed.

Lemma advance_shape E s m b p dt : l <> [] -> states (at_ b p) s -> on b = true -> 0 <= p < lim b - eps -> count_ m b -> dt = lim b - p \/ dt < lim b - p - eps ->
  exists L1 L2, windows tt cs i m b = L1 ++ L2 /\ shaped i (cAdvance gnone E (composition cs i) dt s) L1 (fun s' => Inv s' L2).
Proof.
  intros Hl S0 O Hp Hc Hdt. unfold cAdvance.
  assert (Add : shaped i (cAddComputedTime (composition cs i) dt s) [] (fun r => states (at_ b (p + dt)) (fst r))).
  { unfold cAddComputedTime. rewrite comp_eq. unfold isImplicit. cbn [cc_impl negb]. apply (shaped_bind _ _ _ _ _ [] [] (states (at_ b (p + dt)))).
    - eapply shaped_weaken; [|apply onExpl_quiet with (P := fun _ => at_ b p) (Q := fun _ => at_ b (p + dt)); [|apply S0]].
      + intros s' (A1 & A2). split; [rewrite A1; apply S0|exact A2].
      + intros k x e Hx A. apply shaped_does; [apply shaped_silent, silent_add|]. intros tr e' D. apply does_add in D. destruct D as (_ & -> & _). unfold at_. cbn [set_s_time s_time s_windows]. destruct A as (A1 & A2 & A3). rewrite A1. auto.
    - intros s' H. cbn. auto. }
  assert (Gen : forall Q L, (forall r : cst * bool, states (at_ b (p + dt)) (fst r) -> 0 < dt -> shaped i (bind (cBefore E (composition cs i) (snd r) (cTime (fst r)) (fst r)) (fun s2 => bind (cFirstExchange gnone E (composition cs i) s2) (fun s3 => bind (cSecondExchange gnone E (composition cs i) s3) (fun s4 => cAfter (composition cs i) (snd r) (cTime (fst r)) s4)))) L Q) ->
     shaped i (cAdvance gnone E (composition cs i) dt s) L Q).
  { intros Q L H. unfold cAdvance. apply (shaped_bind _ _ _ _ _ [] L T1); [apply shaped_silent, silent_check|]. intros _ _. apply (shaped_bind _ _ _ _ _ [] L T1); [apply shaped_silent, silent_check|]. intros _ _.
    destruct (Z.ltb_spec 0 dt); [|exact I]. cbn [check_ bind]. apply (shaped_bind _ _ _ _ _ [] L _ _ Add). intros r Hr. apply H; assumption. }
  unfold cAdvance in Gen. destruct Hdt as [Hdt|Hdt].
  - destruct (count_first m b O Hc) as (m' & -> & Hc' & Hm). cbn [windows]. exists (flat_map (earlyBlock tt i b) l ++ flat_map (lateBlock tt i b (on (b + 1))) l), (windows tt cs i m' (b + 1)).
    split; [rewrite Hm, <- app_assoc; reflexivity|]. apply Gen. intros r Hr _. replace (p + dt) with (lim b) in Hr by lia.
    apply (shaped_bind _ _ _ _ _ [] _ (states (at_ b (lim b)))); [apply before_states; [apply at_kept|exact Hr]|]. intros s2 H2.
    apply shaped_bind with (Q := states (mid b)).
    + unfold cFirstExchange, isImplicit. rewrite comp_eq. cbn [cc_impl negb]. eapply shaped_weaken; [|apply onExpl_shaped with (P := fun _ => at_ b (lim b)) (Q := fun _ => mid b); [|apply H2]].
      * intros s' (A1 & A2). split; [rewrite A1; apply H2|exact A2].
      * intros k x e Hx A. apply first_step; [exact Hx|exact O|exact A].
    + intros s3 H3. rewrite <- (app_nil_r (flat_map (lateBlock tt i b (on (b + 1))) l)). apply shaped_bind with (Q := states (next b)).
      * unfold cSecondExchange, isImplicit. rewrite comp_eq. cbn [cc_impl negb]. eapply shaped_weaken; [|apply onExpl_shaped with (P := fun _ => mid b) (Q := fun _ => next b); [|apply H3]].
        -- intros s' (A1 & A2). split; [rewrite A1; apply H3|exact A2].
        -- intros k x e Hx A. apply second_step; assumption.
      * intros s4 H4. eapply shaped_weaken; [|apply (after_states (next b)); [apply next_kept|exact H4]].
        intros s5 H5. unfold next in H5. destruct (on (b + 1)) eqn:O1.
        -- left. exists m', (b + 1), 0. split; [exact H5|]. split; [exact O1|]. split; [pose proof (lim_pos eps w T Heps (b + 1) (on_left _ O1)); lia|]. auto.
        -- right. split; [exact H5|]. destruct m'; [reflexivity|discriminate Hm].
  - exists [], (windows tt cs i m b). split; [reflexivity|]. apply Gen. intros r Hr Hdt0. 
    assert (Z0 : forall (f : nat -> scheme -> st -> prog st) (Q : st -> Prop) s0, states (at_ b (p + dt)) s0 -> (forall k x e, In x l -> at_ b (p + dt) e -> shaped i (f k (g x) e) [] Q) -> shaped i (onExpl f (composition cs i) s0) [] (states Q)).
    { intros f Q s0 (A & F) Hf. rewrite comp_eq. eapply shaped_weaken; [|apply onExpl_quiet with (P := fun _ => at_ b (p + dt)) (Q := fun _ => Q); [exact Hf|exact F]].
      intros s' (A1 & A2). split; [congruence|exact A2]. }
    apply (shaped_bind _ _ _ _ _ [] [] (states (at_ b (p + dt)))); [apply before_states; [apply at_kept|exact Hr]|]. intros s2 H2.
    apply (shaped_bind _ _ _ _ _ [] [] (states (at_ b (p + dt)))); [change (cFirstExchange gnone E (composition cs i) s2) with (onExpl (fun k => first1 gnone (E k)) (composition cs i) s2); apply Z0; [exact H2|]; intros k x e Hx A; apply first_quiet; [exact Hx|exact A|lia]|]. intros s3 H3.
    apply (shaped_bind _ _ _ _ _ [] [] (states (at_ b (p + dt)))); [change (cSecondExchange gnone E (composition cs i) s3) with (onExpl (fun k => second1 gnone (E k)) (composition cs i) s3); apply Z0; [exact H3|]; intros k x e Hx A; apply second_quiet; [exact Hx|exact A|lia]|]. intros s4 H4.
    eapply shaped_weaken; [|apply (after_states (at_ b (p + dt))); [apply at_kept|exact H4]]. intros s5 H5. left. exists m, b, (p + dt). split; [exact H5|]. split; [exact O|]. split; [lia|]. auto.
Qed.
Lemma ongoing_states (Q : st -> Prop) s a : l <> [] -> (forall x e, In x l -> Q e -> isCouplingOngoing (snd (g x)) e = a) -> states Q s -> cOngoing (composition cs i) s = a.
Proof.
  intros Hl H (A & F). unfold cOngoing. rewrite comp_eq. cbn [cc_impl cc_expl]. assert (H' : forall x e, In x l -> Q e -> isCouplingOngoing (snd (g x)) e = a) by exact H. clear H. destruct l as [|x l0]; [congruence|]. inversion F as [|? e ? es Q1 Q2]; subst. cbn [map]. apply H'; [left; reflexivity|exact Q1].
Qed.
Lemma no_windows : l = [] -> forall m b, windows tt cs i m b = [].
Proof. intros Hl. induction m as [|m IH]; intros b; cbn [windows]; [reflexivity|]. fold l. rewrite Hl. cbn. apply IH. Qed.
Lemma inv_loop s L : Inv s L -> match fleetLoop gnone Es step cs i s with None => L = [] | Some p => exists L1 L2, L = L1 ++ L2 /\ shaped i p L1 (fun s' => Inv s' L2) end.
Proof.
  intros H. unfold fleetLoop. assert (Dec : l = [] \/ l <> []) by (destruct l; [left; reflexivity|right; discriminate]). destruct Dec as [Hl|Hl].
  - unfold cOngoing. rewrite comp_eq, Hl. cbn [cc_impl cc_expl map]. destruct H as [(m & b & p & _ & _ & _ & _ & ->)|(_ & ->)]; [apply no_windows, Hl|reflexivity].
  - destruct H as [(m & b & p & S0 & O & Hp & Hc & ->)|(S0 & ->)].
    + rewrite (ongoing_states (at_ b p) s true Hl); [|intros x e Hx A; exact (at_ongoing b p e x Hx A O Hp)|exact S0].
      apply advance_shape with (p := p); auto.
      * apply ask_states; [apply at_kept|exact S0].
      * pose proof (Hstep i s) as X. unfold exact_step in X. rewrite (max_at s b p Hl S0 O Hp) in X. exact X.
    + rewrite (ongoing_states over s false Hl); [reflexivity| |exact S0]. intros x e Hx A. apply A, Hx.
Qed.
Lemma start_states : shaped i (cInitialize gnone vzero (Es i) (composition cs i)) (flat_map (startBlock tt i) l) (states (at_ 0 0)).
Proof.
  unfold cInitialize. rewrite comp_eq. cbn [cc_expl cc_impl]. rewrite <- (app_nil_r (flat_map _ l)). apply shaped_bind with (Q := fun es => Forall2 (fun _ => at_ 0 0) l es).
  - apply each_shaped with (P := fun x e => e = answerInit (st0 (snd (g x)))).
    + intros k x e Hx ->. apply shaped_does; [apply start_shape, Hx|]. intros tr e' D. apply does_returns in D. apply initialize_spec in D; [|right; reflexivity].
      destruct (side_conf x Hx) as (_ & _ & ET & _ & F & _ & R). destruct (is_tws _ _ D R) as (Q1 & Q2). destruct F as (_ & _ & F). unfold at_, sized. rewrite (is_time _ _ D), (is_windows _ _ D), Q1, Q2, ET, F. auto.
    + rewrite map_map. apply Forall2_const. auto.
  - intros es F. cbn. split; [reflexivity|]. split; [reflexivity|exact F].
Qed.
Lemma inv_start N : count_ N 0 -> exists L1 L2, plan tt cs i N = L1 ++ L2 /\ shaped i (fleetStart gnone vzero Es cs i) L1 (fun s => Inv s L2).
Proof.
  intros Hc. exists (flat_map (startBlock tt i) l), (windows tt cs i N 0). split; [reflexivity|]. eapply shaped_weaken; [|apply start_states]. intros s H. left. exists N, 0, 0. split; [exact H|]. split; [apply on_0|].
  split; [pose proof (lim_pos eps w T Heps 0 (on_left _ on_0)); lia|]. auto.
Qed.
End Run.
