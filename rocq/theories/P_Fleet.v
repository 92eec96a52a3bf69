From Coq Require Import ZArith Bool List Lia Arith Sorted.
From Verif Require Import M_Net M_Time M_Wave M_Cpl M_Comp S_Prog S_Cpl S_Comp P_Prog P_Cpl P_CplRun P_Net P_Comp P_Comp2 M_Fleet S_Fleet P_Sched P_FleetPlan.
Import ListNotations.
Open Scope Z_scope.

Notation shaped := (shaped ev_src ev_dst).
Section Shape.
Context {M : Type}.
Variable i : nat.
Notation T1 := (fun _ => True).
Lemma shaped_does {A} (p : proc M A) (Q : A -> Prop) : forall L, shaped i p L T1 -> (forall tr a, does p tr a -> Q a) -> shaped i p L Q.
Proof.
  induction p as [a|x|j m p IH|j p IH]; intros L; cbn [P_Sched.shaped]; auto.
  - intros [H _] HQ. split; [exact H|]. apply (HQ []). cbn. auto.
  - intros (e & l' & H1 & H2 & H3 & H4) HQ. exists e, l'. repeat split; auto. apply IH; [exact H4|]. intros tr a D. apply (HQ (Sent j m :: tr)). cbn. auto.
  - intros (e & l' & H1 & H2 & H3 & H4) HQ. exists e, l'. repeat split; auto. intros m. apply IH; [apply H4|]. intros tr a D. apply (HQ (Got j m :: tr)). cbn. eauto.
Qed.
Lemma shaped_silent {A} (p : proc M A) : silent p -> shaped i p [] T1.
Proof. destruct p; cbn; auto; contradiction. Qed.
Lemma shaped_seq {A B} (p : proc M A) (f : A -> proc M B) L1 L2 : shaped i p L1 T1 -> (forall a, shaped i (f a) L2 T1) -> shaped i (bind p f) (L1 ++ L2) T1.
Proof. intros H1 H2. eapply shaped_bind; [exact H1|]. intros a _. apply H2. Qed.
Lemma shaped_quiet {A B} (p : proc M A) (f : A -> proc M B) L : silent p -> (forall a, shaped i (f a) L T1) -> shaped i (bind p f) L T1.
Proof. intros H1 H2. apply (shaped_seq p f [] L); [apply shaped_silent, H1|exact H2]. Qed.
Lemma shaped_then {A B} (p : proc M A) (f : A -> proc M B) L : shaped i p L T1 -> (forall a, silent (f a)) -> shaped i (bind p f) L T1.
Proof. intros H1 H2. rewrite <- (app_nil_r L). apply shaped_seq; [exact H1|]. intros a. apply shaped_silent, H2. Qed.
End Shape.

Lemma some_S a b t f n : some a b t f (S n) = Ev a b t (Z.of_nat f) :: some a b t (S f) n. Proof. reflexivity. Qed.
Lemma some_app a b t f n m : some a b t f (n + m) = some a b t f n ++ some a b t (f + n) m.
Proof. unfold some. rewrite seq_app, map_app. reflexivity. Qed.

Section Shapes.
Context {V : Type}.
Variables (gnone vzero : V).
Notation st := (st (V:=V)).
Notation env := (env (V:=V)).
Notation prog := (proc (msg V)).
Notation cst := (cst (V:=V)).
Notation T1 := (fun _ => True).
Variable i : nat.

Lemma sh_send j (m : msg V) t f : shaped i (send j m) (some i j t f 1) T1.
Proof. unfold send. cbn [P_Sched.shaped]. exists (Ev i j t (Z.of_nat f)), []. cbn. auto 10. Qed.
Lemma sh_recv j t f {A} (k : msg V -> prog A) : (forall m, silent (k m)) -> shaped i (bind (recv j) k) (some j i t f 1) T1.
Proof. intros H. unfold recv. cbn [bind P_Sched.shaped]. exists (Ev j i t (Z.of_nat f)), []. cbn [ev_src ev_dst]. repeat split. intros m. apply shaped_silent, H. Qed.
Lemma sh_sendOne j d (w : wave (smp V)) t f : shaped i (sendOne j d w) (some i j t f (count1 d)) T1.
Proof.
  unfold sendOne, count1. destruct (d_sub d).
  - apply shaped_quiet; [apply silent_assert|]. intros _.
    change (3 + (if d_grad d then 1 else 0))%nat with (1 + (1 + (1 + (if d_grad d then 1 else 0))))%nat. rewrite (some_app _ _ _ _ 1 (1 + (1 + _))), (some_app _ _ _ _ 1 (1 + _)), (some_app _ _ _ _ 1 (if d_grad d then 1 else 0)).
    apply shaped_seq; [apply sh_send|]. intros _. apply shaped_seq; [apply sh_send|]. intros _. apply shaped_seq; [apply sh_send|]. intros _.
    destruct (d_grad d); [apply sh_send|]. cbn. auto.
  - destruct (w_last w) as [[t' x]|]; [|exact I]. rewrite some_app. apply shaped_seq; [apply sh_send|]. intros _. destruct (d_grad d); [apply sh_send|]. cbn. auto.
Qed.
Lemma sh_sendAll j t : forall ds ws f, shaped i (sendAll (V:=V) j ds ws) (some i j t f (count ds)) T1.
Proof.
  induction ds as [|d ds IH]; intros [|w ws] f; cbn [sendAll]; try exact I; [cbn; auto|]. cbn [count fold_right]. rewrite some_app. apply shaped_seq; [apply sh_sendOne|]. intros _. apply IH.
Qed.
Lemma sh_recvOne j e now d w t f : shaped i (recvOne gnone e now j d w) (some j i t f (count1 d)) T1.
Proof.
  unfold recvOne, count1, recvInt, recvTimes, recvVals, recvGrads. destruct (d_sub d).
  - change (3 + (if d_grad d then 1 else 0))%nat with (1 + (1 + (1 + (if d_grad d then 1 else 0))))%nat. rewrite (some_app _ _ _ _ 1 (1 + (1 + _))), (some_app _ _ _ _ 1 (1 + _)), (some_app _ _ _ _ 1 (if d_grad d then 1 else 0)).
    apply shaped_seq; [apply sh_recv; intros []; exact I|]. intros n. apply shaped_quiet; [apply silent_assert|]. intros _. apply shaped_seq; [apply sh_recv; intros []; exact I|]. intros ts. apply shaped_seq; [apply sh_recv; intros []; exact I|]. intros vs.
    apply shaped_then.
    + destruct (d_grad d); [apply sh_recv; intros []; exact I|]. cbn. auto.
    + intros gs. apply silent_bind; [apply silent_assert|]. intros _. unfold lift. destruct (w_setMany _ _ _); exact I.
  - rewrite some_app. apply shaped_seq; [apply sh_recv; intros []; exact I|]. intros vs. apply shaped_then.
    + destruct (d_grad d); [apply sh_recv; intros []; exact I|]. cbn. auto.
    + intros gs. destruct vs as [|v [|]]; try exact I. destruct gs as [|g [|]]; try exact I. unfold lift. destruct (w_set _ _ _ _); exact I.
Qed.
Lemma sh_recvAll j e now t : forall ds ws f, shaped i (recvAll gnone e now j ds ws) (some j i t f (count ds)) T1.
Proof.
  induction ds as [|d ds IH]; intros [|w ws] f; cbn [recvAll]; try exact I; [cbn; auto|]. cbn [count fold_right]. rewrite some_app. apply shaped_seq; [apply sh_recvOne|]. intros w'. apply shaped_then; [apply IH|]. intros; exact I.
Qed.
Lemma sh_sendData c s t f : shaped i (sendData gnone c s) (some i (c_partner c) t f (count (c_send c))) T1.
Proof. unfold sendData. apply shaped_then; [apply sh_sendAll|]. intros; exact I. Qed.
Lemma sh_receiveData c s t f : shaped i (receiveData gnone c s) (some (c_partner c) i t f (count (c_recv c))) T1.
Proof. unfold receiveData. apply shaped_then; [apply sh_recvAll|]. intros; exact I. Qed.
Lemma sh_windowEnd c s t f : shaped i (receiveDataForWindowEnd gnone c s) (some (c_partner c) i t f (count (c_recv c))) T1.
Proof. unfold receiveDataForWindowEnd. destruct (s_next s); [|exact I]. apply shaped_then; [apply sh_receiveData|]. intros; exact I. Qed.
Lemma silent_notify (s : st) : silent (notifyDataHasBeenReceived s).
Proof. unfold notifyDataHasBeenReceived. apply silent_bind; [apply silent_assert|]. intros; exact I. Qed.
Lemma silent_zeroAll e now : forall ds (ws : list (wave (smp V))), silent (zeroAll gnone vzero e now ds ws).
Proof. induction ds as [|d ds IH]; intros [|w ws]; cbn [zeroAll]; try exact I. apply silent_bind; [unfold lift; destruct (w_set _ _ _ _); exact I|]. intros. apply silent_bind; [apply IH|]. intros; exact I. Qed.
Lemma silent_zero c (s : st) : silent (initializeWithZeroInitialData gnone vzero c s).
Proof. unfold initializeWithZeroInitialData. apply silent_bind; [apply silent_zeroAll|]. intros; exact I. Qed.
Lemma silent_store (s : st) : silent (storeIteration s).
Proof. unfold storeIteration. apply silent_bind; [apply silent_check|]. intros; exact I. Qed.

(** the parts of one call of an explicit scheme *)
Lemma sh_ex1 k E c s t : c_implicit c = false -> c_sets c = false ->
  shaped i (ex1 gnone k E c s) (match k with
    | Serial => some i (c_partner c) t 0 (count (c_send c))
    | Parallel => if c_first c then some i (c_partner c) t 0 (count (c_send c)) else some (c_partner c) i t 0 (count (c_recv c)) end) T1.
Proof.
  intros Im Se. destruct k; cbn [ex1]; unfold ser_first, par_first, sendTimeWindowSize; rewrite ?Im, ?Se.
  - destruct (c_first c); [cbn [bind]|]; (apply shaped_quiet; [apply silent_assert|]); intros _; apply sh_sendData.
  - apply shaped_quiet; [apply silent_assert|]. intros _. destruct (c_first c); [apply sh_sendData|]. apply shaped_then; [apply sh_receiveData|]. intros; apply silent_notify.
Qed.
Lemma sh_ex2 k E c s t : c_implicit c = false -> c_recvs c = false ->
  shaped i (ex2 gnone k E c s) (match k with
    | Serial => if c_first c then some (c_partner c) i t 0 (count (c_recv c)) else if isCouplingOngoing c s then some (c_partner c) i t 0 (count (c_recv c)) else []
    | Parallel => if c_first c then some (c_partner c) i t 0 (count (c_recv c)) else some i (c_partner c) t 0 (count (c_send c)) end) T1.
Proof.
  intros Im Re. destruct k; cbn [ex2]; unfold ser_second, par_second, receiveAndSetTimeWindowSize; rewrite ?Im, ?Re.
  - destruct (c_first c); cbn [negb andb].
    + apply shaped_then; [|intros; exact I]. apply shaped_quiet; [apply silent_assert|]. intros _. apply shaped_then; [apply sh_receiveData|]. intros; apply silent_notify.
    + cbn [bind]. change (isCouplingOngoing c (moveToNextWindow s)) with (isCouplingOngoing c s). destruct (isCouplingOngoing c s); [|cbn; auto].
      cbn [bind]. apply shaped_quiet; [apply silent_assert|]. intros _. apply shaped_then; [apply sh_windowEnd|]. intros; apply silent_notify.
  - apply shaped_quiet; [apply silent_assert|]. intros _. apply shaped_then; [|intros; exact I]. destruct (c_first c); [|apply sh_sendData]. apply shaped_then; [apply sh_receiveData|]. intros; apply silent_notify.
Qed.
Lemma sh_exI k c s t1 t2 : c_implicit c = false -> c_recvs c = false ->
  let cS := if sendsInitialized c then count (c_send c) else 0%nat in
  let cR := if receivesInitialized c then count (c_recv c) else 0%nat in
  shaped i (exI gnone vzero k c s) (match k with
    | Serial => if c_first c then some (c_partner c) i t1 0 cR ++ some i (c_partner c) t1 cR cS
                else (some i (c_partner c) t1 0 cS ++ some (c_partner c) i t1 cS cR) ++ some (c_partner c) i t2 0 (count (c_recv c))
    | Parallel => if c_first c then some i (c_partner c) t1 0 cS ++ some (c_partner c) i t1 cS cR
                  else some (c_partner c) i t1 0 cR ++ some i (c_partner c) t1 cR cS end) T1.
Proof.
  intros Im Re cS cR.
  assert (S0 : forall s f, shaped i (if sendsInitialized c then sendData gnone c s else PRet s) (some i (c_partner c) t1 f cS) T1).
  { intros s0 f. unfold cS. destruct (sendsInitialized c); [apply sh_sendData|cbn; auto]. }
  assert (R0 : forall s f, shaped i (if receivesInitialized c then receiveData gnone c s else PRet s) (some (c_partner c) i t1 f cR) T1).
  { intros s0 f. unfold cR. destruct (receivesInitialized c); [apply sh_receiveData|cbn; auto]. }
  assert (R1 : forall s f, shaped i (if receivesInitialized c then bind (receiveData gnone c s) notifyDataHasBeenReceived else initializeWithZeroInitialData gnone vzero c s) (some (c_partner c) i t1 f cR) T1).
  { intros s0 f. unfold cR. destruct (receivesInitialized c); [|apply shaped_silent, silent_zero]. apply shaped_then; [apply sh_receiveData|]. intros; apply silent_notify. }
  destruct k; cbn [exI]; unfold ser_initial, par_initial.
  - destruct (c_first c).
    + apply shaped_seq; [apply R1|]. intros. apply S0.
    + rewrite <- app_assoc. apply shaped_seq; [apply S0|]. intros. apply shaped_seq; [apply R0|]. intros. unfold receiveAndSetTimeWindowSize. rewrite Re. cbn [bind].
      apply shaped_then; [apply sh_windowEnd|]. intros; apply silent_notify.
  - destruct (c_first c); (apply shaped_seq; [|intros]); auto.
Qed.
Lemma sh_first1 E k c (s : st) L : (forall s', shaped i (ex1 gnone k E c s') L T1) -> reachedEndOfTimeWindow c s = true -> shaped i (first1 gnone E (k, c) s) L T1.
Proof.
  intros H R. unfold first1, firstExchange. cbn [fst snd]. apply (shaped_bind _ _ _ _ _ [] L (fun a => a = set_s_ful no_acts (set_s_req no_acts s)) T1).
  - apply shaped_does; [apply shaped_silent, silent_complete|]. intros tr a D. apply does_returns, check_spec in D. apply D.
  - intros a ->. match goal with |- context [reachedEndOfTimeWindow c ?x] => change (reachedEndOfTimeWindow c x) with (reachedEndOfTimeWindow c s) end. rewrite R. apply H.
Qed.
Lemma sh_second1 E k c (s : st) L : (forall s', s_time s' = s_time s -> s_windows s' = s_windows s -> shaped i (ex2 gnone k E c s') L T1) -> reachedEndOfTimeWindow c s = true -> shaped i (second1 gnone E (k, c) s) L T1.
Proof.
  intros H R. unfold second1, secondExchange. cbn [fst snd]. apply (shaped_bind _ _ _ _ _ [] L (fun a => a = set_s_ful no_acts (set_s_req no_acts s)) T1).
  - apply shaped_does; [apply shaped_silent, silent_complete|]. intros tr a D. apply does_returns, check_spec in D. apply D.
  - intros a ->. apply shaped_quiet; [apply silent_assert|]. intros _. match goal with |- context [reachedEndOfTimeWindow c ?x] => change (reachedEndOfTimeWindow c x) with (reachedEndOfTimeWindow c s) end. rewrite R.
    apply shaped_then; [apply H; reflexivity|]. intros a. apply silent_bind; [apply silent_after|]. intros; exact I.
Qed.
Lemma sh_first1_quiet E k c (s : st) : reachedEndOfTimeWindow c s = false -> shaped i (first1 gnone E (k, c) s) [] T1.
Proof.
  intros R. unfold first1, firstExchange. cbn [fst snd]. apply (shaped_bind _ _ _ _ _ [] [] (fun a => a = set_s_ful no_acts (set_s_req no_acts s)) T1).
  - apply shaped_does; [apply shaped_silent, silent_complete|]. intros tr a D. apply does_returns, check_spec in D. apply D.
  - intros a ->. match goal with |- context [reachedEndOfTimeWindow c ?x] => change (reachedEndOfTimeWindow c x) with (reachedEndOfTimeWindow c s) end. rewrite R. cbn. auto.
Qed.
Lemma sh_second1_quiet E k c (s : st) : reachedEndOfTimeWindow c s = false -> shaped i (second1 gnone E (k, c) s) [] T1.
Proof.
  intros R. unfold second1, secondExchange. cbn [fst snd]. apply (shaped_bind _ _ _ _ _ [] [] (fun a => a = set_s_ful no_acts (set_s_req no_acts s)) T1).
  - apply shaped_does; [apply shaped_silent, silent_complete|]. intros tr a D. apply does_returns, check_spec in D. apply D.
  - intros a ->. apply shaped_quiet; [apply silent_assert|]. intros _. match goal with |- context [reachedEndOfTimeWindow c ?x] => change (reachedEndOfTimeWindow c x) with (reachedEndOfTimeWindow c s) end. rewrite R. cbn. auto.
Qed.
Lemma sh_init E k c (s : st) L : (forall s', shaped i (exI gnone vzero k c s') L T1) -> c_implicit c = false -> shaped i (p_initialize gnone vzero k E c s) L T1.
Proof.
  intros H Im. unfold p_initialize, initialize. apply shaped_quiet; [apply silent_check|]. intros _. apply shaped_quiet; [apply silent_write|]. intros ws. apply shaped_quiet; [apply silent_zero|]. intros s1.
  apply shaped_quiet; [apply silent_check|]. intros _. rewrite Im. cbn [bind]. apply H.
Qed.

Lemma each_shaped {X} (g : X -> scheme) (f : nat -> scheme -> st -> prog st) (B : X -> list msgEv) (P Q : X -> st -> Prop) l :
  (forall n x s, In x l -> P x s -> shaped i (f n (g x) s) (B x) (Q x)) ->
  forall ss n, Forall2 P l ss -> shaped i (each f n (map g l) ss) (flat_map B l) (Forall2 Q l).
Proof.
  induction l as [|x l IH]; intros H ss n F; inversion F as [|x0 s0 l0 ss0 Px Pr]; subst; cbn [each map flat_map].
  - cbn. auto.
  - eapply shaped_bind; [apply H; [left; reflexivity|exact Px]|]. intros s' Qs. rewrite <- (app_nil_r (flat_map B l)). eapply shaped_bind; [apply IH; [|exact Pr]|].
    + intros m y s Hy. apply H. right. exact Hy.
    + intros r Qr. cbn. auto.
Qed.
Lemma onExpl_shaped {X} (g : X -> scheme) (f : nat -> scheme -> st -> prog st) (B : X -> list msgEv) (P Q : X -> st -> Prop) (l : list X) (s : cst) :
  (forall n x e, In x l -> P x e -> shaped i (f n (g x) e) (B x) (Q x)) -> Forall2 P l (cx_expl s) ->
  shaped i (onExpl f (CConf (map g l) None) s) (flat_map B l) (fun s' => cx_impl s' = cx_impl s /\ Forall2 Q l (cx_expl s')).
Proof.
  intros H F. unfold onExpl. cbn [cc_expl]. rewrite <- (app_nil_r (flat_map B l)). eapply shaped_bind; [apply each_shaped with (P := P) (Q := Q); assumption|].
  intros es Hes. cbn. auto.
Qed.
Lemma onExpl_quiet {X} (g : X -> scheme) (f : nat -> scheme -> st -> prog st) (P Q : X -> st -> Prop) (l : list X) (s : cst) :
  (forall n x e, In x l -> P x e -> shaped i (f n (g x) e) [] (Q x)) -> Forall2 P l (cx_expl s) ->
  shaped i (onExpl f (CConf (map g l) None) s) [] (fun s' => cx_impl s' = cx_impl s /\ Forall2 Q l (cx_expl s')).
Proof.
  intros H F. assert (E : flat_map (fun _ : X => @nil msgEv) l = []) by (clear; induction l; auto). rewrite <- E. apply onExpl_shaped with (P := P); assumption.
Qed.
End Shapes.
