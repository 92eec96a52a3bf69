(** The ghost logs only grow. *)
From Coq Require Import ZArith Bool List Lia.
From Verif Require Import M_Net M_Time M_Wave M_Cpl S_Prog P_Prog.
Import ListNotations.
Open Scope Z_scope.

Definition prefix {A} (l l' : list A) : Prop := exists r, l' = l ++ r.
Lemma prefix_refl {A} (l : list A) : prefix l l.
Proof. exists []. rewrite app_nil_r. reflexivity. Qed.
Lemma prefix_trans {A} (a b c : list A) : prefix a b -> prefix b c -> prefix a c.
Proof. intros (r & ->) (r' & ->). exists (r ++ r'). rewrite app_assoc. reflexivity. Qed.
Lemma prefix_app {A} (l r : list A) : prefix l (l ++ r).
Proof. exists r. reflexivity. Qed.

Lemma prefix_nth {A} (l l' m : list A) n x y : prefix l m -> prefix l' m ->
  nth_error l n = Some x -> nth_error l' n = Some y -> x = y.
Proof.
  intros (r & ->) (r' & E) H1 H2.
  assert (nth_error (l ++ r) n = Some x) by (rewrite nth_error_app1; [exact H1|apply nth_error_Some; congruence]).
  assert (nth_error (l' ++ r') n = Some y) by (rewrite nth_error_app1; [exact H2|apply nth_error_Some; congruence]).
  congruence.
Qed.

Section L.
Context {V : Type}.
Variables (gnone vzero : V).
Notation st := (st (V:=V)).
Notation prog := (proc (msg V)).

Definition grows (s s' : st) : Prop :=
  prefix (s_hist s) (s_hist s') /\ prefix (s_sent s) (s_sent s') /\ prefix (s_rcvd s) (s_rcvd s').
Lemma grows_refl s : grows s s.
Proof. repeat split; apply prefix_refl. Qed.
Lemma grows_trans a b c : grows a b -> grows b c -> grows a c.
Proof. intros (A1 & A2 & A3) (B1 & B2 & B3). repeat split; eapply prefix_trans; eassumption. Qed.

Definition gp (s : st) (p : prog st) : Prop := forall s', returns p s' -> grows s s'.
Lemma gp_ret s s' : grows s s' -> gp s (PRet s').
Proof. intros H x Q. cbn in Q. subst. exact H. Qed.
Lemma gp_bind_st s p f : gp s p -> (forall s1, gp s1 (f s1)) -> gp s (bind p f).
Proof. intros H1 H2 x Q. apply returns_bind in Q as (a & Q1 & Q2). eapply grows_trans; [apply H1, Q1|apply H2, Q2]. Qed.
Lemma gp_bind {A} s (p : prog A) f : (forall a, gp s (f a)) -> gp s (bind p f).
Proof. intros H2 x Q. apply returns_bind in Q as (a & Q1 & Q2). eapply H2, Q2. Qed.
Lemma gp_pre s s1 p : grows s s1 -> gp s1 p -> gp s p.
Proof. intros H1 H2 x Q. eapply grows_trans; [exact H1|apply H2, Q]. Qed.
Lemma gp_err s e : gp s (PErr e).
Proof. intros x []. Qed.

Ltac triv := unfold grows; cbn; repeat split; first [apply prefix_refl|apply prefix_app].
Ltac fin := solve [apply gp_ret; triv | apply gp_err | triv].

Lemma g_send c s : gp s (sendData gnone c s).
Proof. apply gp_bind. intros. fin. Qed.
Lemma g_recv c s : gp s (receiveData gnone c s).
Proof. apply gp_bind. intros. fin. Qed.
Lemma g_notify s : gp s (notifyDataHasBeenReceived s).
Proof. apply gp_bind. intros. fin. Qed.
Lemma g_wend c s : gp s (receiveDataForWindowEnd gnone c s).
Proof.
  unfold receiveDataForWindowEnd. destruct (s_next s); [|fin]. apply gp_bind_st.
  - eapply gp_pre; [|apply g_recv]. triv.
  - intros. fin.
Qed.
Lemma g_store (s : st) : gp s (storeIteration s).
Proof. apply gp_bind. intros. fin. Qed.
Lemma g_sendT c (s : st) : gp s (sendTimeWindowSize c s).
Proof. unfold sendTimeWindowSize. destruct (c_sets c); [apply gp_bind; intros|]; fin. Qed.
Lemma g_recvT c (s : st) : gp s (receiveAndSetTimeWindowSize c s).
Proof. unfold receiveAndSetTimeWindowSize. destruct (c_recvs c); [apply gp_bind; intros; apply gp_bind; intros|]; fin. Qed.
Lemma g_accel E b (s : st) : grows s (accelerate E b s).
Proof. unfold accelerate. destruct b; triv. Qed.
Lemma g_impl E b c (s : st) : gp s (doImplicitStep E b c s).
Proof.
  apply gp_bind. intros x. cbv zeta. destruct (_ || _); [fin|]. apply gp_ret.
  eapply grows_trans; [|apply g_accel]. triv.
Qed.
Lemma g_recvC c (s : st) : gp s (receiveConvergence c s).
Proof. apply gp_bind. intros. fin. Qed.
Lemma g_move (s : st) : grows s (moveToNextWindow s).
Proof. triv. Qed.
Lemma g_if (b : bool) (s : st) p q : gp s p -> gp s q -> gp s (if b then p else q).
Proof. destruct b; auto. Qed.
Lemma g_movestore (s : st) : gp s (storeIteration (if s_conv s then moveToNextWindow s else s)).
Proof. destruct (s_conv s); [eapply gp_pre; [apply g_move|]|]; apply g_store. Qed.
Lemma g_zero c s : gp s (initializeWithZeroInitialData gnone vzero c s).
Proof. apply gp_bind. intros. fin. Qed.

Ltac step := first
  [ fin
  | apply g_send | apply g_recv | apply g_notify | apply g_wend | apply g_store | apply g_sendT
  | apply g_recvT | apply g_impl | apply g_recvC | apply g_movestore | apply g_zero
  | apply g_if
  | apply gp_bind_st; [|intros]
  | apply gp_bind; intros ].

Lemma g_ser1 E c s : gp s (ser_first gnone E c s).
Proof. unfold ser_first. repeat step. Qed.
Lemma g_ser2 c s : gp s (ser_second gnone c s).
Proof.
  unfold ser_second. destruct (c_implicit c); repeat step.
Qed.
Lemma g_par1 c s : gp s (par_first gnone c s).
Proof. unfold par_first. repeat step. Qed.
Lemma g_par2 E c s : gp s (par_second gnone E c s).
Proof. unfold par_second. repeat step. Qed.

Lemma g_check (s : st) : gp s (checkCompleteness s).
Proof. unfold checkCompleteness. repeat (apply gp_bind; intros). fin. Qed.
Lemma g_first e1 c (s : st) : (forall s, gp s (e1 s)) -> gp s (firstExchange e1 c s).
Proof.
  intros H. unfold firstExchange. apply gp_bind_st; [apply g_check|]. intros s1. cbv zeta.
  apply g_if; [|fin]. eapply gp_pre; [|apply H]. triv.
Qed.
Lemma g_after c (s : st) : gp s (afterSecond c s).
Proof.
  unfold afterSecond. apply gp_bind_st.
  - apply g_if; [|fin]. cbv zeta. apply gp_bind. intros. apply gp_ret.
    destruct (s_conv s); [|triv]. destruct (isCouplingOngoing c _); triv.
  - intros s2. apply gp_bind. intros. apply gp_bind_st; [|intros; fin].
    apply g_if; [|fin]. destruct (s_tws s2); [|fin]. destruct (th_completeTimeWindow _ _ _); fin.
Qed.
Lemma g_second e2 c (s : st) : (forall s, gp s (e2 s)) -> gp s (secondExchange e2 c s).
Proof.
  intros H. unfold secondExchange. apply gp_bind_st; [apply g_check|]. intros s0. apply gp_bind. intros _.
  apply g_if; [|fin]. apply gp_bind_st; [apply H|]. intros s1. apply gp_bind_st; [apply g_after|]. intros s2. fin.
Qed.
Lemma g_before E c b (s0 s : st) : gp s (handleDataBeforeAdvance E c b s0 s).
Proof. unfold handleDataBeforeAdvance. apply g_if; [|fin]. apply gp_bind. intros. fin. Qed.
Lemma g_afteradv c b t (s : st) : gp s (handleDataAfterAdvance c b t s).
Proof. unfold handleDataAfterAdvance. apply g_if; [fin|]. apply g_if; apply gp_bind; intros; fin. Qed.

Lemma g_advance E e1 e2 c dt (s : st) : (forall s, gp s (e1 s)) -> (forall s, gp s (e2 s)) ->
  gp s (advance E e1 e2 c dt s).
Proof.
  intros H1 H2. unfold advance. do 3 (apply gp_bind; intros _).
  apply gp_bind_st. { unfold addComputedTime. do 2 (apply gp_bind; intros _). fin. }
  intros s1. cbv zeta. apply gp_bind_st.
  - apply g_before.
  - intros s2. apply gp_bind_st; [apply g_first, H1|]. intros s3.
    apply gp_bind_st; [apply g_second, H2|]. intros s4. apply g_afteradv.
Qed.

Lemma g_p_advance k E c dt (s : st) : gp s (p_advance gnone k E c dt s).
Proof.
  destruct k; apply g_advance; intros; cbn [ex1 ex2].
  - apply g_ser1. - apply g_ser2. - apply g_par1. - apply g_par2.
Qed.

Lemma g_answered (s : st) : grows s (answerWrite (answerRead s)).
Proof.
  unfold answerWrite, answerRead. destruct (a_read (s_req s)); cbn; destruct (a_write (s_req s)); triv.
Qed.

Lemma g_loop k E c s p : solverLoop gnone k E c s = Some p -> gp s p.
Proof.
  unfold solverLoop. destruct (isCouplingOngoing c s); [|discriminate]. intros H. injection H as <-.
  eapply gp_pre; [apply g_answered|apply g_p_advance].
Qed.
End L.
