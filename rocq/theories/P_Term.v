(** Proving that terminating communicating programs always end. *)
From Coq Require Import List Arith Lia.
From Verif Require Import M_Net P_Net S_Term M_Comm.
Import ListNotations.

(** * Finiteness of runs *)
Section Fin.
Context {M A : Type}.
Inductive sub : proc M A -> proc M A -> Prop :=
| sub_send d m k : sub k (PSend d m k)
| sub_recv s k m : sub (k m) (PRecv s k).
Lemma sub_wf p : Acc sub p.
Proof.
  induction p as [a|e|d m k IH|s k IH]; constructor; intros y H; inversion H; subst; auto.
Qed.
Inductive dec : list (proc M A) -> list (proc M A) -> Prop :=
| dec_head p p' r r' : sub p' p -> (r' = r \/ dec r' r) -> dec (p' :: r') (p :: r)
| dec_tail p r r' : dec r' r -> dec (p :: r') (p :: r).
Lemma dec_wf c : Acc dec c.
Proof.
  induction c as [|p r Hr].
  - constructor. intros y H. inversion H.
  - revert r Hr. induction (sub_wf p) as [p _ IHp]. intros r Hr.
    induction Hr as [r Hr IHr]. constructor. intros y H.
    inversion H as [p0 p' r0 r' Hs Hd|p0 r0 r' Hd]; subst.
    + apply IHp; auto. destruct Hd as [->|Hd]; [constructor; exact Hr|apply Hr, Hd].
    + apply IHr, Hd.
Qed.
Lemma dec_upd i p p' c : nth_error c i = Some p -> sub p' p -> dec (upd i p' c) c.
Proof.
  revert i. induction c as [|q r IH]; intros [|i] H Hs; cbn in *; try discriminate.
  - injection H as ->. constructor; auto.
  - apply dec_tail, IH; auto.
Qed.
Lemma dec_upd2 i j p p' q q' c : i <> j -> nth_error c i = Some p -> sub p' p -> nth_error c j = Some q -> sub q' q ->
  dec (upd j q' (upd i p' c)) c.
Proof.
  revert i j. induction c as [|x r IH]; intros [|i] [|j] N Hi Hs Hj Ht; cbn in *; try discriminate; try congruence.
  - injection Hi as ->. constructor; auto. right. eapply dec_upd; eauto.
  - injection Hj as ->. constructor; auto. right. eapply dec_upd; eauto.
  - apply dec_tail. eapply IH; eauto.
Qed.
Lemma sstep_dec l c c' : sstep once l c c' -> dec c' c.
Proof.
  intros H. inversion H as [i j m ki kj ? N Hi Hj|i s p ? Hi Hb]; subst.
  - eapply dec_upd2; eauto; constructor.
  - discriminate Hb.
Qed.
Lemma astep_dec l x x' : astep once l x x' -> dec (fst x') (fst x).
Proof.
  intros H. inversion H as [i j m k c q N Hj Hi|i j m k c q r N Hj Hi Hq|i s p c q Hi Hb]; subst; cbn [fst].
  - eapply dec_upd; eauto; constructor.
  - eapply dec_upd; eauto; constructor.
  - discriminate Hb.
Qed.
Lemma sync_fin (c : list (proc M A)) : Acc (fun c2 c1 => exists l, sstep once l c1 c2) c.
Proof.
  induction (dec_wf c) as [c _ IH]. constructor. intros y (l & H). apply IH, (sstep_dec _ _ _ H).
Qed.
Lemma async_fin (x : list (proc M A) * chans) : Acc (fun x2 x1 => exists l, astep once l x1 x2) x.
Proof.
  destruct x as (c, q). revert q. induction (dec_wf c) as [c _ IH]. intros q. constructor.
  intros (c', q') (l & H). apply IH, (astep_dec _ _ _ H).
Qed.
End Fin.

(** * One complete run suffices *)
Section Ends.
Context {M A : Type}.
Implicit Types c : list (proc M A).
Lemma finished_ret i (p : proc M A) : finished once i p <-> exists a, p = PRet a.
Proof. unfold finished, once. split; [intros (s & H & _); eauto|intros (s & ->); eauto]. Qed.
Lemma covers_dec w i : {covers w i} + {~ covers w i}.
Proof.
  induction w as [|(a, b) w IH].
  - right. intros (a & b & [] & _).
  - destruct IH as [IH|IH]; [left; apply covers_cons; auto|].
    destruct (Nat.eq_dec a i) as [->|Na]; [left; exists i, b; cbn; auto|].
    destruct (Nat.eq_dec b i) as [->|Nb]; [left; exists a, i; cbn; auto|].
    right. intros H. destruct H as (x & y & [H|H] & H2); [injection H as -> ->; destruct H2; congruence|]. apply IH. exists x, y. auto.
Qed.
Lemma uncovered_same w : forall (c c' : list (proc M A)) i, lrun (sstep once) w c c' -> ~ covers w i -> nth_error c' i = nth_error c i.
Proof.
  induction w as [|(a, b) w IH]; intros c c' i R N; inversion R as [|l w0 c1 c2 c3 Hs Ht]; subst; auto.
  rewrite (IH _ _ i Ht).
  - eapply sstep_other; eauto; intros ->; apply N; [exists i, b|exists a, i]; cbn; auto.
  - intros H. apply N, covers_cons, H.
Qed.
Lemma all_ret res : all_finished once (map (@PRet M A) res).
Proof.
  intros i p H. rewrite nth_error_map in H. destruct (nth_error res i); [|discriminate H].
  injection H as <-. apply finished_ret. eauto.
Qed.
Theorem ends_intro c res : reaches (sstep once) c (map PRet res) -> always_ends c res.
Proof.
  intros (w & R).
  set (K := fun x : list (proc M A) => x = c \/ x = map PRet res).
  assert (HK : forall x, K x -> all_finished once x \/
     exists w c', lrun (sstep once) w x c' /\ K c' /\
       forall i p, nth_error x i = Some p -> ~ finished once i p -> covers w i).
  { intros x [->| ->]; [right|left; apply all_ret].
    exists w, (map PRet res). split; [exact R|]. split; [right; reflexivity|].
    intros i p Hp Hn. destruct (covers_dec w i) as [H|H]; auto. exfalso. apply Hn.
    rewrite <- (uncovered_same _ _ _ i R H) in Hp. eapply all_ret, Hp. }
  assert (K0 : K c) by (left; reflexivity).
  assert (L : length (map (@PRet M A) res) = length c) by (eapply srun_length; eauto).
  assert (F : all_finished once c -> c = map PRet res).
  { intros F. inversion R as [|l w0 c1 c2 c3 Hs Ht]; subst; auto.
    exfalso. eapply finished_no_sstep; eauto. }
  assert (KF : forall x, K x -> all_finished once x -> x = map PRet res).
  { intros x [->| ->]; auto. }
  constructor.
  - apply sync_fin.
  - intros c' H. destruct (sync_progress once K HK c c' K0 H) as [H1|H1]; [left|right; auto].
    destruct (sync_completes once K HK c c' K0 H) as (k & (w' & Hk) & Kk).
    inversion Hk as [|l w0 c1 c2 c3 Hs Ht]; subst; [apply KF; auto|].
    exfalso. eapply finished_no_sstep; eauto.
  - apply async_fin.
  - intros x H. destruct (async_progress once K HK c x K0 H) as [(H1 & H2)|H1]; [left|right; auto].
    destruct (async_completes once K HK c x K0 H) as (k & (w' & Hk) & Kk).
    destruct x as (c', q). cbn [fst snd] in *. subst q.
    inversion Hk as [|l w0 c1 c2 c3 Hs Ht]; subst.
    + assert (k = map PRet res) as -> by (apply KF; auto). rewrite L. reflexivity.
    + exfalso. eapply finished_no_astep; eauto.
Qed.
End Ends.

(** * Conversations between two processes *)
Section Talk.
Context {M : Type}.
Inductive talk {A B} (i j : nat) : proc M A -> proc M B -> A -> B -> Prop :=
| talk_ret a b : talk i j (PRet a) (PRet b) a b
| talk_send m k g a b : talk i j k (g m) a b -> talk i j (PSend j m k) (PRecv i g) a b
| talk_recv m k g a b : talk i j (g m) k a b -> talk i j (PRecv j g) (PSend i m k) a b.
Lemma talk_bind {A B A' B'} i j (p : proc M A) (q : proc M B) a b (f : A -> proc M A') (g : B -> proc M B') a' b' :
  talk i j p q a b -> talk i j (f a) (g b) a' b' -> talk i j (bind p f) (bind q g) a' b'.
Proof. intros H. revert a' b'. induction H; intros a' b' H'; cbn; auto; constructor; auto. Qed.
Lemma talk_bind_l {A B A'} i j (p : proc M A) (q : proc M B) a b (f : A -> proc M A') a' :
  talk i j p q a b -> f a = PRet a' -> talk i j (bind p f) q a' b.
Proof. intros H E. induction H; cbn; try (constructor; auto). rewrite E. constructor. Qed.
Lemma talk_bind_r {A B B'} i j (p : proc M A) (q : proc M B) a b (g : B -> proc M B') b' :
  talk i j p q a b -> g b = PRet b' -> talk i j p (bind q g) a b'.
Proof. intros H E. induction H; cbn; try (constructor; auto). rewrite E. constructor. Qed.
Lemma talk_sym {A B} i j (p : proc M A) (q : proc M B) a b : talk i j p q a b -> talk j i q p b a.
Proof. intros H. induction H; constructor; auto. Qed.
End Talk.

(** * Networks of ranks *)
Section Ranks.
Context {M A : Type}.
Implicit Types P Q : nat -> proc M A.
Definition putp (i : nat) (x : proc M A) P : nat -> proc M A := fun k => if k =? i then x else P k.
Definition runs (n : nat) P Q : Prop := reaches (sstep once) (ranks n P) (ranks n Q).
Lemma ranks_nth n P i : i < n -> nth_error (ranks n P) i = Some (P i).
Proof.
  intros H. unfold ranks. rewrite nth_error_map. rewrite (nth_error_nth' _ 0) by (rewrite seq_length; lia).
  rewrite seq_nth by lia. reflexivity.
Qed.
Lemma ranks_ext n P Q : (forall i, i < n -> P i = Q i) -> ranks n P = ranks n Q.
Proof. intros H. apply map_ext_in. intros i Hi. apply H. apply in_seq in Hi. lia. Qed.
Lemma nth_error_eq {B} (l l' : list B) : (forall i, nth_error l i = nth_error l' i) -> l = l'.
Proof.
  revert l'. induction l as [|x l IH]; intros [|y l'] H; auto.
  - specialize (H 0). discriminate H.
  - specialize (H 0). discriminate H.
  - f_equal; [specialize (H 0); cbn in H; congruence|]. apply IH. intros i. exact (H (S i)).
Qed.
Lemma ranks_len n P : length (ranks n P) = n.
Proof. unfold ranks. rewrite map_length, seq_length. reflexivity. Qed.
Lemma ranks_upd n P i x : upd i x (ranks n P) = ranks n (putp i x P).
Proof.
  apply nth_error_eq. intros k. destruct (lt_dec k n) as [H|H].
  - rewrite (ranks_nth n (putp i x P)) by auto. unfold putp. destruct (Nat.eqb_spec k i) as [->|N].
    + apply nth_upd_eq. rewrite ranks_len. auto.
    + rewrite nth_upd_ne by auto. apply ranks_nth; auto.
  - rewrite (proj2 (nth_error_None _ _)), (proj2 (nth_error_None _ _)); auto;
      rewrite ?upd_length, ranks_len; lia.
Qed.
Lemma runs_refl n P Q : (forall i, i < n -> P i = Q i) -> runs n P Q.
Proof. intros H. unfold runs. rewrite (ranks_ext n P Q H). exists []. constructor. Qed.
Lemma runs_trans n P Q R : runs n P Q -> runs n Q R -> runs n P R.
Proof. intros (w & H) (w' & H'). exists (w ++ w'). eapply lrun_app; eauto. Qed.
Lemma runs_ext n P P' Q Q' : (forall i, i < n -> P i = P' i) -> (forall i, i < n -> Q i = Q' i) ->
  runs n P Q -> runs n P' Q'.
Proof. intros H H'. unfold runs. rewrite (ranks_ext n P P' H), (ranks_ext n Q Q' H'). auto. Qed.
Lemma runs_comm n P i j m ki kj : i < n -> j < n -> i <> j ->
  P i = PSend j m ki -> P j = PRecv i kj -> runs n P (putp j (kj m) (putp i ki P)).
Proof.
  intros Hi Hj N Ei Ej. exists [(i, j)]. econstructor; [|constructor].
  rewrite <- !ranks_upd. apply ss_comm; auto; rewrite ranks_nth by auto; congruence.
Qed.
Lemma putp_eq i x P k : k = i -> putp i x P k = x.
Proof. intros ->. unfold putp. rewrite Nat.eqb_refl. reflexivity. Qed.
Lemma putp_ne i x P k : k <> i -> putp i x P k = P k.
Proof. intros H. unfold putp. destruct (Nat.eqb_spec k i); congruence. Qed.
(** [leads p P R]: the program [P] behaves like [p], and when [p] returns [b]
    the rest of [P] is one that [R b] allows *)
Fixpoint leads {B} (p : proc M B) (P : proc M A) (R : B -> proc M A -> Prop) : Prop :=
  match p with
  | PRet b => R b P
  | PErr e => P = PErr e
  | PSend d m k => exists X, P = PSend d m X /\ leads k X R
  | PRecv s g => exists G, P = PRecv s G /\ forall m, leads (g m) (G m) R
  end.
Lemma leads_mono {B} (p : proc M B) (R R' : B -> proc M A -> Prop) : (forall b X, R b X -> R' b X) ->
  forall P : proc M A, leads p P R -> leads p P R'.
Proof.
  intros H. induction p as [b|e|d m k IH|s g IH]; intros P; cbn; auto.
  - intros (X & E & L). eauto.
  - intros (G & E & L). exists G. split; auto.
Qed.
Lemma leads_bind {B C} (p : proc M B) (f : B -> proc M C) (R : C -> proc M A -> Prop) : forall P : proc M A,
  leads (bind p f) P R -> leads p P (fun b X => leads (f b) X R).
Proof.
  induction p as [b|e|d m k IH|s g IH]; intros P; cbn; auto.
  - intros (X & E & L). eauto.
  - intros (G & E & L). exists G. split; auto.
Qed.
Lemma leads_intro {B} (p : proc M B) (k : B -> proc M A) : leads p (bind p k) (fun b X => X = k b).
Proof. induction p as [b|e|d m q IH|s g IH]; cbn; eauto. Qed.
Lemma leads_self (p : proc M A) : leads p p (fun a X => X = PRet a).
Proof. induction p as [b|e|d m k IH|s g IH]; cbn; eauto. Qed.
Lemma runs_talk {B C} n i j (p : proc M B) (q : proc M C) b c : talk i j p q b c ->
  forall P (Rp : B -> proc M A -> Prop) (Rq : C -> proc M A -> Prop), i < n -> j < n -> i <> j ->
  leads p (P i) Rp -> leads q (P j) Rq ->
  exists X Y, runs n P (putp j Y (putp i X P)) /\ Rp b X /\ Rq c Y.
Proof.
  intros T. induction T as [a b|m k g a b T IH|m k g a b T IH]; intros P Rp Rq Hi Hj N Ei Ej.
  - cbn in *. exists (P i), (P j). split; auto. apply runs_refl. intros k Hk. unfold putp.
    destruct (Nat.eqb_spec k j); [congruence|]. destruct (Nat.eqb_spec k i); congruence.
  - cbn in Ei, Ej. destruct Ei as (Pi & Ei & Fi). destruct Ej as (G & Ej & Fj).
    set (P' := putp j (G m) (putp i Pi P)).
    destruct (IH P' Rp Rq Hi Hj N) as (X & Y & H1 & H2 & H3).
    { unfold P'. rewrite putp_ne, putp_eq by auto. exact Fi. }
    { unfold P'. rewrite putp_eq by auto. apply Fj. }
    exists X, Y. split; auto.
    eapply runs_trans; [eapply (runs_comm n P i j m); eauto|].
    eapply runs_ext; [| |exact H1]; auto.
    intros k0 H0. unfold P', putp. destruct (Nat.eqb_spec k0 j); auto. destruct (Nat.eqb_spec k0 i); auto.
  - cbn in Ei, Ej. destruct Ei as (G & Ei & Fi). destruct Ej as (Pj & Ej & Fj).
    set (P' := putp i (G m) (putp j Pj P)).
    destruct (IH P' Rp Rq Hi Hj N) as (X & Y & H1 & H2 & H3).
    { unfold P'. rewrite putp_eq by auto. apply Fi. }
    { unfold P'. rewrite putp_ne, putp_eq by auto. exact Fj. }
    exists X, Y. split; auto.
    eapply runs_trans; [eapply (runs_comm n P j i m); eauto|].
    eapply runs_ext; [| |exact H1]; auto.
    intros k0 H0. unfold P', putp. destruct (Nat.eqb_spec k0 j); auto. destruct (Nat.eqb_spec k0 i); auto.
Qed.
Lemma all_end_intro n P res : runs n P (fun i => PRet (res i)) -> all_end n P res.
Proof.
  intros H. apply ends_intro. rewrite map_map. exact H.
Qed.
End Ranks.

(** * Sequential composition of phases *)
Section Seq.
Context {M A B : Type}.
Lemma runs_bind n (P Q : nat -> proc M A) (k : nat -> A -> proc M B) :
  runs n P Q -> runs n (fun i => bind (P i) (k i)) (fun i => bind (Q i) (k i)).
Proof.
  intros (w & H). unfold runs.
  remember (ranks n P) as c eqn:E. remember (ranks n Q) as c' eqn:E'. revert P Q E E'.
  induction H as [c|l w c1 c2 c3 Hs Ht IH]; intros P Q E E'.
  - subst. assert (X : forall i, i < n -> P i = Q i).
    { intros i Hi. pose proof (ranks_nth n P i Hi) as X. rewrite E' in X. rewrite ranks_nth in X by auto. congruence. }
    rewrite (ranks_ext n _ (fun i => bind (Q i) (k i))). { exists []. constructor. }
    intros i Hi. rewrite X; auto.
  - subst. inversion Hs as [i j m ki kj c N Hi Hj|i s p c Hi Hb]; subst; [|discriminate Hb].
    assert (Li : i < n) by (apply nth_error_lt in Hi; rewrite ranks_len in Hi; auto).
    assert (Lj : j < n) by (apply nth_error_lt in Hj; rewrite ranks_len in Hj; auto).
    rewrite ranks_nth in Hi, Hj by auto. injection Hi as Hi. injection Hj as Hj.
    rewrite !ranks_upd in IH.
    eapply runs_trans; [|eapply IH; reflexivity].
    eapply runs_ext; [| |eapply (runs_comm n (fun i => bind (P i) (k i)) i j m (bind ki (k i)) (fun x => bind (kj x) (k j)))]; auto.
    + cbn. intros x Hx. unfold putp. destruct (Nat.eqb_spec x j) as [->|]; auto.
      destruct (Nat.eqb_spec x i) as [->|]; auto.
    + cbn. rewrite Hi. reflexivity.
    + cbn. rewrite Hj. reflexivity.
Qed.
Lemma runs_seq n (P : nat -> proc M A) r (k : nat -> A -> proc M B) Q :
  runs n P (fun i => PRet (r i)) -> runs n (fun i => k i (r i)) Q -> runs n (fun i => bind (P i) (k i)) Q.
Proof. intros H H'. eapply runs_trans; [apply runs_bind, H|]. exact H'. Qed.
End Seq.

(** * A process talking to others in turn *)
Section Star.
Context {M : Type}.
(** [phase n z rs p q b c]: when process [z] runs [p] and every process [r] of
    [rs] runs [q r], then [z] can get the result [b] and [r] the result [c r] *)
Definition phase {B C} (n z : nat) (rs : list nat) (p : proc M B) (q : nat -> proc M C) (b : B) (c : nat -> C) : Prop :=
  forall (A : Type) (P : nat -> proc M A) (R0 : B -> proc M A -> Prop) (R : nat -> C -> proc M A -> Prop),
    leads p (P z) R0 -> (forall r, In r rs -> leads (q r) (P r) (R r)) ->
    exists Q, runs n P Q /\ R0 b (Q z) /\ (forall r, In r rs -> R r (c r) (Q r)) /\
      (forall i, i <> z -> ~ In i rs -> Q i = P i).
Lemma phase_ret {B C} n z rs (b : B) (c : nat -> C) : phase n z rs (PRet b) (fun r => PRet (c r)) b c.
Proof. intros A P R0 R H0 H. exists P. cbn in *. repeat split; auto. apply runs_refl. auto. Qed.
Lemma phase_bind {B C B' C'} n z rs (p : proc M B) (q : nat -> proc M C) b c
    (f : B -> proc M B') (g : nat -> C -> proc M C') b' c' :
  phase n z rs p q b c -> phase n z rs (f b) (fun r => g r (c r)) b' c' ->
  phase n z rs (bind p f) (fun r => bind (q r) (g r)) b' c'.
Proof.
  intros H1 H2 A P R0 R E0 E.
  destruct (H1 A P _ (fun r x X => leads (g r x) X (R r)) (leads_bind _ _ _ _ E0) (fun r Hr => leads_bind _ _ _ _ (E r Hr)))
    as (Q & U1 & U2 & U3 & U4).
  destruct (H2 A Q R0 R U2 U3) as (Q' & V1 & V2 & V3 & V4).
  exists Q'. split; [eapply runs_trans; eauto|]. split; auto. split; auto.
  intros i Hi Hr. rewrite V4, U4; auto.
Qed.
Lemma phase_bind_z {B C B'} n z rs (p : proc M B) (q : nat -> proc M C) b c (f : B -> proc M B') b' :
  phase n z rs p q b c -> f b = PRet b' -> phase n z rs (bind p f) q b' c.
Proof.
  intros H1 H2 A P R0 R E0 E.
  destruct (H1 A P _ R (leads_bind _ _ _ _ E0) E) as (Q & U1 & U2 & U3 & U4). rewrite H2 in U2. exists Q. auto.
Qed.
Lemma phase_bind_r {B C C'} n z rs (p : proc M B) (q : nat -> proc M C) b c (g : nat -> C -> proc M C') c' :
  phase n z rs p q b c -> (forall r, In r rs -> g r (c r) = PRet (c' r)) -> phase n z rs p (fun r => bind (q r) (g r)) b c'.
Proof.
  intros H1 H2 A P R0 R E0 E.
  destruct (H1 A P R0 (fun r x X => leads (g r x) X (R r)) E0 (fun r Hr => leads_bind _ _ _ _ (E r Hr))) as (Q & U1 & U2 & U3 & U4).
  exists Q. split; auto. split; auto. split; auto. intros r Hr. specialize (U3 r Hr). cbn beta in U3. rewrite H2 in U3 by auto. exact U3.
Qed.
Lemma phase_ext {B C} n z rs (p p' : proc M B) (q q' : nat -> proc M C) b b' c c' :
  phase n z rs p q b c -> p = p' -> b = b' -> (forall r, In r rs -> q r = q' r) -> (forall r, In r rs -> c r = c' r) ->
  phase n z rs p' q' b' c'.
Proof.
  intros H <- <- Eq Ec A P R0 R E0 E. destruct (H A P R0 R E0) as (Q & U1 & U2 & U3 & U4).
  - intros r Hr. rewrite Eq by auto. auto.
  - exists Q. repeat split; auto. intros r Hr. rewrite <- Ec by auto. auto.
Qed.
(** a loop over the ranks in which [z] talks to one after the other *)
Lemma phase_fold {S C} n z (f : nat -> S -> proc M S) (q : nat -> proc M C) next c (I : S -> Prop) rs :
  NoDup rs -> ~ In z rs -> z < n -> (forall r, In r rs -> r < n) ->
  (forall r s, In r rs -> I s -> talk z r (f r s) (q r) (next r s) (c r) /\ I (next r s)) ->
  forall s, I s -> phase n z rs (foldRanks rs f s) q (fold_left (fun s r => next r s) rs s) c.
Proof.
  induction rs as [|r rs IH]; intros Nd Nz Hz Hn T s Is A P R0 R E0 E.
  - exists P. cbn in *. split; [apply runs_refl; auto|]. split; auto. split; [intros r []|auto].
  - inversion Nd as [|x l Nr Nd']; subst. cbn [foldRanks] in E0. apply leads_bind in E0.
    destruct (T r s (or_introl eq_refl) Is) as (T1 & I1).
    assert (Nrz : r <> z) by (intros ->; apply Nz; left; auto).
    destruct (runs_talk n z r _ _ _ _ T1 P _ (R r) Hz (Hn r (or_introl eq_refl)) (not_eq_sym Nrz) E0 (E r (or_introl eq_refl)))
      as (X & Y & U1 & U2 & U3).
    set (P' := putp r Y (putp z X P)) in *.
    destruct (IH Nd' (fun H => Nz (or_intror H)) Hz (fun x Hx => Hn x (or_intror Hx))
                (fun x y Hx => T x y (or_intror Hx)) (next r s) I1 A P' R0 R) as (Q & V1 & V2 & V3 & V4).
    + unfold P'. rewrite putp_ne, putp_eq; auto.
    + intros x Hx. unfold P'. rewrite !putp_ne; [apply E; right; auto| |]; intros ->; [apply Nz; right; auto|contradiction].
    + exists Q. split; [eapply runs_trans; eauto|]. split; [exact V2|]. split.
      * intros x [<-|Hx]; [|apply V3, Hx]. rewrite V4 by auto. unfold P'. rewrite putp_eq by auto. exact U3.
      * intros i Hi Hr. rewrite V4; [|auto|intros H; apply Hr; right; auto]. unfold P'.
        rewrite !putp_ne; auto. intros ->. apply Hr. left; auto.
Qed.
Lemma phase_for {C} n z (f : nat -> proc M unit) (q : nat -> proc M C) c rs :
  NoDup rs -> ~ In z rs -> z < n -> (forall r, In r rs -> r < n) ->
  (forall r, In r rs -> talk z r (f r) (q r) tt (c r)) ->
  phase n z rs (forRanks rs f) q tt c.
Proof.
  intros H1 H2 H3 H4 T. unfold forRanks.
  eapply phase_ext.
  - apply (phase_fold n z (fun r _ => f r) q (fun _ _ => tt) c (fun _ => True) rs H1 H2 H3 H4 (fun r s Hr _ => conj (T r Hr) I) tt I).
  - reflexivity.
  - destruct (fold_left (fun _ _ => tt) rs tt). reflexivity.
  - reflexivity.
  - reflexivity.
Qed.
(** all ranks *)
Lemma phase_ends {B C A} n (p : proc M B) (q : nat -> proc M C) b c (prog : nat -> proc M A) res : 0 < n ->
  phase n 0 (secondaries n) p q b c ->
  leads p (prog 0) (fun x X => x = b -> X = PRet (res 0)) ->
  (forall r, 0 < r < n -> leads (q r) (prog r) (fun x X => x = c r -> X = PRet (res r))) ->
  all_end n prog res.
Proof.
  intros Hn H H0 Hr. apply all_end_intro.
  destruct (H A prog _ (fun r x X => x = c r -> X = PRet (res r)) H0) as (Q & U1 & U2 & U3 & _).
  - intros r Hi. apply Hr. apply in_seq in Hi. lia.
  - eapply runs_ext; [reflexivity| |exact U1]. intros i Hi. cbn beta.
    destruct (Nat.eqb_spec i 0) as [->|N]; [auto|]. apply U3; auto. apply in_seq. lia.
Qed.
Lemma leads_const {A B} (p : proc M B) b (a : A) : leads p (bind p (fun _ => PRet a)) (fun x X => x = b -> X = PRet a).
Proof. eapply leads_mono; [|apply leads_intro]. cbn. auto. Qed.
Lemma leads_same {A} (p : proc M A) b : leads p p (fun x X => x = b -> X = PRet b).
Proof. eapply leads_mono; [|apply leads_self]. cbn. intros x X -> ->. reflexivity. Qed.
Lemma secondaries_ok n : NoDup (secondaries n) /\ ~ In 0 (secondaries n) /\ forall r, In r (secondaries n) -> r < n.
Proof.
  unfold secondaries. split; [apply seq_NoDup|]. split; [intros H; apply in_seq in H; lia|].
  intros r H. apply in_seq in H. lia.
Qed.
End Star.

(** two processes *)
Lemma talk_ends {M A} (p q : proc M A) a b : talk 0 1 p q a b -> always_ends [p; q] [a; b].
Proof.
  intros T.
  assert (G : forall c, c = [p; q] -> reaches (sstep once) c [PRet a; PRet b]).
  { induction T as [a b|m k g a b T IH|m k g a b T IH]; intros c ->.
    - exists []. constructor.
    - destruct (IH _ eq_refl) as (w & H). exists ((0, 1) :: w). econstructor; [|exact H].
      apply (ss_comm once 0 1 m k g [PSend 1 m k; PRecv 0 g]); auto.
    - destruct (IH _ eq_refl) as (w & H). exists ((1, 0) :: w). econstructor; [|exact H].
      apply (ss_comm once 1 0 m k g [PRecv 1 g; PSend 0 m k]); auto. }
  apply ends_intro. apply G. reflexivity.
Qed.

Lemma leads_quiet {M A B} (p : proc M A) b : leads p (quiet (B:=B) p) (fun x X => x = b -> X = PRet None).
Proof. apply leads_const. Qed.
Lemma talk_delivered {M A B} (p : proc M A) (q : proc M B) a x : talk 0 1 p q a x -> delivered p q x.
Proof.
  intros T. apply talk_ends. unfold quiet, report. eapply talk_bind; [exact T|]. constructor.
Qed.
Lemma phase_spread {M A B} n (p : proc M A) (q : nat -> proc M B) a x : 0 < n ->
  phase n 0 (secondaries n) p q a x -> spread n p q x.
Proof.
  intros Hn H. eapply phase_ends; [exact Hn|exact H| |].
  - apply leads_quiet.
  - intros r Hr. cbn beta. destruct (Nat.eqb_spec r 0); [lia|]. eapply leads_mono; [|apply leads_intro]. cbn. intros y X -> ->. reflexivity.
Qed.
