From Coq Require Import ZArith Bool List Lia Arith Sorted.
From Verif Require Import M_Net M_Time M_Cpl M_Comp S_Cpl S_Comp M_Fleet S_Fleet P_Sched.
Import ListNotations.
Open Scope Z_scope.

(** a message: sender, receiver, time and number *)
Record msgEv := Ev { ev_src : nat; ev_dst : nat; ev_t : Z; ev_k : Z }.
Notation before := (before ev_t ev_k).
Notation way := (way ev_src ev_dst).

Definition count1 (d : dspec) : nat := ((if d_sub d then 3 else 1) + (if d_grad d then 1 else 0))%nat.
Definition count (ds : list dspec) : nat := fold_right (fun d n => (count1 d + n)%nat) 0%nat ds.
Definition some (a b : nat) (t : Z) (from n : nat) : list msgEv := map (fun k => Ev a b t (Z.of_nat k)) (seq from n).
Lemma some_length a b t f n : length (some a b t f n) = n. Proof. unfold some. rewrite map_length, seq_length. reflexivity. Qed.
Lemma some_in a b t f n e : In e (some a b t f n) -> ev_src e = a /\ ev_dst e = b /\ ev_t e = t /\ (Z.of_nat f <= ev_k e < Z.of_nat (f + n)).
Proof. unfold some. intros H. apply in_map_iff in H as (k & <- & H). apply in_seq in H. cbn. lia. Qed.
Lemma some_sorted a b t n : forall f, StronglySorted before (some a b t f n).
Proof.
  induction n as [|n IH]; intros f; cbn; constructor; [apply IH|]. apply Forall_forall. intros e H. change (In e (some a b t (S f) n)) in H. apply some_in in H. unfold P_Sched.before. cbn. lia.
Qed.

Section Plan.
Variable tt : timetable.
Variable cs : list coupling.
Notation P := (tt_period tt).
Definition dataBlock (p : nat * coupling) (b : Z) : list msgEv := some (cp_first (snd p)) (cp_second (snd p)) (tt_data tt (fst p) + b * P) 0 (count (c_send (cp_A (snd p)))).
Definition answerBlock (p : nat * coupling) (b : Z) : list msgEv := some (cp_second (snd p)) (cp_first (snd p)) (tt_answer tt (fst p) + b * P) 0 (count (c_send (cp_B (snd p)))).
Definition initA (x : coupling) : nat := if sendsInitialized (cp_A x) then count (c_send (cp_A x)) else 0%nat.
Definition initB (x : coupling) : nat := if sendsInitialized (cp_B x) then count (c_send (cp_B x)) else 0%nat.
Definition initBlock (p : nat * coupling) : list msgEv :=
  let x := snd p in let t := tt_initial tt (fst p) in
  match cp_kind x with
  | Serial => some (cp_second x) (cp_first x) t 0 (initB x) ++ some (cp_first x) (cp_second x) t (initB x) (initA x)
  | Parallel => some (cp_first x) (cp_second x) t 0 (initA x) ++ some (cp_second x) (cp_first x) t (initA x) (initB x)
  end.
Definition earlyBlock (i : nat) (b : Z) (p : nat * coupling) : list msgEv := if waits i (snd p) then answerBlock p b else dataBlock p b.
Definition lateBlock (i : nat) (b : Z) (more : bool) (p : nat * coupling) : list msgEv :=
  if waits i (snd p) then (if more then dataBlock p (b + 1) else []) else answerBlock p b.
Definition startBlock (i : nat) (p : nat * coupling) : list msgEv := initBlock p ++ (if waits i (snd p) then dataBlock p 0 else []).

(** what participant [i] exchanges in [m] windows from number [b] on *)
Definition more (m : nat) : bool := match m with O => false | _ => true end.
Fixpoint windows (i : nat) (m : nat) (b : Z) : list msgEv :=
  match m with
  | O => []
  | S m' => flat_map (earlyBlock i b) (mine cs i) ++ flat_map (lateBlock i b (more m')) (mine cs i) ++ windows i m' (b + 1)
  end.
Definition plan (i : nat) (N : nat) : list msgEv := flat_map (startBlock i) (mine cs i) ++ windows i N 0.

(** * Elements *)
Definition window_msg (p : nat * coupling) (lo hi : Z) (e : msgEv) : Prop := exists b, lo <= b < hi /\ (In e (dataBlock p b) \/ In e (answerBlock p b)).
Lemma windows_in i e : forall m b, In e (windows i m b) <->
  exists p, In p (mine cs i) /\ exists c, b <= c < b + Z.of_nat m /\ (In e (answerBlock p c) \/ (if waits i (snd p) then b < c else True) /\ In e (dataBlock p c)).
Proof.
  induction m as [|m IH]; intros b.
  - cbn. split; [intros []|]. intros (p & _ & c & H & _). lia.
  - cbn [windows]. rewrite !in_app_iff, IH, !in_flat_map. unfold earlyBlock, lateBlock. split.
    + intros [(p & Hp & H)|[(p & Hp & H)|(p & Hp & c & Hc & H)]]; exists p; (split; [exact Hp|]).
      * exists b. split; [lia|]. destruct (waits i (snd p)); [left; exact H|right; auto].
      * destruct (waits i (snd p)); [|exists b; split; [lia|left; exact H]]. destruct m; [destruct H|]. exists (b + 1). split; [lia|]. right. split; [lia|exact H].
      * exists c. split; [lia|]. destruct H as [H|[H1 H2]]; [left; exact H|]. right. split; [destruct (waits i (snd p)); [lia|exact I]|exact H2].
    + intros (p & Hp & c & Hc & H). destruct (Z.eq_dec c b) as [->|Nc].
      * destruct H as [H|[H1 H2]].
        -- destruct (waits i (snd p)) eqn:W; [left|right; left]; exists p; rewrite W; auto.
        -- destruct (waits i (snd p)) eqn:W; [lia|]. left. exists p. rewrite W. auto.
      * destruct H as [H|[H1 H2]].
        -- right. right. exists p. split; [exact Hp|]. exists c. split; [lia|]. left. exact H.
        -- destruct (waits i (snd p)) eqn:W.
           ++ destruct (Z.eq_dec c (b + 1)) as [->|Nc'].
              ** right. left. exists p. rewrite W. destruct m; [lia|]. auto.
              ** right. right. exists p. split; [exact Hp|]. exists c. split; [lia|]. right. rewrite W. split; [lia|exact H2].
           ++ right. right. exists p. split; [exact Hp|]. exists c. split; [lia|]. right. rewrite W. auto.
Qed.
Lemma plan_in i N e : (0 < N)%nat -> In e (plan i N) <-> exists p, In p (mine cs i) /\ (In e (initBlock p) \/ window_msg p 0 (Z.of_nat N) e).
Proof.
  intros HN. unfold plan. rewrite in_app_iff, windows_in, in_flat_map. unfold startBlock, window_msg. split.
  - intros [(p & Hp & H)|(p & Hp & c & Hc & H)]; exists p; (split; [exact Hp|]).
    + apply in_app_iff in H as [H|H]; [left; exact H|]. right. destruct (waits i (snd p)); [|destruct H]. exists 0. split; [lia|auto].
    + right. exists c. split; [lia|]. destruct H as [H|[_ H]]; auto.
  - intros (p & Hp & [H|(b & Hb & H)]).
    + left. exists p. split; [exact Hp|]. apply in_app_iff. left. exact H.
    + destruct H as [H|H].
      * destruct (waits i (snd p)) eqn:W; [|right; exists p; split; [exact Hp|]; exists b; split; [lia|]; right; rewrite W; auto].
        destruct (Z.eq_dec b 0) as [->|Nb]; [left; exists p; split; [exact Hp|]; rewrite W; apply in_app_iff; right; exact H|].
        right. exists p. split; [exact Hp|]. exists b. split; [lia|]. right. rewrite W. split; [lia|exact H].
      * right. exists p. split; [exact Hp|]. exists b. split; [lia|]. left. exact H.
Qed.
Definition between (x : coupling) (e : msgEv) : Prop := ev_src e = cp_first x /\ ev_dst e = cp_second x \/ ev_src e = cp_second x /\ ev_dst e = cp_first x.
Lemma block_between p e : In e (initBlock p) \/ (exists b, In e (dataBlock p b) \/ In e (answerBlock p b)) -> between (snd p) e.
Proof.
  unfold between. intros [H|(b & [H|H])].
  - unfold initBlock in H. destruct (cp_kind (snd p)); apply in_app_iff in H as [H|H]; apply some_in in H; intuition.
  - apply some_in in H. intuition.
  - apply some_in in H. intuition.
Qed.
Lemma mine_in i p : In p (mine cs i) <-> In p (combine (seq 0 (length cs)) cs) /\ (cp_first (snd p) = i \/ cp_second (snd p) = i).
Proof. unfold mine. rewrite filter_In, orb_true_iff, !Nat.eqb_eq. reflexivity. Qed.
Lemma mine_coupling i p : In p (mine cs i) -> In (snd p) cs.
Proof. intros H. apply mine_in in H as [H _]. destruct p as [s x]. apply in_combine_r in H. exact H. Qed.
Lemma plan_own i N e : (0 < N)%nat -> In e (plan i N) -> exists x, In x cs /\ between x e /\ (cp_first x = i \/ cp_second x = i).
Proof.
  intros HN H. apply plan_in in H as (p & Hp & H); [|exact HN]. exists (snd p). split; [exact (mine_coupling _ _ Hp)|]. split; [|apply mine_in in Hp; apply Hp].
  apply block_between. destruct H as [H|(b & _ & H)]; [left; exact H|right; exists b; exact H].
Qed.
(** both ends of a message have it in their plan *)
Lemma plan_both i j N e : (0 < N)%nat -> ev_src e = i /\ ev_dst e = j \/ ev_src e = j /\ ev_dst e = i -> In e (plan i N) -> In e (plan j N).
Proof.
  intros HN B H. apply plan_in in H as (p & Hp & H); [|exact HN]. apply plan_in; [exact HN|]. exists p. split; [|exact H].
  assert (Bt : between (snd p) e) by (apply block_between; destruct H as [H|(b & _ & H)]; [left; exact H|right; exists b; exact H]).
  apply mine_in. apply mine_in in Hp as [Hp _]. split; [exact Hp|]. unfold between in Bt. intuition congruence.
Qed.

(** * Order *)
Lemma sorted_app {A} (R : A -> A -> Prop) l r : StronglySorted R l -> StronglySorted R r -> (forall a b, In a l -> In b r -> R a b) -> StronglySorted R (l ++ r).
Proof.
  induction l as [|a l IH]; intros H1 H2 H; [exact H2|]. inversion H1 as [|? ? H3 H4]; subst. cbn [app]. constructor; [apply IH; auto; intros; apply H; [right|]; assumption|].
  apply Forall_app. split; [exact H4|]. apply Forall_forall. intros b Hb. apply H; [left; reflexivity|exact Hb].
Qed.
Lemma sorted_app_inv {A} (R : A -> A -> Prop) l r : StronglySorted R (l ++ r) -> StronglySorted R l /\ StronglySorted R r /\ (forall a b, In a l -> In b r -> R a b).
Proof.
  induction l as [|a l IH]; cbn [app]; intros H; [split; [constructor|split; [exact H|intros ? ? []]]|]. inversion H as [|? ? H1 H2]; subst. destruct (IH H1) as (A1 & A2 & A3). apply Forall_app in H2 as [B1 B2].
  split; [constructor; assumption|]. split; [exact A2|]. intros x b [<-|Hx] Hb; [rewrite Forall_forall in B2; auto|auto].
Qed.
(** blocks at increasing times *)
Lemma sorted_blocks {X} (f : X -> list msgEv) (g : X -> Z) : forall l, StronglySorted Z.lt (map g l) -> (forall x, In x l -> StronglySorted before (f x) /\ forall e, In e (f x) -> ev_t e = g x) ->
  StronglySorted before (flat_map f l).
Proof.
  induction l as [|x l IH]; intros H1 H2; cbn [flat_map]; [constructor|]. cbn [map] in H1. inversion H1 as [|? ? H3 H4]; subst. apply sorted_app.
  - apply H2. left. reflexivity.
  - apply IH; [exact H3|]. intros y Hy. apply H2. right. exact Hy.
  - intros a b Ha Hb. apply in_flat_map in Hb as (y & Hy & Hb). left. rewrite (proj2 (H2 x (or_introl eq_refl)) a Ha), (proj2 (H2 y (or_intror Hy)) b Hb).
    rewrite Forall_forall in H4. apply H4, in_map, Hy.
Qed.
Lemma sorted_shift c l : StronglySorted Z.lt l -> StronglySorted Z.lt (map (fun z => z + c) l).
Proof. induction 1 as [|a l H IH F]; cbn; constructor; [exact IH|]. apply Forall_map. revert F. apply Forall_impl. intros; lia. Qed.

Variable i : nat.
Let l := mine cs i.
Hypothesis K1 : StronglySorted Z.lt (map (early tt i) l ++ map (late tt i) l).
Hypothesis K2 : forall p q, In p l -> In q l -> late tt i p < early tt i q + P.
Hypothesis K3 : StronglySorted Z.lt (flat_map (at_start tt i) l).
Hypothesis K4 : forall t q, In t (flat_map (at_start tt i) l) -> In q l -> t < early tt i q.

Lemma early_block b p : StronglySorted before (earlyBlock i b p) /\ forall e, In e (earlyBlock i b p) -> ev_t e = early tt i p + b * P.
Proof. unfold earlyBlock, early. destruct (waits i (snd p)); (split; [apply some_sorted|]); intros e H; apply some_in in H; lia. Qed.
Lemma late_block b m p : StronglySorted before (lateBlock i b m p) /\ forall e, In e (lateBlock i b m p) -> ev_t e = late tt i p + b * P.
Proof.
  unfold lateBlock, late. destruct (waits i (snd p)); [destruct m|].
  - split; [apply some_sorted|]. intros e H. apply some_in in H. lia.
  - split; [constructor|intros e []].
  - split; [apply some_sorted|]. intros e H. apply some_in in H. lia.
Qed.
Lemma early_sorted b : StronglySorted before (flat_map (earlyBlock i b) l).
Proof.
  apply sorted_blocks with (g := fun p => early tt i p + b * P); [|intros p _; apply early_block]. apply sorted_app_inv in K1 as (H & _ & _). apply (sorted_shift (b * P)) in H. rewrite map_map in H. exact H.
Qed.
Lemma late_sorted b m : StronglySorted before (flat_map (lateBlock i b m) l).
Proof.
  apply sorted_blocks with (g := fun p => late tt i p + b * P); [|intros p _; apply late_block]. apply sorted_app_inv in K1 as (_ & H & _). apply (sorted_shift (b * P)) in H. rewrite map_map in H. exact H.
Qed.
Lemma period_pos p : In p l -> 0 < P.
Proof. intros H. pose proof (K2 p p H H). apply sorted_app_inv in K1 as (_ & _ & Q). specialize (Q _ _ (in_map (early tt i) _ _ H) (in_map (late tt i) _ _ H)). lia. Qed.
Lemma windows_time e : forall m b, In e (windows i m b) -> exists q, In q l /\ early tt i q + b * P <= ev_t e.
Proof.
  induction m as [|m IH]; intros b H; [destruct H|]. cbn [windows] in H. apply in_app_iff in H as [H|H]; [|apply in_app_iff in H as [H|H]].
  - apply in_flat_map in H as (p & Hp & H). exists p. split; [exact Hp|]. rewrite (proj2 (early_block b p) e H). lia.
  - apply in_flat_map in H as (p & Hp & H). exists p. split; [exact Hp|]. rewrite (proj2 (late_block _ _ p) e H). pose proof K1 as K. apply sorted_app_inv in K as (_ & _ & Q). specialize (Q _ _ (in_map (early tt i) _ _ Hp) (in_map (late tt i) _ _ Hp)). lia.
  - destruct (IH _ H) as (q & Hq & L). exists q. split; [exact Hq|]. pose proof (period_pos q Hq). lia.
Qed.
Lemma windows_sorted : forall m b, StronglySorted before (windows i m b).
Proof.
  induction m as [|m IH]; intros b; cbn [windows]; [constructor|]. apply sorted_app; [apply early_sorted|apply sorted_app; [apply late_sorted|apply IH|]|].
  - intros x y Hx Hy. apply in_flat_map in Hx as (p & Hp & Hx). destruct (windows_time y _ _ Hy) as (q & Hq & L). left. rewrite (proj2 (late_block _ _ p) x Hx). pose proof (K2 p q Hp Hq). lia.
  - intros x y Hx Hy. apply in_flat_map in Hx as (p & Hp & Hx). left. rewrite (proj2 (early_block b p) x Hx). pose proof K1 as K. apply sorted_app_inv in K as (_ & _ & Q). apply in_app_iff in Hy as [Hy|Hy].
    + apply in_flat_map in Hy as (q & Hq & Hy). rewrite (proj2 (late_block _ _ q) y Hy). specialize (Q _ _ (in_map (early tt i) _ _ Hp) (in_map (late tt i) _ _ Hq)). lia.
    + destruct (windows_time y _ _ Hy) as (q & Hq & L). specialize (Q _ _ (in_map (early tt i) _ _ Hp) (in_map (late tt i) _ _ Hp)). pose proof (K2 p q Hp Hq). lia.
Qed.
Lemma init_block p : StronglySorted before (initBlock p) /\ (forall e, In e (initBlock p) -> ev_t e = tt_initial tt (fst p)) /\ (initialized (snd p) = false -> initBlock p = []).
Proof.
  unfold initBlock, initialized. split; [|split].
  - destruct (cp_kind (snd p)); (apply sorted_app; [apply some_sorted|apply some_sorted|]); intros a b Ha Hb; apply some_in in Ha; apply some_in in Hb; right; lia.
  - intros e. destruct (cp_kind (snd p)); rewrite in_app_iff; intros [H|H]; apply some_in in H; tauto.
  - intros H. apply orb_false_iff in H as [HA HB]. unfold initA, initB. rewrite HA, HB. destruct (cp_kind (snd p)); reflexivity.
Qed.
Lemma start_time p e : In e (startBlock i p) -> In (ev_t e) (at_start tt i p).
Proof.
  unfold startBlock, at_start. rewrite !in_app_iff. destruct (init_block p) as (_ & A & B). intros [H|H].
  - left. rewrite (A e H). destruct (initialized (snd p)); [left; reflexivity|]. rewrite B in H by reflexivity. destruct H.
  - right. destruct (waits i (snd p)); [|destruct H]. apply some_in in H. left. lia.
Qed.
Lemma start_sorted : StronglySorted before (flat_map (startBlock i) l).
Proof.
  revert K3. generalize l. induction l0 as [|p r IH]; intros H; cbn [flat_map] in *; [constructor|]. apply sorted_app_inv in H as (A & B & C). apply sorted_app; [|apply IH, B|].
  - unfold startBlock. destruct (init_block p) as (I1 & I2 & I3). apply sorted_app; [exact I1|destruct (waits i (snd p)); [apply some_sorted|constructor]|].
    intros x y Hx Hy. left. destruct (waits i (snd p)) eqn:W; [|destruct Hy]. rewrite (I2 x Hx). apply some_in in Hy. destruct Hy as (_ & _ & -> & _).
    unfold at_start in A. rewrite W in A. destruct (initialized (snd p)); [|rewrite I3 in Hx by reflexivity; destruct Hx]. cbn in A. inversion A as [|? ? _ F]; subst. inversion F; subst. lia.
  - intros x y Hx Hy. apply in_flat_map in Hy as (q & Hq & Hy). left. apply C; [apply start_time, Hx|]. apply in_flat_map. exists q. split; [exact Hq|apply start_time, Hy].
Qed.
Lemma plan_sorted N : StronglySorted before (plan i N).
Proof.
  unfold plan. apply sorted_app; [exact start_sorted|apply windows_sorted|]. intros x y Hx Hy. apply in_flat_map in Hx as (p & Hp & Hx). destruct (windows_time y _ _ Hy) as (q & Hq & L). left.
  assert (ev_t x < early tt i q) by (apply K4; [apply in_flat_map; exists p; split; [exact Hp|apply start_time, Hx]|exact Hq]). lia.
Qed.
End Plan.

(** sorted lists with the same elements are equal *)
Lemma sorted_unique : forall l r, StronglySorted before l -> StronglySorted before r -> (forall e, In e l <-> In e r) -> l = r.
Proof.
  induction l as [|a l IH]; intros r Hl Hr H.
  - destruct r as [|b r]; [reflexivity|]. destruct (proj2 (H b) (or_introl eq_refl)).
  - destruct r as [|b r]; [destruct (proj1 (H a) (or_introl eq_refl))|]. inversion Hl as [|? ? L1 L2]; subst. inversion Hr as [|? ? R1 R2]; subst. rewrite Forall_forall in L2, R2.
    assert (N : forall x, ~ before x x) by (unfold P_Sched.before; intros; lia).
    assert (a = b). { destruct (proj1 (H a) (or_introl eq_refl)) as [->|Ha]; [reflexivity|]. destruct (proj2 (H b) (or_introl eq_refl)) as [->|Hb]; [reflexivity|]. specialize (R2 _ Ha). specialize (L2 _ Hb). unfold P_Sched.before in *. lia. }
    subst b. f_equal. apply IH; auto. intros e. split; intros He.
    + destruct (proj1 (H e) (or_intror He)) as [<-|X]; [|exact X]. destruct (N _ (L2 _ He)).
    + destruct (proj2 (H e) (or_intror He)) as [<-|X]; [|exact X]. destruct (N _ (R2 _ He)).
Qed.
Lemma sorted_filter (f : msgEv -> bool) l : StronglySorted before l -> StronglySorted before (filter f l).
Proof. induction 1 as [|a l H IH F]; cbn; [constructor|]. destruct (f a); [|exact IH]. constructor; [exact IH|]. rewrite Forall_forall in *. intros x Hx. apply filter_In in Hx. apply F, Hx. Qed.
Lemma plan_match tt cs i j N : (0 < N)%nat -> kept tt cs -> way i j (plan tt cs j N) = way i j (plan tt cs i N).
Proof.
  intros HN K. destruct (K i) as (A1 & A2 & A3 & A4). destruct (K j) as (B1 & B2 & B3 & B4). apply sorted_unique.
  - apply sorted_filter, plan_sorted; assumption.
  - apply sorted_filter, plan_sorted; assumption.
  - intros e. unfold P_Sched.way. rewrite !filter_In, !andb_true_iff, !Nat.eqb_eq. split; intros (H & H1 & H2); (split; [|auto]); (eapply plan_both; [exact HN| |exact H]); auto.
Qed.
