(** Confluence of the process calculus: whatever the schedule, a network whose
    canonical schedule always makes progress never deadlocks and never fails. *)
From Coq Require Import List Arith Lia.
From Verif Require Import M_Net.
Import ListNotations.

(** * List update *)
Lemma upd_length {A} n (x : A) l : length (upd n x l) = length l.
Proof. revert n; induction l; intros [|n]; simpl; auto. Qed.

Lemma nth_upd_eq {A} n (x : A) l : n < length l -> nth_error (upd n x l) n = Some x.
Proof. revert n; induction l; intros [|n]; simpl; intros; try lia; auto. apply IHl; lia. Qed.

Lemma nth_upd_ne {A} n m (x : A) l : n <> m -> nth_error (upd n x l) m = nth_error l m.
Proof.
  revert n m; induction l; intros [|n] [|m]; simpl; intros; auto; try congruence.
Qed.

Lemma upd_comm {A} n m (x y : A) l : n <> m -> upd n x (upd m y l) = upd m y (upd n x l).
Proof.
  revert n m; induction l; intros [|n] [|m]; simpl; intros; auto; try congruence.
  f_equal; apply IHl; congruence.
Qed.

Lemma upd_same {A} n (x : A) l : nth_error l n = Some x -> upd n x l = l.
Proof.
  revert n; induction l; intros [|n]; simpl; intros; try congruence.
  f_equal; auto.
Qed.

Lemma upd_upd {A} n (x y : A) l : upd n x (upd n y l) = upd n x l.
Proof. revert n; induction l; intros [|n]; simpl; auto. f_equal; auto. Qed.

Lemma nth_error_lt {A} (l : list A) n x : nth_error l n = Some x -> n < length l.
Proof. intros H; apply nth_error_Some; congruence. Qed.

Lemma nth_upd_def {A} n (x d : A) l : n < length l -> nth n (upd n x l) d = x.
Proof. revert n; induction l; intros [|n]; simpl; intros; try lia; auto. apply IHl; lia. Qed.

Lemma nth_upd_def_ne {A} n m (x d : A) l : n <> m -> nth m (upd n x l) d = nth m l d.
Proof.
  revert n m; induction l; intros [|n] [|m]; simpl; intros; auto; try congruence.
Qed.

(** * Abstract deterministic diamond systems *)
Section Abstract.
Context {L C : Type}.
Variable step : L -> C -> C -> Prop.
Variable ldec : forall a b : L, {a = b} + {a <> b}.
Hypothesis det : forall l c c1 c2, step l c c1 -> step l c c2 -> c1 = c2.
Hypothesis diamond : forall l1 l2 c c1 c2, l1 <> l2 -> step l1 c c1 -> step l2 c c2 ->
  exists d, step l2 c1 d /\ step l1 c2 d.

Lemma lrun_app w1 w2 c1 c2 c3 :
  lrun step w1 c1 c2 -> lrun step w2 c2 c3 -> lrun step (w1 ++ w2) c1 c3.
Proof. induction 1; simpl; intros; auto. econstructor; eauto. Qed.

Lemma catch_up w : forall l c c' k,
  step l c c' -> lrun step w c k -> In l w -> exists w', lrun step w' c' k.
Proof.
  induction w as [|a w IH]; intros l c c' k Hs Hr Hin; [inversion Hin|].
  inversion Hr as [|a0 w0 x1 x2 x3 Ha Hb]; subst.
  destruct (ldec a l) as [->|Hne].
  - rewrite (det _ _ _ _ Hs Ha). eauto.
  - destruct Hin as [?|Hin]; [congruence|].
    destruct (diamond _ _ _ _ _ Hne Ha Hs) as [d [Hd1 Hd2]].
    destruct (IH _ _ _ _ Hd1 Hb Hin) as [w' Hw'].
    exists (a :: w'). econstructor; eauto.
Qed.

Lemma step_commute w : forall l c c' k,
  step l c c' -> lrun step w c k -> ~ In l w -> exists k', lrun step w c' k' /\ step l k k'.
Proof.
  induction w as [|a w IH]; intros l c c' k Hs Hr Hin.
  - inversion Hr; subst. exists c'. split; [constructor|auto].
  - inversion Hr as [|a0 w0 x1 x2 x3 Ha Hb]; subst.
    destruct (ldec a l) as [->|Hne]; [exfalso; apply Hin; left; auto|].
    destruct (diamond _ _ _ _ _ Hne Ha Hs) as [d [Hd1 Hd2]].
    destruct (IH _ _ _ _ Hd1 Hb) as [k' [Hk1 Hk2]].
    { intro; apply Hin; right; auto. }
    exists k'. split; auto. econstructor; eauto.
Qed.

(** [K] holds of the states reached by the canonical schedule.  From each
    such state the canonical schedule reaches another one and every step that
    was possible is taken on the way. *)
Variable K : C -> Prop.
Hypothesis Hcanon : forall c, K c ->
  (forall l c', ~ step l c c') \/
  exists w c', lrun step w c c' /\ K c' /\ forall l c1, step l c c1 -> In l w.

Lemma always_completes c0 c : K c0 -> reaches step c0 c -> exists k, reaches step c k /\ K k.
Proof.
  intros HK [w Hw]. 
  assert (G : forall w c1 c2, lrun step w c1 c2 -> (exists k, reaches step c1 k /\ K k) ->
    exists k, reaches step c2 k /\ K k).
  { clear - det diamond Hcanon ldec. intros w c1 c2 H. induction H; auto.
    intros [k [[v Hv] Hk]]. apply IHlrun. clear IHlrun H0.
    destruct (in_dec ldec l v) as [Hin|Hnin].
    - destruct (catch_up _ _ _ _ _ H Hv Hin) as [w' Hw']. exists k; split; auto. exists w'; auto.
    - destruct (step_commute _ _ _ _ _ H Hv Hnin) as [k' [Hk' Hs]].
      destruct (Hcanon k Hk) as [Hstuck|[u [k2 [Hu [Hk2 Hcov]]]]].
      + exfalso. eapply Hstuck; eauto.
      + destruct (catch_up _ _ _ _ _ Hs Hu (Hcov _ _ Hs)) as [w' Hw'].
        exists k2. split; auto. exists (v ++ w'). eapply lrun_app; eauto. }
  eapply G; eauto. exists c0. split; auto. exists []. constructor.
Qed.

End Abstract.

(** * Rendezvous semantics *)
Section Sync.
Context {M S : Type}.
Variable body : nat -> S -> option (proc M S).
Notation sstep := (sstep body).
Notation astep := (astep body).

Definition pair_dec (a b : nat * nat) : {a = b} + {a <> b}.
Proof. decide equality; apply Nat.eq_dec. Defined.

Lemma sstep_det l c c1 c2 : sstep l c c1 -> sstep l c c2 -> c1 = c2.
Proof.
  intros H1 H2. inversion H1; subst; inversion H2; subst; try congruence.
Qed.

Lemma sstep_diamond l1 l2 c c1 c2 : l1 <> l2 -> sstep l1 c c1 -> sstep l2 c c2 ->
  exists d, sstep l2 c1 d /\ sstep l1 c2 d.
Proof.
  intros Hne H1 H2.
  inversion H1 as [i j m ki kj ? Hij Hi Hj|i s p ? Hi Hb]; subst;
  inversion H2 as [i' j' m' ki' kj' ? Hij' Hi' Hj'|i' s' p' ? Hi' Hb']; subst.
  - assert (i <> i') by (intros ->; congruence).
    assert (j <> j') by (intros ->; congruence).
    assert (i <> j') by (intros ->; congruence).
    assert (j <> i') by (intros ->; congruence).
    exists (upd j' (kj' m') (upd i' ki' (upd j (kj m) (upd i ki c)))). split.
    + constructor; auto; rewrite !nth_upd_ne; auto.
    + rewrite (upd_comm i' j), (upd_comm j' j), (upd_comm i' i), (upd_comm j' i) by auto.
      constructor; auto; rewrite !nth_upd_ne; auto.
  - assert (i <> i') by (intros ->; congruence).
    assert (j <> i') by (intros ->; congruence).
    exists (upd i' p' (upd j (kj m) (upd i ki c))). split.
    + econstructor; eauto; rewrite !nth_upd_ne; auto.
    + rewrite (upd_comm i' j), (upd_comm i' i) by auto.
      constructor; auto; rewrite !nth_upd_ne; auto.
  - assert (i <> i') by (intros ->; congruence).
    assert (i <> j') by (intros ->; congruence).
    exists (upd j' (kj' m') (upd i' ki' (upd i p c))). split.
    + constructor; auto; rewrite !nth_upd_ne; auto.
    + rewrite (upd_comm i' i), (upd_comm j' i) by auto.
      econstructor; eauto; rewrite !nth_upd_ne; auto.
  - assert (i <> i') by (intros ->; congruence).
    exists (upd i' p' (upd i p c)). split.
    + econstructor; eauto; rewrite !nth_upd_ne; auto.
    + rewrite (upd_comm i' i) by auto.
      econstructor; eauto; rewrite !nth_upd_ne; auto.
Qed.

Lemma sstep_length l c c' : sstep l c c' -> length c' = length c.
Proof. inversion 1; subst; rewrite ?upd_length; auto. Qed.

Lemma srun_length w c c' : lrun sstep w c c' -> length c' = length c.
Proof. induction 1; auto. apply sstep_length in H. congruence. Qed.

(** ** Buffered semantics *)
Definition achlen (x : net (M:=M) (S:=S) * chans (M:=M)) := length (snd x) = length (fst x) * length (fst x).

Lemma chidx_inj n i j i' j' : j < n -> j' < n -> chidx n i j = chidx n i' j' -> i = i' /\ j = j'.
Proof. unfold chidx; intros. assert (i = i') by nia. subst. split; auto. nia. Qed.

Lemma chidx_lt n i j : i < n -> j < n -> chidx n i j < n * n.
Proof. unfold chidx; nia. Qed.

Lemma chget_set_eq n i j l (q : chans (M:=M)) : i < n -> j < n -> length q = n * n ->
  chget n i j (chset n i j l q) = l.
Proof. intros. unfold chget, chset. apply nth_upd_def. rewrite H1. apply chidx_lt; auto. Qed.

Lemma chget_set_ne n i j i' j' l (q : chans (M:=M)) : j < n -> j' < n -> (i, j) <> (i', j') ->
  chget n i' j' (chset n i j l q) = chget n i' j' q.
Proof.
  intros. unfold chget, chset. apply nth_upd_def_ne. intro E.
  apply chidx_inj in E; auto. destruct E; subst; congruence.
Qed.

Lemma chset_comm n i j i' j' l l' (q : chans (M:=M)) : j < n -> j' < n -> (i, j) <> (i', j') ->
  chset n i j l (chset n i' j' l' q) = chset n i' j' l' (chset n i j l q).
Proof.
  intros. unfold chset. apply upd_comm. intro E. apply chidx_inj in E; auto.
  destruct E; subst; congruence.
Qed.

Lemma chset_set n i j l l' (q : chans (M:=M)) : chset n i j l (chset n i j l' q) = chset n i j l q.
Proof. apply upd_upd. Qed.

Lemma chset_length n i j l (q : chans (M:=M)) : length (chset (M:=M) n i j l q) = length q.
Proof. apply upd_length. Qed.

Lemma chset_same n i j (q : chans (M:=M)) : i < n -> j < n -> length q = n * n ->
  chset n i j (chget n i j q) q = q.
Proof.
  intros. unfold chset, chget. apply upd_same. 
  apply nth_error_nth'. rewrite H1. apply chidx_lt; auto.
Qed.

Lemma astep_inv l x x' : astep l x x' -> achlen x -> achlen x' /\ length (fst x') = length (fst x).
Proof.
  inversion 1; subst; unfold achlen; simpl; intros; rewrite ?upd_length, ?chset_length; auto.
Qed.

Lemma astep_det l c c1 c2 : astep l c c1 -> astep l c c2 -> c1 = c2.
Proof.
  intros H1 H2. inversion H1; subst; inversion H2; subst; try congruence.
Qed.

(** steps restricted to well-formed channel stores *)
Definition wstep l (x y : net (M:=M) (S:=S) * chans (M:=M)) := achlen x /\ astep l x y.

Lemma wstep_det l c c1 c2 : wstep l c c1 -> wstep l c c2 -> c1 = c2.
Proof. intros [_ ?] [_ ?]. eapply astep_det; eauto. Qed.

Ltac csimp := rewrite ?nth_upd_ne, ?upd_length, ?chget_set_ne by (auto; congruence); auto.

Lemma wstep_diamond l1 l2 c c1 c2 : l1 <> l2 -> wstep l1 c c1 -> wstep l2 c c2 ->
  exists d, wstep l2 c1 d /\ wstep l1 c2 d.
Proof.
  intros Hne [Hlen H1] [_ H2].
  destruct (astep_inv _ _ _ H1 Hlen) as [Hl1 Hn1].
  destruct (astep_inv _ _ _ H2 Hlen) as [Hl2 Hn2].
  unfold wstep.
  cut (exists d, astep l2 c1 d /\ astep l1 c2 d).
  { intros [d [? ?]]. exists d. tauto. }
  unfold achlen in Hlen.
  inversion H1 as [i j m k c0 q Hij Hj Hi|i j m k c0 q r Hij Hj Hi Hq|i s p c0 q Hi Hb]; subst;
  inversion H2 as [i' j' m' k' c0' q' Hij' Hj' Hi'|i' j' m' k' c0' q' r' Hij' Hj' Hi' Hq'|i' s' p' c0' q' Hi' Hb']; subst;
  simpl in *;
  assert (Hl1' : l1 < length c0) by (eapply nth_error_lt; eauto);
  assert (Hl2' : l2 < length c0) by (eapply nth_error_lt; eauto).
  - (* send send *)
    exists (upd l1 k (upd l2 k' c0), chset (length c0) l1 j (chget (length c0) l1 j q ++ [m]) (chset (length c0) l2 j' (chget (length c0) l2 j' q ++ [m']) q)). split.
    { pose proof (as_send body l2 j' m' k' (upd l1 k c0) (chset (length c0) l1 j (chget (length c0) l1 j q ++ [m]) q)) as X.
      rewrite upd_length in X. rewrite chget_set_ne in X by (auto; congruence).
      rewrite (upd_comm l1 l2), (chset_comm _ l1 j) by (auto; congruence). apply X; csimp. }
    { pose proof (as_send body l1 j m k (upd l2 k' c0) (chset (length c0) l2 j' (chget (length c0) l2 j' q ++ [m']) q)) as X.
      rewrite upd_length in X. rewrite chget_set_ne in X by (auto; congruence). apply X; csimp. }
  - (* send recv *)
    destruct (Nat.eq_dec l1 j') as [->|Hn1'].
    + destruct (Nat.eq_dec j l2) as [->|Hn2'].
      * (* same channel *)
        exists (upd l2 (k' m') (upd j' k c0), chset (length c0) j' l2 (r' ++ [m]) q). split.
        { pose proof (as_recv body l2 j' m' k' (upd j' k c0)
            (chset (length c0) j' l2 (chget (length c0) j' l2 q ++ [m]) q) (r' ++ [m])) as X.
          rewrite upd_length in X. rewrite chset_set in X. apply X; csimp.
          rewrite chget_set_eq; auto. rewrite Hq'. reflexivity. }
        { pose proof (as_send body j' l2 m k (upd l2 (k' m') c0) (chset (length c0) j' l2 r' q)) as X.
          rewrite upd_length in X. rewrite chset_set, chget_set_eq in X by auto.
          rewrite (upd_comm l2 j') by auto. apply X; csimp. }
      * exists (upd j' k (upd l2 (k' m') c0), chset (length c0) j' j (chget (length c0) j' j q ++ [m]) (chset (length c0) j' l2 r' q)). split.
        { pose proof (as_recv body l2 j' m' k' (upd j' k c0) (chset (length c0) j' j (chget (length c0) j' j q ++ [m]) q) r') as X.
          rewrite upd_length in X. 
          rewrite (upd_comm j' l2), (chset_comm _ j' j) by (auto; congruence). apply X; csimp. }
        { pose proof (as_send body j' j m k (upd l2 (k' m') c0) (chset (length c0) j' l2 r' q)) as X.
          rewrite upd_length in X. rewrite chget_set_ne in X by (auto; congruence). apply X; csimp. }
    + exists (upd l1 k (upd l2 (k' m') c0), chset (length c0) l1 j (chget (length c0) l1 j q ++ [m]) (chset (length c0) j' l2 r' q)). split.
        { pose proof (as_recv body l2 j' m' k' (upd l1 k c0) (chset (length c0) l1 j (chget (length c0) l1 j q ++ [m]) q) r') as X.
          rewrite upd_length in X. 
          rewrite (upd_comm l1 l2), (chset_comm _ l1 j) by (auto; congruence). apply X; csimp. }
        { pose proof (as_send body l1 j m k (upd l2 (k' m') c0) (chset (length c0) j' l2 r' q)) as X.
          rewrite upd_length in X. rewrite chget_set_ne in X by (auto; congruence). apply X; csimp. }
  - (* send loop *)
    exists (upd l1 k (upd l2 p' c0), chset (length c0) l1 j (chget (length c0) l1 j q ++ [m]) q). split.
    { rewrite (upd_comm l1 l2) by auto. eapply as_loop; csimp; eauto. }
    { pose proof (as_send body l1 j m k (upd l2 p' c0) q) as X. rewrite upd_length in X. apply X; csimp. }
  - (* recv send *)
    destruct (Nat.eq_dec l2 j) as [->|Hn1'].
    + destruct (Nat.eq_dec j' l1) as [->|Hn2'].
      * exists (upd l1 (k m) (upd j k' c0), chset (length c0) j l1 (r ++ [m']) q). split.
        { pose proof (as_send body j l1 m' k' (upd l1 (k m) c0) (chset (length c0) j l1 r q)) as X.
          rewrite upd_length in X. rewrite chset_set, chget_set_eq in X by auto.
          rewrite (upd_comm l1 j) by auto. apply X; csimp. }
        { pose proof (as_recv body l1 j m k (upd j k' c0)
            (chset (length c0) j l1 (chget (length c0) j l1 q ++ [m']) q) (r ++ [m'])) as X.
          rewrite upd_length in X. rewrite chset_set in X. apply X; csimp.
          rewrite chget_set_eq; auto. rewrite Hq. reflexivity. }
      * exists (upd l1 (k m) (upd j k' c0), chset (length c0) j l1 r (chset (length c0) j j' (chget (length c0) j j' q ++ [m']) q)). split.
        { pose proof (as_send body j j' m' k' (upd l1 (k m) c0) (chset (length c0) j l1 r q)) as X.
          rewrite upd_length in X. rewrite chget_set_ne in X by (auto; congruence).
          rewrite (upd_comm l1 j), (chset_comm _ j l1) by (auto; congruence). apply X; csimp. }
        { pose proof (as_recv body l1 j m k (upd j k' c0)
            (chset (length c0) j j' (chget (length c0) j j' q ++ [m']) q) r) as X.
          rewrite upd_length in X. apply X; csimp. }
    + exists (upd l1 (k m) (upd l2 k' c0), chset (length c0) j l1 r (chset (length c0) l2 j' (chget (length c0) l2 j' q ++ [m']) q)). split.
      { pose proof (as_send body l2 j' m' k' (upd l1 (k m) c0) (chset (length c0) j l1 r q)) as X.
        rewrite upd_length in X. rewrite chget_set_ne in X by (auto; congruence).
        rewrite (upd_comm l1 l2), (chset_comm _ j l1) by (auto; congruence). apply X; csimp. }
      { pose proof (as_recv body l1 j m k (upd l2 k' c0)
            (chset (length c0) l2 j' (chget (length c0) l2 j' q ++ [m']) q) r) as X.
        rewrite upd_length in X. apply X; csimp. }
  - (* recv recv *)
    exists (upd l1 (k m) (upd l2 (k' m') c0), chset (length c0) j l1 r (chset (length c0) j' l2 r' q)). split.
    { pose proof (as_recv body l2 j' m' k' (upd l1 (k m) c0) (chset (length c0) j l1 r q) r') as X.
      rewrite upd_length in X. rewrite (upd_comm l1 l2), (chset_comm _ j l1) by (auto; congruence).
      apply X; csimp. }
    { pose proof (as_recv body l1 j m k (upd l2 (k' m') c0) (chset (length c0) j' l2 r' q) r) as X.
      rewrite upd_length in X. apply X; csimp. }
  - (* recv loop *)
    exists (upd l1 (k m) (upd l2 p' c0), chset (length c0) j l1 r q). split.
    { rewrite (upd_comm l1 l2) by auto. eapply as_loop; csimp; eauto. }
    { pose proof (as_recv body l1 j m k (upd l2 p' c0) q r) as X. rewrite upd_length in X. apply X; csimp. }
  - (* loop send *)
    exists (upd l1 p (upd l2 k' c0), chset (length c0) l2 j' (chget (length c0) l2 j' q ++ [m']) q). split.
    { rewrite (upd_comm l1 l2) by auto. 
      pose proof (as_send body l2 j' m' k' (upd l1 p c0) q) as X. rewrite upd_length in X. apply X; csimp. }
    { eapply as_loop; csimp; eauto. }
  - (* loop recv *)
    exists (upd l1 p (upd l2 (k' m') c0), chset (length c0) j' l2 r' q). split.
    { rewrite (upd_comm l1 l2) by auto. 
      pose proof (as_recv body l2 j' m' k' (upd l1 p c0) q r') as X. rewrite upd_length in X. apply X; csimp. }
    { eapply as_loop; csimp; eauto. }
  - (* loop loop *)
    exists (upd l1 p (upd l2 p' c0), q). split.
    { rewrite (upd_comm l1 l2) by auto. eapply as_loop; csimp; eauto. }
    { eapply as_loop; csimp; eauto. }
Qed.


(** * Canonical schedules *)
Definition covers (w : list (nat * nat)) (i : nat) : Prop :=
  exists a b, In (a, b) w /\ (a = i \/ b = i).

Lemma covers_cons l w i : covers w i -> covers (l :: w) i.
Proof. intros (a & b & H & H'). exists a, b. split; auto. right; auto. Qed.

Lemma covers_app_l w w' i : covers w i -> covers (w ++ w') i.
Proof. intros (a & b & H & H'). exists a, b. split; auto. apply in_or_app; auto. Qed.

Lemma covers_app_r w w' i : covers w' i -> covers (w ++ w') i.
Proof. intros (a & b & H & H'). exists a, b. split; auto. apply in_or_app; auto. Qed.

Lemma covers_inv a b w i : covers ((a, b) :: w) i -> a = i \/ b = i \/ covers w i.
Proof.
  intros (x & y & [E|H] & H'); [injection E as -> ->; tauto|].
  right; right. exists x, y; auto.
Qed.

Lemma sstep_other a b c c' i : sstep (a, b) c c' -> a <> i -> b <> i -> nth_error c' i = nth_error c i.
Proof. inversion 1; subst; intros; rewrite !nth_upd_ne; auto. Qed.

Lemma cov_send w : forall c c' i j m k, lrun sstep w c c' -> nth_error c i = Some (PSend j m k) ->
  covers w i -> In (i, j) w.
Proof.
  induction w as [|[a b] w IH]; intros c c' i j m k Hr Hi Hc.
  - destruct Hc as (a & b & [] & _).
  - inversion Hr as [|a0 w0 x1 x2 x3 Hs Ht]; subst.
    destruct (Nat.eq_dec a i) as [->|Ha].
    { inversion Hs; subst; [left; congruence|congruence]. }
    destruct (Nat.eq_dec b i) as [->|Hb].
    { inversion Hs; subst; congruence. }
    right. eapply IH; eauto.
    + erewrite sstep_other; eauto.
    + destruct (covers_inv _ _ _ _ Hc) as [?|[?|?]]; auto; congruence.
Qed.

Lemma cov_ret w : forall c c' i s, lrun sstep w c c' -> nth_error c i = Some (PRet s) ->
  covers w i -> In (i, i) w.
Proof.
  induction w as [|[a b] w IH]; intros c c' i s Hr Hi Hc.
  - destruct Hc as (a & b & [] & _).
  - inversion Hr as [|a0 w0 x1 x2 x3 Hs Ht]; subst.
    destruct (Nat.eq_dec a i) as [->|Ha].
    { inversion Hs; subst; [congruence|left; congruence]. }
    destruct (Nat.eq_dec b i) as [->|Hb].
    { inversion Hs; subst; congruence. }
    right. eapply IH; eauto.
    + erewrite sstep_other; eauto.
    + destruct (covers_inv _ _ _ _ Hc) as [?|[?|?]]; auto; congruence.
Qed.

Lemma cov_err w : forall c c' i e, lrun sstep w c c' -> nth_error c i = Some (PErr e) ->
  ~ covers w i /\ nth_error c' i = Some (PErr e).
Proof.
  induction w as [|[a b] w IH]; intros c c' i e Hr Hi.
  - split. { intros (a & b & [] & _). } inversion Hr; subst; auto.
  - inversion Hr as [|a0 w0 x1 x2 x3 Hs Ht]; subst.
    assert (a <> i) by (intros ->; inversion Hs; subst; congruence).
    assert (b <> i) by (intros ->; inversion Hs; subst; congruence).
    destruct (IH x2 c' i e Ht) as [H1 H2]. { erewrite sstep_other; eauto. }
    split; auto. intros Hc. destruct (covers_inv _ _ _ _ Hc) as [?|[?|?]]; auto.
Qed.

Lemma finished_no_sstep c l c' : all_finished body c -> ~ sstep l c c'.
Proof.
  intros Hf Hs. inversion Hs as [i j m ki kj ? Hij Hi Hj|i s p ? Hi Hb]; subst;
  destruct (Hf _ _ Hi) as [s' [E Hb']]; congruence.
Qed.

Lemma finished_no_astep c n l x : all_finished body c -> ~ astep l (c, emptych n) x.
Proof.
  intros Hf Hs. inversion Hs as [i j m k c0 q Hij Hj Hi|i j m k c0 q r Hij Hj Hi Hq|i s p c0 q Hi Hb]; subst;
  destruct (Hf _ _ Hi) as [s' [E Hb']]; congruence.
Qed.

Lemma chget_empty n i j : chget (M:=M) n i j (emptych n) = [].
Proof.
  unfold chget, emptych. destruct (nth_in_or_default (chidx n i j) (repeat [] (n*n)) ([]:list M)) as [H|H]; auto.
  apply repeat_spec in H. auto.
Qed.

Lemma emptych_length n : length (emptych (M:=M) n) = n * n.
Proof. apply repeat_length. Qed.

Lemma sstep_async a b c c' : sstep (a, b) c c' ->
  exists w, lrun wstep w (c, emptych (length c)) (c', emptych (length c)) /\ In a w /\ In b w.
Proof.
  intros Hs. inversion Hs as [i j m ki kj ? Hij Hi Hj|i s p ? Hi Hb]; subst.
  - assert (Ha : a < length c) by (eapply nth_error_lt; eauto).
    assert (Hb : b < length c) by (eapply nth_error_lt; eauto).
    exists [a; b]. split; [|simpl; auto].
    pose proof (as_send body a b m ki c (emptych (length c)) Hij Hb Hi) as X1.
    rewrite chget_empty in X1. simpl in X1.
    econstructor. { split; [|exact X1]. unfold achlen; simpl. apply emptych_length. }
    pose proof (as_recv body b a m kj (upd a ki c) (chset (length c) a b [m] (emptych (length c))) []) as X2.
    rewrite upd_length in X2. rewrite chset_set in X2.
    assert (E : chset (length c) a b [] (emptych (length c)) = emptych (M:=M) (length c)).
    { rewrite <- (chget_empty (length c) a b) at 1. apply chset_same; auto. apply emptych_length. }
    rewrite E in X2.
    econstructor; [|constructor]. split.
    { unfold achlen; simpl. rewrite chset_length, upd_length. apply emptych_length. }
    apply X2; auto.
    + rewrite nth_upd_ne; auto.
    + apply chget_set_eq; auto. apply emptych_length.
  - exists [b]. split; [|simpl; auto].
    econstructor; [|constructor]. split.
    { unfold achlen; simpl. apply emptych_length. }
    eapply as_loop; eauto.
Qed.

Lemma srun_async w : forall c c', lrun sstep w c c' ->
  exists w', lrun wstep w' (c, emptych (length c)) (c', emptych (length c)) /\
             forall i, covers w i -> In i w'.
Proof.
  induction w as [|[a b] w IH]; intros c c' Hr.
  - inversion Hr; subst. exists []. split; [constructor|]. intros i (x & y & [] & _).
  - inversion Hr as [|a0 w0 x1 x2 x3 Hs Ht]; subst.
    destruct (IH _ _ Ht) as [w' [Hw' Hc']].
    destruct (sstep_async _ _ _ _ Hs) as [w1 [Hw1 [Ha Hb]]].
    rewrite (sstep_length _ _ _ Hs) in Hw'.
    exists (w1 ++ w'). split; [eapply lrun_app; eauto|].
    intros i Hi. apply in_or_app.
    destruct (covers_inv _ _ _ _ Hi) as [<-|[<-|?]]; auto.
Qed.

Lemma arun_wrun w x y : lrun astep w x y -> achlen x -> lrun wstep w x y.
Proof.
  induction 1; intros Hl; [constructor|].
  econstructor; [split; eauto|]. apply IHlrun. eapply astep_inv; eauto.
Qed.

Lemma wrun_arun w x y : lrun wstep w x y -> lrun astep w x y.
Proof. induction 1 as [|l w c1 c2 c3 [_ Hs] Hr IH]; [constructor|]. econstructor; eauto. Qed.

Section Canon.
Variable K : net (M:=M) (S:=S) -> Prop.
Hypothesis HK : forall c, K c -> all_finished body c \/
  exists w c', lrun sstep w c c' /\ K c' /\
    forall i p, nth_error c i = Some p -> ~ finished body i p -> covers w i.

Lemma sync_completes c0 c : K c0 -> reaches sstep c0 c -> exists k, reaches sstep c k /\ K k.
Proof.
  apply always_completes; [apply pair_dec|apply sstep_det|apply sstep_diamond|].
  intros x Hx. destruct (HK x Hx) as [Hf|(w & c' & Hw & Hk & Hc)].
  - left. intros l c'. apply finished_no_sstep; auto.
  - right. exists w, c'. split; auto. split; auto. intros l c1 Hs.
    inversion Hs as [i j m ki kj ? Hij Hi Hj|i s p ? Hi Hb]; subst.
    + eapply cov_send; eauto. eapply Hc; eauto. intros [s [E _]]; congruence.
    + eapply cov_ret; eauto. eapply Hc; eauto. intros [s' [E ?]]; congruence.
Qed.

Lemma sync_no_error c0 c : K c0 -> reaches sstep c0 c -> ~ some_error c.
Proof.
  intros Hk Hr (i & e & Hi).
  destruct (sync_completes _ _ Hk Hr) as [k [[w Hw] Hkk]].
  destruct (cov_err _ _ _ _ _ Hw Hi) as [_ Hi'].
  destruct (HK k Hkk) as [Hf|(w' & c' & Hw' & _ & Hc)].
  - destruct (Hf _ _ Hi') as [s [E _]]; congruence.
  - destruct (cov_err _ _ _ _ _ Hw' Hi') as [Hn _]. apply Hn.
    eapply Hc; eauto. intros [s [E _]]; congruence.
Qed.

Lemma not_all_finished_covered c w :
  ~ all_finished body c ->
  (forall i p, nth_error c i = Some p -> ~ finished body i p -> covers w i) -> w <> [].
Proof.
  intros Hn Hc ->. apply Hn. intros i p Hi.
  assert (Hd : finished body i p \/ ~ finished body i p).
  { destruct p as [s|e|d m k|sr k]; try (right; intros [s' [E _]]; congruence).
    destruct (body i s) eqn:E; [right; intros [s' [E' ?]]; congruence|left; exists s; auto]. }
  destruct Hd as [?|Hd]; auto.
  destruct (Hc _ _ Hi Hd) as (a & b & [] & _).
Qed.

Lemma sync_progress c0 c : K c0 -> reaches sstep c0 c ->
  all_finished body c \/ exists l c', sstep l c c'.
Proof.
  intros Hk Hr. destruct (sync_completes _ _ Hk Hr) as [k [[w Hw] Hkk]].
  destruct w as [|l w].
  - inversion Hw; subst. destruct (HK k Hkk) as [?|(w' & c' & Hw' & _ & Hc)]; auto.
    destruct w' as [|l w'].
    + left. intros i p Hi.
      destruct p as [s|e|d m kk|sr kk];
        try (exfalso; eapply (not_all_finished_covered k []); eauto; intros Hf; destruct (Hf _ _ Hi) as [s' [E _]]; congruence).
      destruct (body i s) eqn:E; [|exists s; auto].
      exfalso. eapply (not_all_finished_covered k []); eauto. intros Hf; destruct (Hf _ _ Hi) as [s' [E' ?]]; congruence.
    + right. inversion Hw'; subst. eauto.
  - right. inversion Hw; subst. eauto.
Qed.

Lemma async_completes c0 x : K c0 -> reaches astep (c0, emptych (length c0)) x ->
  exists k, reaches astep x (k, emptych (length k)) /\ K k.
Proof.
  intros Hk [w Hw].
  apply arun_wrun in Hw; [|unfold achlen; simpl; apply emptych_length].
  destruct (always_completes wstep Nat.eq_dec wstep_det wstep_diamond
    (fun x => exists k, x = (k, emptych (M:=M) (length k)) /\ K k)) with (c0 := (c0, emptych (M:=M) (length c0))) (c := x)
    as [y [[w' Hw'] (k & -> & Hkk)]].
  - intros y (k & -> & Hkk). destruct (HK k Hkk) as [Hf|(v & k' & Hv & Hk' & Hc)].
    + left. intros l c' [_ Hs]. eapply finished_no_astep; eauto.
    + right. destruct (srun_async _ _ _ Hv) as [v' [Hv' Hcv]].
      exists v', (k', emptych (length k)). split; auto. split.
      * exists k'. split; auto. rewrite (srun_length _ _ _ Hv). auto.
      * intros l c1 [_ Hs]. apply Hcv.
        inversion Hs as [i j m kk c2 q Hij Hj Hi|i j m kk c2 q r Hij Hj Hi Hq|i s p c2 q Hi Hb]; subst.
        -- eapply Hc; eauto. intros [s [E _]]; congruence.
        -- rewrite chget_empty in Hq. congruence.
        -- eapply Hc; eauto. intros [s' [E ?]]; congruence.
  - exists c0; auto.
  - exists w; auto.
  - exists k. split; auto. exists w'. apply wrun_arun; auto.
Qed.

Lemma async_err_stays w : forall x y i e, lrun astep w x y -> nth_error (fst x) i = Some (PErr e) ->
  nth_error (fst y) i = Some (PErr e).
Proof.
  induction w as [|l w IH]; intros x y i e Hr Hi; inversion Hr as [|a0 w0 x1 x2 x3 Hs Ht]; subst; auto.
  eapply IH; eauto.
  inversion Hs as [a j m kk c2 q Hij Hj Ha|a j m kk c2 q r Hij Hj Ha Hq|a s p c2 q Ha Hb]; subst; simpl in *;
  (rewrite nth_upd_ne; [auto|intros ->; congruence]).
Qed.

Lemma async_no_error c0 x : K c0 -> reaches astep (c0, emptych (length c0)) x -> ~ some_error (fst x).
Proof.
  intros Hk Hr (i & e & Hi).
  destruct (async_completes _ _ Hk Hr) as [k [[w Hw] Hkk]].
  pose proof (async_err_stays _ _ _ _ _ Hw Hi) as Hi'. simpl in Hi'.
  destruct (HK k Hkk) as [Hf|(w' & c' & Hw' & _ & Hc)].
  - destruct (Hf _ _ Hi') as [s [E _]]; congruence.
  - destruct (cov_err _ _ _ _ _ Hw' Hi') as [Hn _]. apply Hn.
    eapply Hc; eauto. intros [s [E _]]; congruence.
Qed.

Lemma async_progress c0 x : K c0 -> reaches astep (c0, emptych (length c0)) x ->
  (all_finished body (fst x) /\ snd x = emptych (length (fst x))) \/ exists l x', astep l x x'.
Proof.
  intros Hk Hr. destruct (async_completes _ _ Hk Hr) as [k [[w Hw] Hkk]].
  destruct w as [|l w]; [|right; inversion Hw; subst; eauto].
  inversion Hw; subst. simpl.
  destruct (sync_progress k k Hkk) as [Hf|[l [c' Hs]]]; [exists []; constructor|left; auto|].
  right. destruct l as [a b]. destruct (sstep_async _ _ _ _ Hs) as [v [Hv [Ha _]]].
  destruct v as [|l v]; [inversion Ha|]. inversion Hv as [|a0 w0 x1 x2 x3 [_ Hs1] Ht]; subst. eauto.
Qed.

End Canon.
End Sync.
