(** Exchanges with buffered sends: everybody sends, then everybody receives. *)
From Coq Require Import List Arith Lia Bool.
From Verif Require Import M_Net S_Term S_Part P_Net P_Term.
Import ListNotations.

Section Mail.
Context {M : Type}.
(** a program that only sends / only receives these messages *)
Inductive says {A} : proc M A -> list (nat * M) -> A -> Prop :=
| says_ret a : says (PRet a) [] a
| says_send d m k l a : says k l a -> says (PSend d m k) ((d, m) :: l) a.
Inductive takes {A} : proc M A -> list (nat * M) -> A -> Prop :=
| takes_ret a : takes (PRet a) [] a
| takes_recv s m k l a : takes (k m) l a -> takes (PRecv s k) ((s, m) :: l) a.
Lemma says_bind {A B} (p : proc M A) l a (f : A -> proc M B) l' b : says p l a -> says (f a) l' b -> says (bind p f) (l ++ l') b.
Proof. induction 1; intros H'; cbn; [exact H'|constructor; auto]. Qed.
Lemma takes_bind {A B} (p : proc M A) l a (f : A -> proc M B) l' b : takes p l a -> takes (f a) l' b -> takes (bind p f) (l ++ l') b.
Proof. induction 1; intros H'; cbn; [exact H'|constructor; auto]. Qed.

(** the messages to or from process [i] *)
Definition mail (i : nat) (l : list (nat * M)) : list M := map snd (filter (fun x => fst x =? i) l).
Lemma mail_cons i d m l : mail i ((d, m) :: l) = if d =? i then m :: mail i l else mail i l.
Proof. unfold mail. cbn. destruct (d =? i); reflexivity. Qed.
Lemma mail_app i l l' : mail i (l ++ l') = mail i l ++ mail i l'.
Proof. unfold mail. rewrite filter_app, map_app. reflexivity. Qed.

Definition holds (n : nat) (q : chans (M:=M)) (f : nat -> nat -> list M) : Prop :=
  length q = n * n /\ forall i j, i < n -> j < n -> chget n i j q = f i j.
Definition put (f : nat -> nat -> list M) i j l : nat -> nat -> list M := fun a b => if (a =? i) && (b =? j) then l else f a b.
Lemma holds_set n q f i j l : i < n -> j < n -> holds n q f -> holds n (chset n i j l q) (put f i j l).
Proof.
  intros Hi Hj (L & H). split; [rewrite chset_length; exact L|]. intros a b Ha Hb. unfold put.
  destruct (Nat.eqb_spec a i) as [->|]; cbn [andb]; [destruct (Nat.eqb_spec b j) as [->|]; cbn [andb]|].
  - apply chget_set_eq; auto.
  - rewrite chget_set_ne; auto. congruence.
  - rewrite chget_set_ne; auto. congruence.
Qed.
Lemma holds_ext n q f f' : (forall i j, i < n -> j < n -> f i j = f' i j) -> holds n q f -> holds n q f'.
Proof. intros E (L & H). split; auto. intros i j Hi Hj. rewrite <- E by auto. auto. Qed.
Lemma holds_empty n : holds n (emptych n) (fun _ _ => []).
Proof. split; [apply emptych_length|]. intros. apply chget_empty. Qed.
Lemma holds_empty_eq n q : holds n q (fun _ _ => []) -> q = emptych n.
Proof.
  intros (L & H). apply nth_error_eq. intros k. destruct (Nat.lt_ge_cases k (n * n)) as [Hk|Hk].
  - assert (n <> 0) by (intros ->; cbn in Hk; lia).
    assert (Hi : k / n < n) by (apply Nat.div_lt_upper_bound; lia). assert (Hj : k mod n < n) by (apply Nat.mod_upper_bound; auto).
    specialize (H _ _ Hi Hj). unfold chget, chidx in H.
    replace (k / n * n + k mod n) with k in H by (pose proof (Nat.div_mod k n ltac:(auto)); lia).
    rewrite (nth_error_nth' q []) by lia. rewrite H. unfold emptych. symmetry. apply nth_error_repeat, Hk.
  - unfold emptych. rewrite !(proj2 (nth_error_None _ _)); auto; [rewrite repeat_length; exact Hk|lia].
Qed.

Section Run.
Context {A : Type}.
Notation stepsA := (reaches (astep (M:=M) (S:=A) once)).
Lemma reaches_refl x : stepsA x x. Proof. exists []. constructor. Qed.
Lemma reaches_trans x y z : stepsA x y -> stepsA y z -> stepsA x z.
Proof. intros (w & H) (w' & H'). exists (w ++ w'). eapply lrun_app; eauto. Qed.
Lemma reaches_step l x y z : astep once l x y -> stepsA y z -> stepsA x z.
Proof. intros H (w & H'). exists (l :: w). econstructor; eauto. Qed.

Lemma says_run {B} (p : proc M B) l b : says p l b -> forall (k : B -> proc M A) c q f i n, length c = n -> i < n -> nth_error c i = Some (bind p k) ->
  (forall d m, In (d, m) l -> d < n /\ d <> i) -> holds n q f ->
  exists q', stepsA (c, q) (upd i (k b) c, q') /\ holds n q' (fun a j => if a =? i then f a j ++ mail j l else f a j).
Proof.
  induction 1 as [b|d m p l b H IH]; intros k c q f i n L Hi E D Hq.
  - exists q. cbn in E. rewrite upd_same by exact E. split; [apply reaches_refl|]. eapply holds_ext; [|exact Hq].
    intros a j _ _. destruct (a =? i); [unfold mail; cbn; rewrite app_nil_r|]; reflexivity.
  - destruct (D d m (or_introl eq_refl)) as (Hd & Ne). cbn [bind] in E.
    assert (St : astep once i (c, q) (upd i (bind p k) c, chset (length c) i d (chget (length c) i d q ++ [m]) q)) by (apply as_send; auto; lia).
    rewrite L in St.
    destruct (IH k (upd i (bind p k) c) (chset n i d (chget n i d q ++ [m]) q) (put f i d (f i d ++ [m])) i n) as (q' & R & Hq').
    + rewrite upd_length; exact L.
    + exact Hi.
    + apply nth_upd_eq. lia.
    + intros d' m' Hin. apply (D d' m'). right; exact Hin.
    + destruct Hq as (Lq & Hq). rewrite (Hq i d) by auto. apply holds_set; auto. split; auto.
    + exists q'. rewrite upd_upd in R. split; [eapply reaches_step; eauto|]. eapply holds_ext; [|exact Hq'].
      intros a j _ _. unfold put. cbv beta. destruct (Nat.eqb_spec a i) as [->|]; cbn [andb]; [|reflexivity].
      rewrite mail_cons. rewrite (Nat.eqb_sym j d). destruct (Nat.eqb_spec d j) as [->|]; [rewrite <- app_assoc|]; reflexivity.
Qed.
Lemma takes_run {B} (p : proc M B) l b : takes p l b -> forall (k : B -> proc M A) c q f i n, length c = n -> i < n -> nth_error c i = Some (bind p k) ->
  (forall d m, In (d, m) l -> d < n /\ d <> i) -> holds n q (fun a j => if j =? i then mail a l ++ f a j else f a j) ->
  exists q', stepsA (c, q) (upd i (k b) c, q') /\ holds n q' f.
Proof.
  induction 1 as [b|s m p l b H IH]; intros k c q f i n L Hi E D Hq.
  - exists q. cbn in E. rewrite upd_same by exact E. split; [apply reaches_refl|]. eapply holds_ext; [|exact Hq].
    intros a j _ _. cbv beta. destruct (j =? i); reflexivity.
  - destruct (D s m (or_introl eq_refl)) as (Hd & Ne). cbn [bind] in E.
    pose proof Hq as (Lq & Hq'). assert (G : chget n s i q = m :: (mail s l ++ f s i)).
    { rewrite (Hq' s i) by auto. rewrite Nat.eqb_refl, mail_cons, Nat.eqb_refl. reflexivity. }
    assert (St : astep once i (c, q) (upd i (bind (p m) k) c, chset (length c) s i (mail s l ++ f s i) q)).
    { eapply (as_recv once i s m (fun m => bind (p m) k)); auto; rewrite L; auto. }
    rewrite L in St.
    destruct (IH k (upd i (bind (p m) k) c) (chset n s i (mail s l ++ f s i) q) f i n) as (q' & R & Hq2).
    + rewrite upd_length; exact L.
    + exact Hi.
    + apply nth_upd_eq. lia.
    + intros d' m' Hin. apply (D d' m'). right; exact Hin.
    + eapply holds_ext; [|apply (holds_set n q _ s i (mail s l ++ f s i) Hd Hi Hq)].
      intros a j _ _. unfold put. cbv beta. destruct (Nat.eqb_spec j i) as [->|].
      * rewrite andb_true_r. rewrite mail_cons. destruct (Nat.eqb_spec a s) as [->|Ns]; [reflexivity|].
        destruct (Nat.eqb_spec s a); [congruence|reflexivity].
      * rewrite andb_false_r. reflexivity.
    + exists q'. rewrite upd_upd in R. split; [eapply reaches_step; eauto|exact Hq2].
Qed.

(** all processes send, then all receive *)
Variables (n : nat) (S1 : nat -> proc M unit).
Context {B : Type}.
Variables (R1 : nat -> proc M B) (K : nat -> B -> proc M A) (outs ins : nat -> list (nat * M)) (b : nat -> B).
Hypotheses (Hs : forall r, r < n -> says (S1 r) (outs r) tt) (Ht : forall r, r < n -> takes (R1 r) (ins r) (b r))
  (Do : forall r d m, r < n -> In (d, m) (outs r) -> d < n /\ d <> r) (Di : forall r d m, r < n -> In (d, m) (ins r) -> d < n /\ d <> r)
  (Match : forall i j, i < n -> j < n -> mail i (ins j) = mail j (outs i)).
Lemma exchange : stepsA (ranks n (fun r => bind (S1 r) (fun _ => bind (R1 r) (K r))), emptych n) (ranks n (fun r => K r (b r)), emptych n).
Proof.
  set (P0 := fun r => bind (S1 r) (fun _ => bind (R1 r) (K r))). set (P1 := fun r => bind (R1 r) (K r)). set (P2 := fun r => K r (b r)).
  assert (G1 : forall k, k <= n -> exists q, stepsA (ranks n P0, emptych n) (ranks n (fun r => if r <? k then P1 r else P0 r), q) /\
     holds n q (fun i j => if i <? k then mail j (outs i) else [])).
  { induction k as [|k IH]; intros Hk.
    - exists (emptych n). split; [apply reaches_refl|apply holds_empty].
    - destruct IH as (q & R & H); [lia|].
      destruct (says_run _ _ _ (Hs k ltac:(lia)) (fun _ => P1 k) (ranks n (fun r => if r <? k then P1 r else P0 r)) q (fun i j => if i <? k then mail j (outs i) else []) k n) as (q' & R' & H'); auto.
      + apply ranks_len.
      + rewrite ranks_nth by lia. rewrite Nat.ltb_irrefl. reflexivity.
      + intros d m0. apply Do. lia.
      + exists q'. split.
        * eapply reaches_trans; [exact R|]. rewrite ranks_upd in R'. erewrite (ranks_ext n (fun r => if r <? Datatypes.S k then P1 r else P0 r)); [exact R'|].
          intros i Hi. unfold putp. destruct (Nat.eqb_spec i k) as [->|]; [rewrite (proj2 (Nat.ltb_lt k (Datatypes.S k))) by lia; reflexivity|].
          destruct (Nat.ltb_spec i (Datatypes.S k)), (Nat.ltb_spec i k); try lia; reflexivity.
        * eapply holds_ext; [|exact H']. intros i j _ _. cbv beta. destruct (Nat.eqb_spec i k) as [->|].
          -- rewrite Nat.ltb_irrefl. rewrite (proj2 (Nat.ltb_lt k (Datatypes.S k))) by lia. reflexivity.
          -- destruct (Nat.ltb_spec i (Datatypes.S k)), (Nat.ltb_spec i k); try lia; reflexivity. }
  assert (G2 : forall k, k <= n -> exists q, stepsA (ranks n P0, emptych n) (ranks n (fun r => if r <? k then P2 r else P1 r), q) /\
     holds n q (fun i j => if j <? k then [] else mail j (outs i))).
  { induction k as [|k IH]; intros Hk.
    - destruct (G1 n (Nat.le_refl n)) as (q & R & H). exists q. split.
      + erewrite (ranks_ext n (fun r => if r <? 0 then P2 r else P1 r)); [exact R|]. intros i Hi. cbv beta.
        rewrite (proj2 (Nat.ltb_lt i n)) by lia. reflexivity.
      + eapply holds_ext; [|exact H]. intros i j Hi _. cbv beta. rewrite (proj2 (Nat.ltb_lt i n)) by lia. reflexivity.
    - destruct IH as (q & R & H); [lia|].
      destruct (takes_run _ _ _ (Ht k ltac:(lia)) (K k) (ranks n (fun r => if r <? k then P2 r else P1 r)) q (fun i j => if j <? Datatypes.S k then [] else mail j (outs i)) k n) as (q' & R' & H'); auto.
      + apply ranks_len.
      + rewrite ranks_nth by lia. rewrite Nat.ltb_irrefl. reflexivity.
      + intros d m0. apply Di. lia.
      + eapply holds_ext; [|exact H]. intros i j Hi Hj. cbv beta. destruct (Nat.eqb_spec j k) as [->|].
        * rewrite Nat.ltb_irrefl. rewrite (proj2 (Nat.ltb_lt k (Datatypes.S k))) by lia. rewrite app_nil_r. symmetry. apply Match; auto.
        * destruct (Nat.ltb_spec j (Datatypes.S k)), (Nat.ltb_spec j k); try lia; reflexivity.
      + exists q'. split; [|exact H'].
        eapply reaches_trans; [exact R|]. rewrite ranks_upd in R'. erewrite (ranks_ext n (fun r => if r <? Datatypes.S k then P2 r else P1 r)); [exact R'|].
        intros i Hi. unfold putp. destruct (Nat.eqb_spec i k) as [->|]; [rewrite (proj2 (Nat.ltb_lt k (Datatypes.S k))) by lia; reflexivity|].
        destruct (Nat.ltb_spec i (Datatypes.S k)), (Nat.ltb_spec i k); try lia; reflexivity. }
  destruct (G2 n (Nat.le_refl n)) as (q & R & H). assert (q = emptych n) as ->.
  { apply holds_empty_eq. eapply holds_ext; [|exact H]. intros i j _ Hj. cbv beta. rewrite (proj2 (Nat.ltb_lt j n)) by lia. reflexivity. }
  erewrite (ranks_ext n P2); [exact R|]. intros i Hi. cbv beta. rewrite (proj2 (Nat.ltb_lt i n)) by lia. reflexivity.
Qed.
End Run.

(** one complete run decides all runs *)
Section Confluent.
Context {A : Type}.
Lemma confluent (w : list nat) : forall (x k : list (proc M A) * chans) w', lrun (wstep once) w' x k -> (forall l y, ~ wstep once l k y) ->
  forall y, lrun (wstep once) w x y -> reaches (wstep once) y k.
Proof.
  induction w as [|l w IH]; intros x k w' R T y H; inversion H as [|l0 w0 c1 c2 c3 Hs Ht]; subst.
  - exists w'. exact R.
  - destruct (in_dec Nat.eq_dec l w') as [Hin|Hni].
    + destruct (catch_up (wstep once) Nat.eq_dec (wstep_det once) (wstep_diamond once) w' l x c2 k Hs R Hin) as (w2 & R2). eapply IH; eauto.
    + destruct (step_commute (wstep once) Nat.eq_dec (wstep_diamond once) w' l x c2 k Hs R Hni) as (k' & R2 & St). exfalso. eapply T; eauto.
Qed.
Lemma ends_buffered_intro n (P : nat -> proc M A) res :
  reaches (astep once) (ranks n P, emptych n) (ranks n (fun r => PRet (res r)), emptych n) -> all_end_buffered n P res.
Proof.
  intros (w & R). set (k := (ranks n (fun r => PRet (res r)), emptych n)) in *.
  assert (Ek : k = (map PRet (map res (seq 0 n)), emptych (M:=M) n)) by (unfold k, ranks; rewrite map_map; reflexivity).
  assert (L : length (ranks n P) = n) by apply ranks_len.
  assert (Hl : achlen (ranks n P, emptych (M:=M) n)) by (unfold achlen; cbn; rewrite emptych_length, L; reflexivity).
  split; rewrite L.
  - apply async_fin.
  - intros x (w' & R').
    destruct (confluent w' (ranks n P, emptych n) k w) with (y := x) as (w2 & R2).
    + apply arun_wrun; auto.
    + intros l y (_ & St). rewrite Ek in St. eapply finished_no_astep; [|exact St]. apply all_ret.
    + apply arun_wrun; auto.
    + inversion R2 as [|l w0 c1 c2 c3 [_ Hs] Ht]; subst; [left; exact Ek|right; eauto].
Qed.
End Confluent.
End Mail.
