(** Networks of processes whose exchanged messages are known. *)
From Coq Require Import List Arith Lia Bool.
From Verif Require Import M_Net S_Term S_Comp P_Net P_Pair P_Term P_Comp P_Mail.
Import ListNotations.

Section Trace.
Context {M : Type}.

(** [resid p t p']: after exchanging [t], [p] goes on with [p'] *)
Inductive resid {A} : proc M A -> list (io M) -> proc M A -> Prop :=
| rs_nil p : resid p [] p
| rs_send j m k t p' : resid k t p' -> resid (PSend j m k) (Sent j m :: t) p'
| rs_recv j m k t p' : resid (k m) t p' -> resid (PRecv j k) (Got j m :: t) p'.

Lemma resid_of_does {A} (p : proc M A) : forall t1 t2 a, does p (t1 ++ t2) a -> exists p', resid p t1 p' /\ does p' t2 a.
Proof.
  induction p as [x|e|d m p IH|s k IH]; intros t1 t2 a H.
  - destruct t1 as [|ev t1]; [exists (PRet x); split; [constructor|exact H]|]. destruct H as (H & _). discriminate H.
  - destruct H.
  - destruct t1 as [|ev t1]; [exists (PSend d m p); split; [constructor|exact H]|]. destruct H as (-> & H).
    destruct (IH _ _ _ H) as (p' & R & D). exists p'. split; [constructor; exact R|exact D].
  - destruct t1 as [|ev t1]; [exists (PRecv s k); split; [constructor|exact H]|]. destruct H as (m & -> & H).
    destruct (IH _ _ _ _ H) as (p' & R & D). exists p'. split; [constructor; exact R|exact D].
Qed.
Lemma resid_ret {A} (p : proc M A) t a : does p t a -> resid p t (PRet a).
Proof.
  intros H. rewrite <- (app_nil_r t) in H. destruct (resid_of_does _ _ _ _ H) as (p' & R & D).
  destruct p' as [x|e|d m k|s k]; cbn in D; [destruct D as (_ & ->); exact R|destruct D|destruct D|destruct D].
Qed.

(** the messages sent to / received from [j] *)
Definition sents (j : nat) (t : list (io M)) : list M :=
  flat_map (fun e => match e with Sent i m => if i =? j then [m] else [] | Got _ _ => [] end) t.
Definition gots (j : nat) (t : list (io M)) : list M :=
  flat_map (fun e => match e with Got i m => if i =? j then [m] else [] | Sent _ _ => [] end) t.
Lemma sents_app j t t' : sents j (t ++ t') = sents j t ++ sents j t'.
Proof. apply flat_map_app. Qed.
Lemma gots_app j t t' : gots j (t ++ t') = gots j t ++ gots j t'.
Proof. apply flat_map_app. Qed.

Definition good (n i : nat) (t : list (io M)) : Prop := forall e, In e t -> partnerOf e < n /\ partnerOf e <> i.

Section Net.
Context {S : Type}.
Variable body : nat -> S -> option (proc M S).
Notation sstep := (sstep body).
Notation astep := (astep body).

(** process [i] alone exchanges [t] through the channels *)
Lemma run_resid p t p' : resid p t p' -> forall c q f i n, length c = n -> i < n -> nth_error c i = Some p -> good n i t ->
  holds n q (fun a j => if j =? i then gots a t ++ f a j else f a j) ->
  exists q', reaches astep (c, q) (upd i p' c, q') /\ holds n q' (fun a j => if a =? i then f a j ++ sents j t else f a j).
Proof.
  induction 1 as [p|j m k t p' H IH|j m k t p' H IH]; intros c q f i n L Hi E D Hq.
  - exists q. rewrite upd_same by exact E. split; [exists []; constructor|]. eapply holds_ext; [|exact Hq].
    intros a j _ _. cbv beta. destruct (j =? i), (a =? i); cbn; rewrite ?app_nil_r; reflexivity.
  - destruct (D _ (or_introl eq_refl)) as (Hj & Ne). cbn in Hj, Ne.
    assert (St : astep i (c, q) (upd i k c, chset (length c) i j (chget (length c) i j q ++ [m]) q)) by (apply as_send; auto; lia).
    rewrite L in St. pose proof Hq as (Lq & Hq').
    assert (G : chget n i j q = f i j).
    { rewrite (Hq' i j) by auto. destruct (Nat.eqb_spec j i); [congruence|reflexivity]. }
    destruct (IH (upd i k c) (chset n i j (chget n i j q ++ [m]) q) (put f i j (f i j ++ [m])) i n) as (q' & (w & R) & Hq2).
    + rewrite upd_length; exact L.
    + exact Hi.
    + apply nth_upd_eq. lia.
    + intros e He. apply D. right; exact He.
    + rewrite G. eapply holds_ext; [|apply (holds_set n q _ i j (f i j ++ [m]) Hi Hj Hq)].
      intros a b _ _. unfold put. cbv beta. destruct (Nat.eqb_spec b i) as [->|].
      * destruct (Nat.eqb_spec i j); [congruence|]. rewrite andb_false_r. cbn. reflexivity.
      * reflexivity.
    + exists q'. rewrite upd_upd in R. split; [exists (i :: w); econstructor; eauto|]. eapply holds_ext; [|exact Hq2].
      intros a b _ _. cbv beta. destruct (Nat.eqb_spec a i) as [->|]; [|unfold put; destruct (Nat.eqb_spec a i); [congruence|reflexivity]].
      unfold put. rewrite Nat.eqb_refl. cbn [andb sents flat_map]. rewrite (Nat.eqb_sym j b).
      destruct (Nat.eqb_spec b j) as [->|]; cbn [app]; [rewrite <- app_assoc; reflexivity|reflexivity].
  - destruct (D _ (or_introl eq_refl)) as (Hj & Ne). cbn in Hj, Ne. pose proof Hq as (Lq & Hq').
    assert (G : chget n j i q = m :: (gots j t ++ f j i)).
    { rewrite (Hq' j i) by auto. rewrite Nat.eqb_refl. cbn [gots flat_map]. rewrite Nat.eqb_refl. reflexivity. }
    assert (St : astep i (c, q) (upd i (k m) c, chset (length c) j i (gots j t ++ f j i) q)).
    { eapply (as_recv body i j m k); auto; rewrite L; auto. }
    rewrite L in St.
    destruct (IH (upd i (k m) c) (chset n j i (gots j t ++ f j i) q) f i n) as (q' & (w & R) & Hq2).
    + rewrite upd_length; exact L.
    + exact Hi.
    + apply nth_upd_eq. lia.
    + intros e He. apply D. right; exact He.
    + eapply holds_ext; [|apply (holds_set n q _ j i (gots j t ++ f j i) Hj Hi Hq)].
      intros a b _ _. unfold put. cbv beta. destruct (Nat.eqb_spec b i) as [->|].
      * rewrite andb_true_r. cbn [gots flat_map]. rewrite (Nat.eqb_sym j a). destruct (Nat.eqb_spec a j) as [->|]; reflexivity.
      * rewrite andb_false_r. reflexivity.
    + exists q'. rewrite upd_upd in R. split; [exists (i :: w); econstructor; eauto|]. exact Hq2.
Qed.

(** a process moves in the network of [n] processes *)
Lemma run_rank p t p' n P i q f : resid p t p' -> i < n -> P i = p -> good n i t ->
  holds n q (fun a j => if j =? i then gots a t ++ f a j else f a j) ->
  exists q', reaches astep (ranks n P, q) (ranks n (putp i p' P), q') /\ holds n q' (fun a j => if a =? i then f a j ++ sents j t else f a j).
Proof.
  intros R Hi HP D Hq. destruct (run_resid _ _ _ R (ranks n P) q f i n) as (q' & R' & H'); auto.
  - apply ranks_len.
  - rewrite ranks_nth by exact Hi. congruence.
  - exists q'. rewrite ranks_upd in R'. auto.
Qed.

Lemma steps_trans x y u : reaches astep x y -> reaches astep y u -> reaches astep x u.
Proof. intros (w & H) (w' & H'). exists (w ++ w'). eapply lrun_app; eauto. Qed.

(** Buffered: all but [z] send, then [z] runs, then all but [z] receive. *)
Section Rounds.
Variables (n z : nat) (P Q R : nat -> proc M S) (t1 t2 : nat -> list (io M)) (tz : list (io M)).
Hypotheses (Hz : z < n)
  (H1 : forall i, i < n -> i <> z -> resid (P i) (t1 i) (Q i)) (H2 : forall i, i < n -> i <> z -> resid (Q i) (t2 i) (R i))
  (H3 : resid (P z) tz (R z))
  (G1 : forall i, i < n -> i <> z -> good n i (t1 i)) (G2 : forall i, i < n -> i <> z -> good n i (t2 i)) (G3 : good n z tz)
  (N1 : forall i a, i < n -> i <> z -> gots a (t1 i) = []) (N2 : forall i a, i < n -> i <> z -> sents a (t2 i) = [])
  (M1 : forall i, i < n -> i <> z -> gots i tz = sents z (t1 i))
  (M2 : forall i, i < n -> i <> z -> gots z (t2 i) = sents i tz)
  (M3 : forall i j, i < n -> j < n -> i <> z -> j <> z -> gots i (t2 j) = sents j (t1 i)).

Let F1 (k i j : nat) : list M := if (i <? k) && negb (i =? z) then sents j (t1 i) else [].
Let F2 (k i j : nat) : list M :=
  if j =? z then [] else if j <? k then [] else if i =? z then sents j tz else sents j (t1 i).

Lemma own_nil n0 i (t : list (io M)) : good n0 i t -> sents i t = [] /\ gots i t = [].
Proof.
  intros G. induction t as [|e t IH]; [split; reflexivity|]. destruct IH as (A & B); [intros e' He'; apply G; right; exact He'|].
  pose proof (G e (or_introl eq_refl)) as (_ & Ne). destruct e as [j m|j m]; cbn in *; destruct (Nat.eqb_spec j i); try congruence; auto.
Qed.

Lemma phase1 : forall k, k <= n -> exists q, reaches astep (ranks n P, emptych n) (ranks n (fun i => if (i <? k) && negb (i =? z) then Q i else P i), q) /\
  holds n q (F1 k).
Proof.
  induction k as [|k IH]; intros Hk.
  - exists (emptych n). split; [exists []; constructor|apply holds_empty].
  - destruct IH as (q & Rn & Hh); [lia|]. destruct (Nat.eq_dec k z) as [->|Nk].
    + exists q. split.
      * erewrite (ranks_ext n (fun i => if (i <? Datatypes.S z) && negb (i =? z) then Q i else P i)); [exact Rn|]. intros i Hi. cbv beta.
        destruct (Nat.eqb_spec i z) as [->|]; [rewrite !andb_false_r; reflexivity|]. rewrite !andb_true_r.
        destruct (Nat.ltb_spec i (Datatypes.S z)), (Nat.ltb_spec i z); try lia; reflexivity.
      * eapply holds_ext; [|exact Hh]. intros i j _ _. unfold F1. destruct (Nat.eqb_spec i z) as [->|]; [rewrite !andb_false_r; reflexivity|]. rewrite !andb_true_r.
        destruct (Nat.ltb_spec i (Datatypes.S z)), (Nat.ltb_spec i z); try lia; reflexivity.
    + destruct (run_rank _ _ _ n (fun i => if (i <? k) && negb (i =? z) then Q i else P i) k q (F1 k) (H1 k ltac:(lia) Nk)) as (q' & R' & H').
      * lia.
      * cbv beta. rewrite Nat.ltb_irrefl. reflexivity.
      * apply G1; auto; lia.
      * eapply holds_ext; [|exact Hh]. intros a j Ha Hj. cbv beta. rewrite (N1 k a) by (auto; lia). cbn [app]. destruct (j =? k); reflexivity.
      * exists q'. split.
        { eapply steps_trans; [exact Rn|]. erewrite (ranks_ext n (fun i => if (i <? Datatypes.S k) && negb (i =? z) then Q i else P i)); [exact R'|].
          intros i Hi. unfold putp. destruct (Nat.eqb_spec i k) as [->|].
          - rewrite (proj2 (Nat.ltb_lt k (Datatypes.S k))) by lia. destruct (Nat.eqb_spec k z); [congruence|reflexivity].
          - destruct (Nat.ltb_spec i (Datatypes.S k)), (Nat.ltb_spec i k); try lia; reflexivity. }
        { eapply holds_ext; [|exact H']. intros i j _ _. unfold F1. cbv beta. destruct (Nat.eqb_spec i k) as [->|].
          - rewrite Nat.ltb_irrefl, (proj2 (Nat.ltb_lt k (Datatypes.S k))) by lia. destruct (Nat.eqb_spec k z); [congruence|reflexivity].
          - destruct (Nat.ltb_spec i (Datatypes.S k)), (Nat.ltb_spec i k); try lia; reflexivity. }
Qed.

Lemma phase2 : exists q, reaches astep (ranks n P, emptych n) (ranks n (fun i => if i =? z then R i else Q i), q) /\ holds n q (F2 0).
Proof.
  destruct (phase1 n (Nat.le_refl n)) as (q & Rn & Hh).
  destruct (run_rank _ _ _ n (fun i => if (i <? n) && negb (i =? z) then Q i else P i) z q (fun a j => if j =? z then [] else if a =? z then [] else sents j (t1 a)) H3) as (q' & R' & H').
  - exact Hz.
  - cbv beta. rewrite Nat.eqb_refl, andb_false_r. reflexivity.
  - exact G3.
  - eapply holds_ext; [|exact Hh]. intros a j Ha Hj. unfold F1. rewrite (proj2 (Nat.ltb_lt a n)) by exact Ha. cbn [andb]. cbv beta.
    destruct (Nat.eqb_spec j z) as [->|].
    + destruct (Nat.eqb_spec a z) as [->|]; cbn [negb].
      * rewrite (proj2 (own_nil _ _ _ G3)). reflexivity.
      * rewrite (M1 a) by auto. rewrite app_nil_r. reflexivity.
    + destruct (Nat.eqb_spec a z); reflexivity.
  - exists q'. split.
    + eapply steps_trans; [exact Rn|]. erewrite (ranks_ext n (fun i => if i =? z then R i else Q i)); [exact R'|].
      intros i Hi. unfold putp. destruct (Nat.eqb_spec i z) as [->|]; [reflexivity|]. rewrite (proj2 (Nat.ltb_lt i n)) by exact Hi. reflexivity.
    + eapply holds_ext; [|exact H']. intros i j _ _. unfold F2. cbv beta. destruct (Nat.eqb_spec j z) as [->|].
      * destruct (Nat.eqb_spec i z) as [->|]; [|reflexivity]. rewrite (proj1 (own_nil _ _ _ G3)). reflexivity.
      * destruct (i =? z); reflexivity.
Qed.

Lemma phase3 : forall k, k <= n -> exists q, reaches astep (ranks n P, emptych n) (ranks n (fun i => if (i =? z) || (i <? k) then R i else Q i), q) /\
  holds n q (F2 k).
Proof.
  induction k as [|k IH]; intros Hk.
  - destruct phase2 as (q & Rn & Hh). exists q. split; [|exact Hh].
    erewrite (ranks_ext n (fun i => if (i =? z) || (i <? 0) then R i else Q i)); [exact Rn|]. intros i Hi. cbv beta. rewrite orb_false_r. reflexivity.
  - destruct IH as (q & Rn & Hh); [lia|]. destruct (Nat.eq_dec k z) as [->|Nk].
    + exists q. split.
      * erewrite (ranks_ext n (fun i => if (i =? z) || (i <? Datatypes.S z) then R i else Q i)); [exact Rn|]. intros i Hi. cbv beta.
        destruct (Nat.eqb_spec i z) as [->|]; [reflexivity|]. cbn [orb].
        destruct (Nat.ltb_spec i (Datatypes.S z)), (Nat.ltb_spec i z); try lia; reflexivity.
      * eapply holds_ext; [|exact Hh]. intros i j _ _. unfold F2. destruct (Nat.eqb_spec j z) as [->|]; [reflexivity|].
        destruct (Nat.ltb_spec j (Datatypes.S z)), (Nat.ltb_spec j z); try lia; reflexivity.
    + destruct (run_rank _ _ _ n (fun i => if (i =? z) || (i <? k) then R i else Q i) k q (F2 (Datatypes.S k)) (H2 k ltac:(lia) Nk)) as (q' & R' & H').
      * lia.
      * cbv beta. rewrite Nat.ltb_irrefl. destruct (Nat.eqb_spec k z); [congruence|reflexivity].
      * apply G2; auto; lia.
      * eapply holds_ext; [|exact Hh]. intros a j Ha Hj. unfold F2. cbv beta. destruct (Nat.eqb_spec j z) as [->|].
        { destruct (Nat.eqb_spec z k); [congruence|reflexivity]. }
        destruct (Nat.eqb_spec j k) as [->|].
        { rewrite Nat.ltb_irrefl, (proj2 (Nat.ltb_lt k (Datatypes.S k))) by lia. rewrite app_nil_r.
          destruct (Nat.eqb_spec a z) as [->|]; symmetry; [apply M2; auto; lia|apply M3; auto; lia]. }
        destruct (Nat.ltb_spec j (Datatypes.S k)), (Nat.ltb_spec j k); try lia; reflexivity.
      * exists q'. split.
        { eapply steps_trans; [exact Rn|]. erewrite (ranks_ext n (fun i => if (i =? z) || (i <? Datatypes.S k) then R i else Q i)); [exact R'|].
          intros i Hi. unfold putp. destruct (Nat.eqb_spec i k) as [->|].
          - rewrite (proj2 (Nat.ltb_lt k (Datatypes.S k))) by lia. rewrite orb_true_r. reflexivity.
          - destruct (Nat.ltb_spec i (Datatypes.S k)), (Nat.ltb_spec i k); try lia; reflexivity. }
        { eapply holds_ext; [|exact H']. intros i j Hi Hj. cbv beta. destruct (Nat.eqb_spec i k) as [->|]; [|reflexivity].
          rewrite (N2 k j) by (auto; lia). rewrite app_nil_r. reflexivity. }
Qed.

Theorem buffered_round : reaches astep (ranks n P, emptych n) (ranks n R, emptych n).
Proof.
  destruct (phase3 n (Nat.le_refl n)) as (q & Rn & Hh).
  assert (Eq : q = emptych n).
  { apply holds_empty_eq. eapply holds_ext; [|exact Hh]. intros i j Hi Hj. unfold F2. rewrite (proj2 (Nat.ltb_lt j n)) by exact Hj. destruct (j =? z); reflexivity. }
  rewrite Eq in Rn.
  erewrite (ranks_ext n R); [exact Rn|]. intros i Hi. cbv beta. rewrite (proj2 (Nat.ltb_lt i n)) by exact Hi. rewrite orb_true_r. reflexivity.
Qed.
End Rounds.

(** Rendezvous: everybody talks with [z] only. *)
Definition dual (z : nat) (i : nat) (t : list (io M)) : list (io M) :=
  flat_map (fun e => match e with
                     | Sent j m => if j =? i then [Got z m] else []
                     | Got j m => if j =? i then [Sent z m] else []
                     end) t.
Theorem blocking_round n z tz pz rz : resid pz tz rz -> z < n -> good n z tz -> forall P R, P z = pz -> R z = rz ->
  (forall i, i < n -> i <> z -> resid (P i) (dual z i tz) (R i)) ->
  reaches sstep (ranks n P) (ranks n R).
Proof.
  intros H Hz G. induction H as [p|j m k t p' H IH|j m k t p' H IH]; intros P R Ez Er D.
  - assert (Q : ranks n P = ranks n R).
    { apply ranks_ext. intros i Hi. destruct (Nat.eq_dec i z) as [->|Ni]; [congruence|]. specialize (D i Hi Ni). cbn in D. inversion D; congruence. }
    rewrite Q. exists []. constructor.
  - destruct (G _ (or_introl eq_refl)) as (Hj & Nj). cbn in Hj, Nj.
    pose proof (D j Hj Nj) as Dj. cbn [dual flat_map] in Dj. rewrite Nat.eqb_refl in Dj. cbn [app] in Dj. inversion Dj as [|? ? ? ? ? ?|a b kj u p'' Dj' E1 E2 E3]; subst.
    destruct (IH ltac:(intros e He; apply G; right; exact He) (putp j (kj m) (putp z k P)) R) as (w & Rn).
    + unfold putp. destruct (Nat.eqb_spec z j); [congruence|]. rewrite Nat.eqb_refl. reflexivity.
    + reflexivity.
    + intros i Hi Ni. unfold putp. destruct (Nat.eqb_spec i j) as [->|Nij]; [exact Dj'|].
      destruct (Nat.eqb_spec i z); [congruence|]. specialize (D i Hi Ni). cbn [dual flat_map] in D. destruct (Nat.eqb_spec j i); [congruence|exact D].
    + exists ((z, j) :: w). econstructor; [|exact Rn]. rewrite <- !ranks_upd.
      apply ss_comm; auto; rewrite ranks_nth by auto; congruence.
  - destruct (G _ (or_introl eq_refl)) as (Hj & Nj). cbn in Hj, Nj.
    pose proof (D j Hj Nj) as Dj. cbn [dual flat_map] in Dj. rewrite Nat.eqb_refl in Dj. cbn [app] in Dj. inversion Dj as [|a b kj u p'' Dj' E1 E2 E3|? ? ? ? ? ?]; subst.
    destruct (IH ltac:(intros e He; apply G; right; exact He) (putp j kj (putp z (k m) P)) R) as (w & Rn).
    + unfold putp. destruct (Nat.eqb_spec z j); [congruence|]. rewrite Nat.eqb_refl. reflexivity.
    + reflexivity.
    + intros i Hi Ni. unfold putp. destruct (Nat.eqb_spec i j) as [->|Nij]; [exact Dj'|].
      destruct (Nat.eqb_spec i z); [congruence|]. specialize (D i Hi Ni). cbn [dual flat_map] in D. destruct (Nat.eqb_spec j i); [congruence|exact D].
    + exists ((j, z) :: w). econstructor; [|exact Rn].
      assert (Q : ranks n (putp j kj (putp z (k m) P)) = upd z (k m) (upd j kj (ranks n P))).
      { rewrite !ranks_upd. apply ranks_ext. intros i Hi. unfold putp. destruct (Nat.eqb_spec i j), (Nat.eqb_spec i z); congruence. }
      rewrite Q. apply ss_comm; auto; rewrite ranks_nth by auto; congruence.
Qed.

(** every process makes local steps *)
Lemma local_rank n P i s s1 : i < n -> P i = PRet s -> local body i s s1 ->
  exists w, lrun sstep w (ranks n P) (ranks n (putp i (PRet s1) P)).
Proof.
  intros Hi HP H. revert P HP. induction H as [s|s s1 s2 H _ IH]; intros P HP.
  - exists []. erewrite (ranks_ext n (putp i (PRet s) P)); [constructor|]. intros j Hj. unfold putp. destruct (Nat.eqb_spec j i); congruence.
  - destruct (IH (putp i (PRet s1) P)) as (w & R); [unfold putp; rewrite Nat.eqb_refl; reflexivity|].
    exists ((i, i) :: w). econstructor.
    + apply (ss_loop body i s (PRet s1) (ranks n P)); [rewrite ranks_nth by exact Hi; congruence|exact H].
    + rewrite ranks_upd. erewrite (ranks_ext n (putp i (PRet s2) P)); [exact R|]. intros j Hj. unfold putp. destruct (Nat.eqb_spec j i); reflexivity.
Qed.
Lemma enter_rank n P i s s1 p : i < n -> P i = PRet s -> local body i s s1 -> body i s1 = Some p ->
  exists w, lrun sstep w (ranks n P) (ranks n (putp i p P)) /\ covers w i.
Proof.
  intros Hi HP H B. destruct (local_rank n P i s s1 Hi HP H) as (w & R). exists (w ++ [(i, i)]). split.
  - eapply lrun_app; [exact R|]. econstructor; [|constructor].
    assert (E : nth_error (ranks n (putp i (PRet s1) P)) i = Some (PRet s1)) by (rewrite ranks_nth by exact Hi; unfold putp; rewrite Nat.eqb_refl; reflexivity).
    pose proof (ss_loop body i s1 p _ E B) as St. rewrite ranks_upd in St.
    erewrite (ranks_ext n (putp i p P)); [exact St|]. intros j Hj. unfold putp. destruct (Nat.eqb_spec j i); reflexivity.
  - apply covers_app_r. exists i, i. cbn. auto.
Qed.
Lemma enter_all n (s s1 : nat -> S) (p : nat -> proc M S) : (forall i, i < n -> local body i (s i) (s1 i) /\ body i (s1 i) = Some (p i)) ->
  exists w, lrun sstep w (ranks n (fun i => PRet (s i))) (ranks n p) /\ forall i, i < n -> covers w i.
Proof.
  intros H. assert (Q : forall k, k <= n -> exists w, lrun sstep w (ranks n (fun i => PRet (s i))) (ranks n (fun i => if i <? k then p i else PRet (s i))) /\ forall i, i < k -> covers w i).
  { induction k as [|k IH]; intros Hk.
    - exists []. split; [constructor|intros i Hi; lia].
    - destruct IH as (w & R & C); [lia|]. destruct (H k ltac:(lia)) as (A & B).
      destruct (enter_rank n (fun i => if i <? k then p i else PRet (s i)) k (s k) (s1 k) (p k)) as (w' & R' & C'); [lia|cbv beta; rewrite Nat.ltb_irrefl; reflexivity|exact A|exact B|].
      exists (w ++ w'). split.
      + eapply lrun_app; [exact R|]. erewrite (ranks_ext n (fun i => if i <? Datatypes.S k then p i else PRet (s i))); [exact R'|].
        intros j Hj. unfold putp. destruct (Nat.eqb_spec j k) as [->|]; [rewrite (proj2 (Nat.ltb_lt k (Datatypes.S k))) by lia; reflexivity|].
        destruct (Nat.ltb_spec j (Datatypes.S k)), (Nat.ltb_spec j k); try lia; reflexivity.
      + intros i Hi. destruct (Nat.eq_dec i k) as [->|]; [apply covers_app_r, C'|apply covers_app_l, C; lia]. }
  destruct (Q n (Nat.le_refl n)) as (w & R & C). exists w. split; [|exact C].
  erewrite (ranks_ext n p); [exact R|]. intros i Hi. cbv beta. rewrite (proj2 (Nat.ltb_lt i n)) by exact Hi. reflexivity.
Qed.

(** From canonical rounds with buffered sends to all schedules. *)
Section Canon.
Variable K : net (M:=M) (S:=S) -> Prop.
Hypothesis HK : forall c, K c -> all_finished body c \/
  exists w c', lrun astep w (c, emptych (length c)) (c', emptych (length c')) /\ K c' /\
    forall i p, nth_error c i = Some p -> ~ finished body i p -> In i w.

Lemma buf_completes c0 x : K c0 -> reaches astep (c0, emptych (length c0)) x ->
  exists k, reaches astep x (k, emptych (length k)) /\ K k.
Proof.
  intros Hk [w Hw].
  apply arun_wrun in Hw; [|unfold achlen; simpl; apply emptych_length].
  destruct (always_completes (wstep body) Nat.eq_dec (wstep_det body) (wstep_diamond body)
    (fun x => exists k, x = (k, emptych (M:=M) (length k)) /\ K k)) with (c0 := (c0, emptych (M:=M) (length c0))) (c := x)
    as [y [[w' Hw'] (k & -> & Hkk)]].
  - intros y (k & -> & Hkk). destruct (HK k Hkk) as [Hf|(v & k' & Hv & Hk' & Hc)].
    + left. intros l c' [_ Hs]. eapply finished_no_astep; eauto.
    + right. apply arun_wrun in Hv; [|unfold achlen; simpl; apply emptych_length].
      exists v, (k', emptych (length k')). split; auto. split; [exists k'; auto|].
      intros l c1 [_ Hs].
      inversion Hs as [i j m kk c2 q Hij Hj Hi|i j m kk c2 q r Hij Hj Hi Hq|i s p c2 q Hi Hb]; subst.
      * eapply Hc; eauto. intros [s [E _]]; congruence.
      * rewrite chget_empty in Hq. congruence.
      * eapply Hc; eauto. intros [s' [E ?]]; congruence.
  - exists c0; auto.
  - exists w; auto.
  - exists k. split; auto. exists w'. apply (wrun_arun body); auto.
Qed.
Lemma err_not_run w : forall x y i e, lrun astep w x y -> nth_error (fst x) i = Some (PErr e) -> ~ In i w.
Proof.
  induction w as [|l w IH]; intros x y i e Hr Hi Hin; [destruct Hin|]. inversion Hr as [|a0 w0 x1 x2 x3 Hs Ht]; subst.
  destruct Hin as [->|Hin].
  - inversion Hs; subst; cbn in Hi; congruence.
  - eapply IH; [exact Ht| |exact Hin]. eapply (async_err_stays body [l]); [econstructor; [exact Hs|constructor]|exact Hi].
Qed.
Lemma buf_no_error c0 x : K c0 -> reaches astep (c0, emptych (length c0)) x -> ~ some_error (fst x).
Proof.
  intros Hk Hr (i & e & Hi).
  destruct (buf_completes _ _ Hk Hr) as [k [[w Hw] Hkk]].
  pose proof (async_err_stays body _ _ _ _ _ Hw Hi) as Hi'. simpl in Hi'.
  destruct (HK k Hkk) as [Hf|(w' & c' & Hw' & _ & Hc)].
  - destruct (Hf _ _ Hi') as [s [E _]]; congruence.
  - eapply (err_not_run w' _ _ i e Hw'); [exact Hi'|]. eapply Hc; eauto. intros [s [E _]]; congruence.
Qed.
Lemma buf_progress c0 x : K c0 -> reaches astep (c0, emptych (length c0)) x ->
  (all_finished body (fst x) /\ snd x = emptych (length (fst x)) /\ K (fst x)) \/ exists l x', astep l x x'.
Proof.
  intros Hk Hr. destruct (buf_completes _ _ Hk Hr) as [k [[w Hw] Hkk]].
  destruct w as [|l w]; [|right; inversion Hw; subst; eauto].
  inversion Hw; subst. simpl.
  destruct (HK k Hkk) as [Hf|(w' & c' & Hw' & _ & Hc)]; [left; auto|].
  destruct w' as [|l w']; [|right; inversion Hw'; subst; eauto].
  left. split; [|auto]. intros i p Hi.
  assert (Hd : finished body i p \/ ~ finished body i p).
  { destruct p as [s|e|d m kk|sr kk]; try (right; intros [s' [E _]]; congruence).
    destruct (body i s) eqn:E; [right; intros [s' [E' ?]]; congruence|left; exists s; auto]. }
  destruct Hd as [?|Hd]; auto. destruct (Hc _ _ Hi Hd).
Qed.
End Canon.
End Net.
End Trace.
