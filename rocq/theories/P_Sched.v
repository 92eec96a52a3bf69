(** Processes that follow lists of messages which are sorted by one timetable never deadlock. *)
From Coq Require Import ZArith Bool List Lia Arith Sorted.
From Verif Require Import M_Net P_Net.
Import ListNotations.

Section Sched.
Context {M S E : Type}.
Variable body : nat -> S -> option (proc M S).
Variables (src dst : E -> nat) (t k : E -> Z).
Notation net := (net (M:=M) (S:=S)).

Definition before (e e' : E) : Prop := (t e < t e' \/ t e = t e' /\ k e < k e')%Z.

(** [p], executed by process [i], exchanges the messages [l] in this order and returns a state with Q, or stops with an error *)
Fixpoint shaped {A} (i : nat) (p : proc M A) (l : list E) (Q : A -> Prop) : Prop :=
  match p with
  | PRet a => l = [] /\ Q a
  | PErr _ => True
  | PSend j m p' => exists e l', l = e :: l' /\ src e = i /\ dst e = j /\ shaped i p' l' Q
  | PRecv j p' => exists e l', l = e :: l' /\ src e = j /\ dst e = i /\ forall m, shaped i (p' m) l' Q
  end.
Lemma shaped_weaken {A} i (p : proc M A) : forall l (Q R : A -> Prop), (forall a, Q a -> R a) -> shaped i p l Q -> shaped i p l R.
Proof using.
  clear body S.
  induction p as [a|x|j m p IH|j p IH]; intros l Q R H; cbn [shaped]; [intuition|auto| |].
  - intros (e & l' & H1 & H2 & H3 & H4). exists e, l'. eauto 6.
  - intros (e & l' & H1 & H2 & H3 & H4). exists e, l'. repeat split; auto. intros m. apply (IH m l' Q R H), H4.
Qed.
Lemma shaped_bind {A B} i (p : proc M A) (f : A -> proc M B) : forall l1 l2 (Q : A -> Prop) (R : B -> Prop),
  shaped i p l1 Q -> (forall a, Q a -> shaped i (f a) l2 R) -> shaped i (bind p f) (l1 ++ l2) R.
Proof.
  induction p as [a|x|j m p IH|j p IH]; intros l1 l2 Q R; cbn [shaped bind].
  - intros [-> Ha] Hf. apply Hf, Ha.
  - auto.
  - intros (e & l' & -> & H2 & H3 & H4) Hf. exists e, (l' ++ l2). cbn [app]. repeat split; auto. apply (IH l' l2 Q R); auto.
  - intros (e & l' & -> & H2 & H3 & H4) Hf. exists e, (l' ++ l2). cbn [app]. repeat split; auto. intros m. apply (IH m l' l2 Q R); auto.
Qed.

(** state [s] of process [i], which has the messages [l] still to come *)
Variable Inv : nat -> S -> list E -> Prop.
Hypothesis HInv : forall i s l, Inv i s l -> match body i s with None => l = [] | Some p => exists l1 l2, l = l1 ++ l2 /\ shaped i p l1 (fun s' => Inv i s' l2) end.
Definition follows (i : nat) (p : proc M S) (l : list E) : Prop := exists l1 l2, l = l1 ++ l2 /\ shaped i p l1 (fun s => Inv i s l2).

Lemma follows_send i j m p l : follows i (PSend j m p) l -> exists e l', l = e :: l' /\ src e = i /\ dst e = j /\ follows i p l'.
Proof. intros (l1 & l2 & -> & (e & l' & -> & H1 & H2 & H3)). exists e, (l' ++ l2). repeat split; auto. exists l', l2. auto. Qed.
Lemma follows_recv i j p l : follows i (PRecv j p) l -> exists e l', l = e :: l' /\ src e = j /\ dst e = i /\ forall m, follows i (p m) l'.
Proof. intros (l1 & l2 & -> & (e & l' & -> & H1 & H2 & H3)). exists e, (l' ++ l2). repeat split; auto. intros m. exists l', l2. auto. Qed.
Lemma follows_loop i s p l : follows i (PRet s) l -> body i s = Some p -> follows i p l.
Proof. intros (l1 & l2 & -> & (-> & H)) Hb. specialize (HInv _ _ _ H). rewrite Hb in HInv. exact HInv. Qed.
Lemma follows_end i s l : follows i (PRet s) l -> body i s = None -> l = [].
Proof. intros (l1 & l2 & -> & (-> & H)) Hb. specialize (HInv _ _ _ H). rewrite Hb in HInv. exact HInv. Qed.

Lemma before_trans a b c : before a b -> before b c -> before a c. Proof. unfold before. lia. Qed.
Lemma before_total a b : before a b \/ before b a \/ (t a = t b /\ k a = k b). Proof. unfold before. lia. Qed.

(** the messages from [i] to [j] *)
Definition way (i j : nat) (l : list E) : list E := filter (fun e => (src e =? i) && (dst e =? j)) l.
Lemma way_hit i j e l : src e = i -> dst e = j -> way i j (e :: l) = e :: way i j l.
Proof. intros <- <-. unfold way. cbn. rewrite !Nat.eqb_refl. reflexivity. Qed.
Lemma way_miss i j e l : src e <> i \/ dst e <> j -> way i j (e :: l) = way i j l.
Proof. intros H. unfold way. cbn. destruct (Nat.eqb_spec (src e) i); [|reflexivity]. destruct (Nat.eqb_spec (dst e) j); [|reflexivity]. destruct H; contradiction. Qed.

Variable n : nat.
(** what makes the lists executable: it stays true when a process goes on, and then some process waits for a message
    that is the next one for its partner as well *)
Variable W : (nat -> list E) -> Prop.
Hypothesis W_tail : forall R R' i e l, W R -> R i = e :: l -> (forall a, R' a = if a =? i then l else R a) -> W R'.
Definition own (R : nat -> list E) : Prop := forall i e, i < n -> In e (R i) -> (src e = i \/ dst e = i) /\ src e <> dst e /\ src e < n /\ dst e < n.
Hypothesis W_next : forall R, W R -> own R -> (exists i, i < n /\ R i <> []) ->
  exists i e l, i < n /\ R i = e :: l /\ forall j, j = src e \/ j = dst e -> In e (R j) -> exists l', R j = e :: l'.
(** [q] are messages that were sent and not yet received *)
Record ok (c : net) (R : nat -> list E) (q : nat -> nat -> list E) : Prop := {
  ok_len : length c = n;
  ok_follows : forall i p, nth_error c i = Some p -> follows i p (R i);
  ok_w : W R;
  ok_own : own R;
  ok_match : forall i j, i < n -> j < n -> i <> j -> way i j (R j) = q i j ++ way i j (R i)
}.

Lemma nth_lt {A} (l : list A) i x : nth_error l i = Some x -> i < length l.
Proof. intros H. apply nth_error_Some. congruence. Qed.

(** blocking sends *)
Definition okS (c : net) : Prop := exists R, ok c R (fun _ _ => []).
Lemma upd2_nth (c : net) i j (a b : proc M S) m : i <> j -> i < length c -> j < length c -> nth_error (upd j b (upd i a c)) m = if m =? j then Some b else if m =? i then Some a else nth_error c m.
Proof.
  intros Ne Hi Hj. destruct (Nat.eqb_spec m j) as [->|N1].
  - rewrite nth_upd_eq by (rewrite upd_length; exact Hj). reflexivity.
  - rewrite nth_upd_ne by congruence. destruct (Nat.eqb_spec m i) as [->|N2]; [rewrite nth_upd_eq by exact Hi; reflexivity|]. rewrite nth_upd_ne by congruence. reflexivity.
Qed.
Lemma okS_step l c c' : okS c -> sstep body l c c' -> okS c'.
Proof.
  intros (R & K) H. inversion H as [i j m ki kj c0 Ne Hi Hj|i s p c0 Hi Hb]; subst.
  - pose proof (nth_lt _ _ _ Hi) as Li. pose proof (nth_lt _ _ _ Hj) as Lj. destruct K as [K1 K2 K3 K4 K5]. rewrite K1 in Li, Lj.
    destruct (follows_send _ _ _ _ _ (K2 i _ Hi)) as (e & li & Ei & S1 & D1 & F1). destruct (follows_recv _ _ _ _ (K2 j _ Hj)) as (e' & lj & Ej & S2 & D2 & F2).
    assert (X : e' :: way i j lj = e :: way i j li). { specialize (K5 i j Li Lj Ne). rewrite Ei, Ej, (way_hit i j e), (way_hit i j e') in K5 by assumption. exact K5. }
    injection X as -> Xw. exists (fun a => if a =? j then lj else if a =? i then li else R a). split.
    + rewrite !upd_length. exact K1.
    + intros a p Ha. rewrite upd2_nth in Ha by (auto; lia). destruct (Nat.eqb_spec a j) as [->|N1]; [injection Ha as <-; apply F2|]. destruct (Nat.eqb_spec a i) as [->|N2]; [injection Ha as <-; exact F1|]. apply K2, Ha.
    + apply W_tail with (R := fun a => if a =? i then li else R a) (i := j) (e := e) (l := lj); [apply W_tail with (R := R) (i := i) (e := e) (l := li); [exact K3|exact Ei|reflexivity]| |reflexivity].
      destruct (Nat.eqb_spec j i); [congruence|]. exact Ej.
    + intros a x Ha Hx. apply K4; [exact Ha|]. destruct (Nat.eqb_spec a j) as [->|N1]; [rewrite Ej; right; exact Hx|]. destruct (Nat.eqb_spec a i) as [->|N2]; [rewrite Ei; right; exact Hx|]. exact Hx.
    + intros a b Ha Hb Nab. specialize (K5 a b Ha Hb Nab). cbn [app] in *.
      assert (G : forall x, way a b (if x =? j then lj else if x =? i then li else R x) = if (a =? i) && (b =? j) && ((x =? i) || (x =? j)) then tl (way a b (R x)) else way a b (R x)).
      { intros x. destruct (Nat.eqb_spec x j) as [->|N1]; [|destruct (Nat.eqb_spec x i) as [->|N2]].
        - rewrite orb_true_r, andb_true_r, Ej. destruct (Nat.eqb_spec a i) as [->|A1]; [destruct (Nat.eqb_spec b j) as [->|B1]|]; cbn [andb].
          + rewrite way_hit by auto. reflexivity.
          + rewrite way_miss by (right; congruence). reflexivity.
          + rewrite way_miss by (left; congruence). reflexivity.
        - rewrite orb_true_l, andb_true_r, Ei. destruct (Nat.eqb_spec a i) as [->|A1]; [destruct (Nat.eqb_spec b j) as [->|B1]|]; cbn [andb].
          + rewrite way_hit by auto. reflexivity.
          + rewrite way_miss by (right; congruence). reflexivity.
          + rewrite way_miss by (left; congruence). reflexivity.
        - rewrite andb_false_r. reflexivity. }
      rewrite !G, K5. destruct (Nat.eqb_spec a i) as [->|A1]; [|reflexivity]. destruct (Nat.eqb_spec b j) as [->|B1]; [|reflexivity].
      rewrite ?Nat.eqb_refl, ?orb_true_r, ?orb_true_l. reflexivity.
  - exists R. destruct K as [K1 K2 K3 K4 K5]. split; auto; [rewrite upd_length; exact K1|]. intros a p' Ha. pose proof (nth_lt _ _ _ Hi) as Li. destruct (Nat.eq_dec a i) as [->|N].
    + rewrite nth_upd_eq in Ha by exact Li. injection Ha as <-. exact (follows_loop _ _ _ _ (K2 i _ Hi) Hb).
    + rewrite nth_upd_ne in Ha by congruence. apply K2, Ha.
Qed.
Lemma cases (c : net) : (exists i e, nth_error c i = Some (PErr e)) \/ (exists i s p, nth_error c i = Some (PRet s) /\ body i s = Some p) \/
     forall i p, nth_error c i = Some p -> (exists j m p', p = PSend j m p') \/ (exists j p', p = PRecv j p') \/ exists s, p = PRet s /\ body i s = None.
Proof.
  assert (L : forall x, x <= length c -> (exists i e, nth_error c i = Some (PErr e)) \/ (exists i s p, nth_error c i = Some (PRet s) /\ body i s = Some p) \/
       forall i p, i < x -> nth_error c i = Some p -> (exists j m p', p = PSend j m p') \/ (exists j p', p = PRecv j p') \/ exists s, p = PRet s /\ body i s = None).
    { induction x as [|x IH]; intros Hx; [right; right; intros; lia|]. destruct (IH ltac:(lia)) as [H|[H|H]]; [left; exact H|right; left; exact H|].
      destruct (nth_error c x) as [p|] eqn:Hp; [|apply nth_error_None in Hp; lia].
      destruct p as [s|e|j m p|j p].
      - destruct (body x s) as [p|] eqn:Hb; [right; left; eauto|]. right. right. intros i q Hi Hq. destruct (Nat.eq_dec i x) as [->|N]; [|apply H; [lia|exact Hq]]. rewrite Hp in Hq. injection Hq as <-. eauto.
      - left. eauto.
      - right. right. intros i q Hi Hq. destruct (Nat.eq_dec i x) as [->|N]; [|apply H; [lia|exact Hq]]. rewrite Hp in Hq. injection Hq as <-. eauto.
      - right. right. intros i q Hi Hq. destruct (Nat.eq_dec i x) as [->|N]; [|apply H; [lia|exact Hq]]. rewrite Hp in Hq. injection Hq as <-. eauto. }
    destruct (L (length c) (le_n _)) as [H|[H|H]]; [left; exact H|right; left; exact H|]. right. right. intros i p Hp. exact (H i p (nth_lt _ _ _ Hp) Hp).
Qed.
Lemma okS_progress c : okS c -> some_error c \/ all_finished body c \/ exists l c', sstep body l c c'.
Proof.
  intros (R & K). destruct K as [K1 K2 K3 K4 K5].
  pose proof (cases c) as D.
  destruct D as [D|[(i & s & p & H1 & H2)|D]]; [left; exact D|right; right; exists (i, i), (upd i p c); constructor 2 with (s := s); assumption|]. right.
  destruct (existsb (fun i => match R i with [] => false | _ => true end) (seq 0 n)) eqn:X.
  - right. apply existsb_exists in X as (i0 & Hi0 & X). apply in_seq in Hi0. destruct (W_next R K3 K4) as (i & e & l & Hi & Ei & Min).
    { exists i0. split; [lia|]. destruct (R i0); [discriminate|discriminate]. }
    assert (In e (R i)) as Ie by (rewrite Ei; left; reflexivity). destruct (K4 i e Hi Ie) as (Own & Ne & Ls & Ld).
    (* both ends of e have it at the head *)
    assert (Head : forall a, a = src e \/ a = dst e -> exists l', R a = e :: l').
    { intros a Ha. assert (La : a < n) by (destruct Ha; subst; assumption). assert (In e (R a)).
      { pose proof (K5 (src e) (dst e) Ls Ld Ne) as Q. cbn [app] in Q. assert (W0 : In e (way (src e) (dst e) (R i))) by (unfold way; apply filter_In; rewrite !Nat.eqb_refl; auto).
        assert (W' : In e (way (src e) (dst e) (R a))).
        { destruct Ha as [-> | ->]; destruct Own as [<- | <-]; try exact W0; [rewrite <- Q|rewrite Q]; exact W0. }
        apply filter_In in W'. apply W'. }
      exact (Min a Ha H). }
    destruct (Head (src e) (or_introl eq_refl)) as (la & Ea). destruct (Head (dst e) (or_intror eq_refl)) as (lb & Eb).
    destruct (nth_error c (src e)) as [p|] eqn:Hp; [|apply nth_error_None in Hp; lia]. destruct (nth_error c (dst e)) as [p'|] eqn:Hp'; [|apply nth_error_None in Hp'; lia].
    assert (A : exists m ki, p = PSend (dst e) m ki).
    { pose proof (K2 _ _ Hp) as F. rewrite Ea in F. destruct (D _ _ Hp) as [(j & m & ki & ->)|[(j & ki & ->)|(s & -> & Hb)]].
      - apply follows_send in F as (e1 & l1 & E1 & H1 & H2 & _). injection E1 as <- <-. subst j. eauto.
      - apply follows_recv in F as (e1 & l1 & E1 & H1 & H2 & _). injection E1 as <- <-. congruence.
      - apply follows_end in F; [discriminate|exact Hb]. }
    assert (B : exists kj, p' = PRecv (src e) kj).
    { pose proof (K2 _ _ Hp') as F. rewrite Eb in F. destruct (D _ _ Hp') as [(j & m & ki & ->)|[(j & ki & ->)|(s & -> & Hb)]].
      - apply follows_send in F as (e1 & l1 & E1 & H1 & H2 & _). injection E1 as <- <-. congruence.
      - apply follows_recv in F as (e1 & l1 & E1 & H1 & H2 & _). injection E1 as <- <-. subst j. eauto.
      - apply follows_end in F; [discriminate|exact Hb]. }
    destruct A as (m & ki & ->). destruct B as (kj & ->). eexists. eexists. exact (ss_comm body (src e) (dst e) m ki kj c Ne Hp Hp').
  - left. intros i p Hp. pose proof (nth_lt _ _ _ Hp) as Li. assert (R i = []).
    { assert (Y : forall j, In j (seq 0 n) -> (match R j with [] => false | _ => true end) = false). { intros j Hj. destruct (match R j with [] => false | _ => true end) eqn:Z; [|reflexivity]. rewrite <- X. symmetry. apply existsb_exists. eauto. }
      specialize (Y i ltac:(apply in_seq; lia)). destruct (R i); [reflexivity|discriminate]. }
    pose proof (K2 _ _ Hp) as F. rewrite H in F. destruct (D _ _ Hp) as [(j & m & ki & ->)|[(j & ki & ->)|(s & -> & Hb)]].
    + apply follows_send in F as (? & ? & ? & _). discriminate.
    + apply follows_recv in F as (? & ? & ? & _). discriminate.
    + exists s. auto.
Qed.
Theorem sched_blocking c0 c : okS c0 -> reaches (sstep body) c0 c -> some_error c \/ all_finished body c \/ exists l c', sstep body l c c'.
Proof. intros H (w & R). apply okS_progress. induction R; [exact H|]. apply IHR. eapply okS_step; eauto. Qed.

(** buffered sends *)
Definition okA (x : net * chans (M:=M)) : Prop := length (snd x) = n * n /\ exists R q, ok (fst x) R q /\ forall i j, i < n -> j < n -> i <> j -> length (q i j) = length (chget n i j (snd x)).
Definition setq (q : nat -> nat -> list E) (i j : nat) (l : list E) : nat -> nat -> list E := fun a b => if (a =? i) && (b =? j) then l else q a b.
Lemma okA_step l x x' : okA x -> astep body l x x' -> okA x'.
Proof.
  intros (Lx & R & q & K & Lq) H. destruct K as [K1 K2 K3 K4 K5].
  inversion H as [i j m p c ch Ne Lj Hi|i j m p c ch r Ne Lj Hi Hc|i s p c ch Hi Hb]; subst; rename l into i; cbn [fst snd] in *; pose proof (nth_lt _ _ _ Hi) as Li; rewrite K1 in *; (split; [cbn [snd]; rewrite ?chset_length; exact Lx|]); cbn [fst snd].
  - destruct (follows_send _ _ _ _ _ (K2 i _ Hi)) as (e & li & Ei & S1 & D1 & F1).
    exists (fun a => if a =? i then li else R a), (setq q i j (q i j ++ [e])). split; [split|].
    + rewrite upd_length. exact K1.
    + intros a p' Ha. destruct (Nat.eqb_spec a i) as [->|N]; [rewrite nth_upd_eq in Ha by (rewrite K1; exact Li); injection Ha as <-; exact F1|]. rewrite nth_upd_ne in Ha by congruence. apply K2, Ha.
    + apply W_tail with (R := R) (i := i) (e := e) (l := li); [exact K3|exact Ei|reflexivity].
    + intros a y Ha Hy. apply K4; [exact Ha|]. destruct (Nat.eqb_spec a i) as [->|N]; [rewrite Ei; right; exact Hy|exact Hy].
    + intros a b Ha Hb Nab. specialize (K5 a b Ha Hb Nab). unfold setq. destruct (Nat.eqb_spec a i) as [->|A1]; [destruct (Nat.eqb_spec b j) as [->|B1]|]; cbn [andb].
      * destruct (Nat.eqb_spec j i) as [->|_]; [congruence|]. rewrite K5, Ei, way_hit, <- app_assoc by auto. reflexivity.
      * destruct (Nat.eqb_spec b i) as [->|_]; [congruence|]. rewrite K5, Ei, way_miss by (right; congruence). reflexivity.
      * destruct (Nat.eqb_spec b i) as [->|_]; [|exact K5]. rewrite <- K5, Ei, way_miss by (left; congruence). reflexivity.
    + intros a b Ha Hb Nab. unfold setq. destruct (Nat.eqb_spec a i) as [->|A1]; [destruct (Nat.eqb_spec b j) as [->|B1]|]; cbn [andb].
      * rewrite chget_set_eq by auto. rewrite !app_length, Lq by auto. reflexivity.
      * rewrite chget_set_ne by (auto; congruence). apply Lq; auto.
      * rewrite chget_set_ne by (auto; congruence). apply Lq; auto.
  - destruct (follows_recv _ _ _ _ (K2 i _ Hi)) as (e & li & Ei & S1 & D1 & F1).
    pose proof (K5 j i Lj Li ltac:(congruence)) as Q. rewrite Ei, way_hit in Q by auto. pose proof (Lq j i Lj Li ltac:(congruence)) as Lji. rewrite Hc in Lji. destruct (q j i) as [|e0 qr] eqn:Eq; [discriminate|].
    cbn [app] in Q. injection Q as <- Q. cbn [length] in Lji.
    exists (fun a => if a =? i then li else R a), (setq q j i qr). split; [split|].
    + rewrite upd_length. exact K1.
    + intros a p' Ha. destruct (Nat.eqb_spec a i) as [->|N]; [rewrite nth_upd_eq in Ha by (rewrite K1; exact Li); injection Ha as <-; apply F1|]. rewrite nth_upd_ne in Ha by congruence. apply K2, Ha.
    + apply W_tail with (R := R) (i := i) (e := e) (l := li); [exact K3|exact Ei|reflexivity].
    + intros a y Ha Hy. apply K4; [exact Ha|]. destruct (Nat.eqb_spec a i) as [->|N]; [rewrite Ei; right; exact Hy|exact Hy].
    + intros a b Ha Hb Nab. specialize (K5 a b Ha Hb Nab). unfold setq. destruct (Nat.eqb_spec a j) as [->|A1]; [destruct (Nat.eqb_spec b i) as [->|B1]|]; cbn [andb].
      * destruct (Nat.eqb_spec j i) as [->|_]; [congruence|]. exact Q.
      * destruct (Nat.eqb_spec j i) as [->|_]; [congruence|]. exact K5.
      * destruct (Nat.eqb_spec b i) as [->|B1]; destruct (Nat.eqb_spec a i) as [->|A2]; [congruence| | |exact K5].
        -- rewrite <- K5, Ei, way_miss by (left; congruence). reflexivity.
        -- rewrite K5, Ei, way_miss by (left; congruence). reflexivity.
    + intros a b Ha Hb Nab. unfold setq. destruct (Nat.eqb_spec a j) as [->|A1]; [destruct (Nat.eqb_spec b i) as [->|B1]|]; cbn [andb].
      * rewrite chget_set_eq by auto. lia.
      * rewrite chget_set_ne by (auto; congruence). apply Lq; auto.
      * rewrite chget_set_ne by (auto; congruence). apply Lq; auto.
  - exists R, q. split; [|exact Lq]. split; auto; [rewrite upd_length; exact K1|]. intros a p' Ha. destruct (Nat.eq_dec a i) as [->|N].
    + rewrite nth_upd_eq in Ha by (rewrite K1; exact Li). injection Ha as <-. exact (follows_loop _ _ _ _ (K2 i _ Hi) Hb).
    + rewrite nth_upd_ne in Ha by congruence. apply K2, Ha.
Qed.
Lemma okA_progress x : okA x -> some_error (fst x) \/ (all_finished body (fst x) /\ forall i j, i < n -> j < n -> i <> j -> chget n i j (snd x) = []) \/ exists l x', astep body l x x'.
Proof.
  destruct x as [c ch]. intros (Lx & R & q & K & Lq). destruct K as [K1 K2 K3 K4 K5]. cbn [fst snd] in *.
  destruct (cases c) as [D|[(i & s & p & H1 & H2)|D]]; [left; exact D|right; right; exists i, (upd i p c, ch); constructor 3 with (s := s); assumption|]. right.
  (* a send can always go on *)
  assert (Snd : (exists i j m p, nth_error c i = Some (PSend j m p)) \/ forall i p, nth_error c i = Some p -> (exists j p', p = PRecv j p') \/ exists s, p = PRet s /\ body i s = None).
  { destruct (existsb (fun p => match p with PSend _ _ _ => true | _ => false end) c) eqn:X.
    - left. apply existsb_exists in X as (p & Ip & X). apply In_nth_error in Ip as (i & Hi). destruct p; try discriminate. eauto 6.
    - right. intros i p Hp. destruct (D i p Hp) as [(j & m & p' & ->)|G]; [|exact G]. exfalso. apply nth_error_In in Hp. assert (Y : existsb (fun p => match p with PSend _ _ _ => true | _ => false end) c = true) by (apply existsb_exists; eauto). congruence. }
  destruct Snd as [(i & j & m & p & Hi)|Snd].
  { right. pose proof (nth_lt _ _ _ Hi) as Li. rewrite K1 in Li. destruct (follows_send _ _ _ _ _ (K2 i _ Hi)) as (e & li & Ei & S1 & D1 & _). destruct (K4 i e Li ltac:(rewrite Ei; left; reflexivity)) as (_ & Ne & _ & Ld).
    eexists. eexists. apply as_send with (i := i) (j := j) (m := m) (k := p); [congruence|rewrite K1; congruence|exact Hi]. }
  destruct (existsb (fun i => match R i with [] => false | _ => true end) (seq 0 n)) eqn:X.
  - right. apply existsb_exists in X as (i0 & Hi0 & X). apply in_seq in Hi0. destruct (W_next R K3 K4) as (i & e & l & Hi & Ei & Min).
    { exists i0. split; [lia|]. destruct (R i0); [discriminate|discriminate]. }
    assert (In e (R i)) as Ie by (rewrite Ei; left; reflexivity). destruct (K4 i e Hi Ie) as (Own & Ne & Ls & Ld).
    destruct (nth_error c i) as [p|] eqn:Hp; [|apply nth_error_None in Hp; lia]. pose proof (K2 _ _ Hp) as F. rewrite Ei in F.
    destruct (Snd _ _ Hp) as [(j & p' & ->)|(s & -> & Hb)]; [|apply follows_end in F; [discriminate|exact Hb]].
    apply follows_recv in F as (e1 & l1 & E1 & H1 & H2 & _). injection E1 as <- <-. subst j.
    destruct (chget n (src e) i ch) as [|m r] eqn:Hc; [exfalso|eexists; eexists; apply as_recv with (i := i) (j := src e) (m := m) (r := r); [congruence|rewrite K1; exact Ls|exact Hp|rewrite K1; exact Hc]].
    pose proof (Lq (src e) i Ls Hi ltac:(congruence)) as L0. rewrite Hc in L0. apply length_zero_iff_nil in L0. pose proof (K5 (src e) i Ls Hi ltac:(congruence)) as Q. rewrite L0 in Q. cbn [app] in Q.
    assert (W0 : In e (R (src e))). { assert (W0 : In e (way (src e) i (R (src e)))) by (rewrite <- Q; unfold way; apply filter_In; rewrite <- H2 at 2; rewrite !Nat.eqb_refl; auto). apply filter_In in W0. apply W0. }
    destruct (Min (src e) (or_introl eq_refl) W0) as (l2 & E2). rename e into e2.
    destruct (nth_error c (src e2)) as [p2|] eqn:Hp2; [|apply nth_error_None in Hp2; lia]. pose proof (K2 _ _ Hp2) as F2. rewrite E2 in F2.
    destruct (Snd _ _ Hp2) as [(j & p3 & ->)|(s & -> & Hb)]; [|apply follows_end in F2; [discriminate|exact Hb]].
    apply follows_recv in F2 as (e3 & l3 & E3 & H3 & H4 & _). injection E3 as <- <-. congruence.
  - assert (Y : forall j, j < n -> R j = []). { intros j Hj. destruct (R j) eqn:Z; [reflexivity|]. exfalso. assert (Y : existsb (fun i => match R i with [] => false | _ => true end) (seq 0 n) = true) by (apply existsb_exists; exists j; split; [apply in_seq; lia|rewrite Z; reflexivity]). congruence. }
    left. split.
    + intros i p Hp. pose proof (nth_lt _ _ _ Hp) as Li. pose proof (K2 _ _ Hp) as F. rewrite Y in F by lia. destruct (Snd _ _ Hp) as [(j & p' & ->)|(s & -> & Hb)]; [|exists s; auto].
      apply follows_recv in F as (? & ? & ? & _). discriminate.
    + intros i j Hi Hj Ne. pose proof (K5 i j Hi Hj Ne) as Q. rewrite (Y i Hi), (Y j Hj) in Q. cbn in Q. symmetry in Q. apply app_eq_nil in Q as [Q _]. pose proof (Lq i j Hi Hj Ne) as L0. rewrite Q in L0. symmetry in L0. apply length_zero_iff_nil in L0. exact L0.
Qed.
Theorem sched_buffered x0 x : okA x0 -> reaches (astep body) x0 x ->
  some_error (fst x) \/ (all_finished body (fst x) /\ forall i j, i < n -> j < n -> i <> j -> chget n i j (snd x) = []) \/ exists l x', astep body l x x'.
Proof. intros H (w & R). apply okA_progress. induction R; [exact H|]. apply IHR. eapply okA_step; eauto. Qed.
End Sched.

(** * Lists that are sorted by one timetable *)
Section Sorted.
Context {E : Type}.
Variables (src dst : E -> nat) (t k : E -> Z) (n : nat).
Hypothesis E_dec : forall x y : E, {x = y} + {x <> y}.
Notation earlier := (before t k).
Lemma least : forall (l : list E), l <> [] -> exists e, In e l /\ forall e', In e' l -> ~ earlier e' e.
Proof.
  induction l as [|a l IH]; [congruence|]. intros _. destruct l as [|b l].
  - exists a. split; [left; reflexivity|]. intros e' [<-|[]]. unfold before. lia.
  - destruct (IH ltac:(discriminate)) as (e & H1 & H2). destruct (before_total t k a e) as [B|B].
    + exists a. split; [left; reflexivity|]. intros e' [<-|He']; [unfold before; lia|]. intros C. exact (H2 e' He' (before_trans t k _ _ _ C B)).
    + exists e. split; [right; exact H1|]. intros e' [<-|He']; [|apply H2, He']. unfold before in *. lia.
Qed.
(** a process that waits for the earliest message of all *)
Lemma earliest (R : nat -> list E) : (exists i, i < n /\ R i <> []) -> exists i e l, i < n /\ R i = e :: l /\ forall j e' l', j < n -> R j = e' :: l' -> ~ earlier e' e.
Proof.
  intros (i0 & Hi0 & Ne). set (heads := flat_map (fun i => match R i with [] => [] | e :: _ => [e] end) (seq 0 n)).
  assert (Hh : forall i e l, i < n -> R i = e :: l -> In e heads).
  { intros i e l Hi E1. apply in_flat_map. exists i. split; [apply in_seq; lia|]. rewrite E1. left. reflexivity. }
  destruct (least heads) as (e & H1 & H2).
  - destruct (R i0) as [|e0 l0] eqn:E0; [congruence|]. specialize (Hh i0 e0 l0 Hi0 E0). intros X. rewrite X in Hh. destruct Hh.
  - apply in_flat_map in H1 as (i & Hi & He). apply in_seq in Hi. destruct (R i) as [|e1 l1] eqn:E1; [destruct He|]. destruct He as [->|[]].
    exists i, e, l1. split; [lia|]. split; [exact E1|]. intros j e' l' Hj E2. apply H2. exact (Hh j e' l' Hj E2).
Qed.
Lemma sorted_head e l : StronglySorted earlier (e :: l) -> forall e', In e' (e :: l) -> e' = e \/ earlier e e'.
Proof. intros H e' [<-|H1]; [left; reflexivity|]. right. inversion H as [|? ? _ F]; subst. rewrite Forall_forall in F. apply F, H1. Qed.


Definition by_time (R : nat -> list E) : Prop := forall i, i < n -> StronglySorted earlier (R i).
Lemma by_time_tail R R' i e l : by_time R -> R i = e :: l -> (forall a, R' a = if a =? i then l else R a) -> by_time R'.
Proof. intros H Ei HR a Ha. rewrite HR. specialize (H a Ha). destruct (Nat.eqb_spec a i) as [->|N]; [rewrite Ei in H; inversion H; assumption|exact H]. Qed.
Lemma by_time_next R : by_time R -> own src dst n R -> (exists i, i < n /\ R i <> []) -> exists i e l, i < n /\ R i = e :: l /\ forall j, j = src e \/ j = dst e -> In e (R j) -> exists l', R j = e :: l'.
Proof.
  intros H O Ne. destruct (earliest R Ne) as (i & e & l & Hi & Ei & Min). exists i, e, l. split; [exact Hi|]. split; [exact Ei|]. intros j Hj Ij.
  assert (Lj : j < n). { destruct (O i e Hi) as (_ & _ & A & B); [rewrite Ei; left; reflexivity|]. destruct Hj as [-> | ->]; assumption. }
  destruct (R j) as [|e' l'] eqn:Ej; [destruct Ij|]. exists l'. f_equal. pose proof (H j Lj) as So. rewrite Ej in So. destruct (sorted_head _ _ So e Ij) as [->|B]; [reflexivity|]. exfalso. exact (Min j e' l' Lj Ej B).
Qed.

(** * Processes that form trees, and each two of them agree on the order of their messages *)
(** [forest g]: each edge of [g] brings a new node *)
Inductive forest : list (nat * nat) -> Prop :=
| f_nil : forest []
| f_cons a b g : forest g -> a <> b -> (forall x y, In (x, y) g -> x <> a /\ y <> a) \/ (forall x y, In (x, y) g -> x <> b /\ y <> b) -> forest ((a, b) :: g).
Definition adj (g : list (nat * nat)) (i j : nat) : Prop := In (i, j) g \/ In (j, i) g.
(** in a forest, processes that wait for each other include two that wait for one another *)
Lemma forest_pair g : forest g -> forall (U : nat -> bool) (p : nat -> nat) i0, U i0 = true -> (forall i, U i = true -> U (p i) = true /\ adj g i (p i)) -> exists i, U i = true /\ p (p i) = i.
Proof.
  induction 1 as [|a b g F IH Nab Hnew]; intros U p i0 U0 Hp.
  - destruct (Hp i0 U0) as (_ & [[]|[]]).
  - (* the new node and its only neighbour *)
    assert (G : forall v u, (v = a /\ u = b \/ v = b /\ u = a) -> (forall x y, In (x, y) g -> x <> v /\ y <> v) -> exists i, U i = true /\ p (p i) = i).
    { intros v u Hvu New. assert (Nvu : v <> u) by (destruct Hvu as [[-> ->]|[-> ->]]; congruence).
      assert (Only : forall i, U i = true -> p i = v -> i = u).
      { intros i Ui E1. destruct (Hp i Ui) as (_ & A). rewrite E1 in A. unfold adj in A. cbn [In] in A. destruct A as [[A|A]|[A|A]].
        - injection A as A1 A2. destruct Hvu as [[H1 H2]|[H1 H2]]; congruence.
        - destruct (New _ _ A). congruence.
        - injection A as A1 A2. destruct Hvu as [[H1 H2]|[H1 H2]]; congruence.
        - destruct (New _ _ A). congruence. }
      assert (Pv : U v = true -> p v = u).
      { intros Uv. destruct (Hp v Uv) as (_ & A). unfold adj in A. cbn [In] in A. destruct A as [[A|A]|[A|A]].
        - injection A as A1 A2. destruct Hvu as [[H1 H2]|[H1 H2]]; congruence.
        - destruct (New _ _ A). congruence.
        - injection A as A1 A2. destruct Hvu as [[H1 H2]|[H1 H2]]; congruence.
        - destruct (New _ _ A). congruence. }
      assert (Edge : forall i, U i = true -> i <> v -> p i <> v -> adj g i (p i)).
      { intros i Ui Ni Np. destruct (Hp i Ui) as (_ & A). unfold adj in *. cbn [In] in A. destruct A as [[A|A]|[A|A]]; auto; injection A as A1 A2; destruct Hvu as [[H1 H2]|[H1 H2]]; congruence. }
      assert (Rest : forall j, U j = true -> j <> v -> (forall i, U i = true -> p i <> v) -> exists i, U i = true /\ p (p i) = i).
      { intros j Uj Nj Nv. destruct (IH (fun i => U i && negb (i =? v)) p j) as (i & Ui & Hi).
        - rewrite Uj. destruct (Nat.eqb_spec j v); [congruence|reflexivity].
        - intros i Ui. apply andb_true_iff in Ui as [Ui Ni]. apply negb_true_iff, Nat.eqb_neq in Ni. destruct (Hp i Ui) as (X & _). split; [|apply Edge; auto]. rewrite X. destruct (Nat.eqb_spec (p i) v) as [Q|]; [destruct (Nv i Ui Q)|reflexivity].
        - exists i. apply andb_true_iff in Ui. split; [apply Ui|exact Hi]. }
      destruct (U u) eqn:Uu; [destruct (Nat.eq_dec (p u) v) as [Eu|Nu]|].
      - exists u. split; [exact Uu|]. rewrite Eu. apply Pv. rewrite <- Eu. apply Hp, Uu.
      - apply (Rest u); [exact Uu|congruence|]. intros i Ui E1. apply Nu. rewrite <- (Only i Ui E1). exact E1.
      - apply (Rest i0); [exact U0| |intros i Ui E1; rewrite (Only i Ui E1) in Ui; congruence].
        intros ->. pose proof (Pv U0) as E1. destruct (Hp v U0) as (X & _). rewrite E1 in X. congruence. }
    destruct Hnew as [New|New]; [apply (G a b)|apply (G b a)]; auto.
Qed.

Definition other (i : nat) (e : E) : nat := if src e =? i then dst e else src e.
(** the messages between two processes *)
Definition pair (i j : nat) (l : list E) : list E := filter (fun e => ((src e =? i) && (dst e =? j)) || ((src e =? j) && (dst e =? i))) l.
Definition by_pair (g : list (nat * nat)) (R : nat -> list E) : Prop :=
  forall i, i < n -> (forall e, In e (R i) -> adj g (src e) (dst e)) /\ forall j, StronglySorted earlier (pair i j (R i)).
Lemma pair_hit i j e l : src e = i /\ dst e = j \/ src e = j /\ dst e = i -> pair i j (e :: l) = e :: pair i j l.
Proof. intros [[<- <-]|[<- <-]]; unfold pair; cbn; rewrite !Nat.eqb_refl; [reflexivity|]. rewrite orb_true_r. reflexivity. Qed.
Lemma pair_in i j e l : src e = i /\ dst e = j \/ src e = j /\ dst e = i -> In e l -> In e (pair i j l).
Proof. intros H I0. unfold pair. apply filter_In. split; [exact I0|]. destruct H as [[<- <-]|[<- <-]]; rewrite !Nat.eqb_refl; [reflexivity|]. apply orb_true_r. Qed.
Lemma by_pair_tail g R R' i e l : by_pair g R -> R i = e :: l -> (forall a, R' a = if a =? i then l else R a) -> by_pair g R'.
Proof.
  intros H Ei HR a Ha. rewrite HR. destruct (H a Ha) as (H1 & H2). destruct (Nat.eqb_spec a i) as [->|N]; [|auto]. rewrite Ei in *. split; [intros x Hx; apply H1; right; exact Hx|].
  intros j. specialize (H2 j). unfold pair in *. cbn [filter] in H2. destruct (_ || _); [inversion H2; assumption|exact H2].
Qed.
Lemma by_pair_next g R : forest g -> by_pair g R -> own src dst n R -> (exists i, i < n /\ R i <> []) -> exists i e l, i < n /\ R i = e :: l /\ forall j, j = src e \/ j = dst e -> In e (R j) -> exists l', R j = e :: l'.
Proof.
  intros Fo H O (i0 & Hi0 & Ne).
  (* a process is blocked if its message comes later for its partner *)
  set (part := fun i => match R i with [] => i | e :: _ => other i e end).
  (* either some process is not blocked, or all unfinished processes wait for unfinished ones *)
  assert (Bnd : forall x, (exists i e l, i < n /\ R i = e :: l /\ forall j, j = src e \/ j = dst e -> In e (R j) -> exists l', R j = e :: l') \/
     forall i e l, i < x -> i < n -> R i = e :: l -> R (part i) <> []).
  { induction x as [|x IH]; [right; intros; lia|]. destruct IH as [IH|IH]; [left; exact IH|].
    destruct (Nat.ltb_spec x n) as [Lx|Lx]; [|right; intros i e l Hi Hi' E1; destruct (Nat.eq_dec i x); [lia|eapply IH; eauto; lia]].
    destruct (R x) as [|e l] eqn:Ex; [right; intros i e l Hi Hi' E1; destruct (Nat.eq_dec i x); [congruence|eapply IH; eauto; lia]|].
    destruct (R (part x)) as [|e' l'] eqn:Ep.
    - left. exists x, e, l. split; [exact Lx|]. split; [exact Ex|]. intros j Hj Ij. destruct (Nat.eq_dec j x) as [->|Nj]; [eauto|].
      assert (j = part x) as ->. { unfold part. rewrite Ex. destruct (O x e Lx) as (A & B & _); [rewrite Ex; left; reflexivity|]. unfold other. destruct (Nat.eqb_spec (src e) x); intuition congruence. }
      rewrite Ep in Ij. destruct Ij.
    - right. intros i f m Hi Hi' E1. destruct (Nat.eq_dec i x) as [->|]; [congruence|eapply IH; eauto; lia]. }
  destruct (Bnd n) as [D|D]; [exact D|]. clear Bnd.
  set (U := fun i => (i <? n) && match R i with [] => false | _ => true end).
  assert (HU : forall i, U i = true -> i < n /\ exists e l, R i = e :: l). { unfold U. intros i X. apply andb_true_iff in X as [X Y]. apply Nat.ltb_lt in X. split; [exact X|]. destruct (R i); [discriminate|eauto]. }
  destruct (forest_pair g Fo U part i0) as (i & Ui & Hi).
  - unfold U. destruct (Nat.ltb_spec i0 n); [|lia]. destruct (R i0); [congruence|reflexivity].
  - intros i Ui. destruct (HU i Ui) as (Li & e & l & Ei). pose proof (D i e l Li Li Ei) as Np. destruct (O i e Li) as (A & B & C1 & C2); [rewrite Ei; left; reflexivity|].
    assert (Q : part i < n /\ adj g i (part i)).
    { unfold part. rewrite Ei. destruct (H i Li) as (H1 & _). specialize (H1 e ltac:(rewrite Ei; left; reflexivity)). unfold other. destruct (Nat.eqb_spec (src e) i) as [<-|N]; [auto|]. destruct A as [A|<-]; [congruence|]. split; [exact C1|]. destruct H1; [right|left]; assumption. }
    split; [|apply Q]. unfold U. destruct (Nat.ltb_spec (part i) n); [|lia]. destruct (R (part i)); [congruence|reflexivity].
  - destruct (HU i Ui) as (Li & e & l & Ei). set (j := part i) in *.
    destruct (O i e Li) as (A & B & C1 & C2); [rewrite Ei; left; reflexivity|].
    assert (Pj : src e = i /\ dst e = j \/ src e = j /\ dst e = i). { unfold j, part. rewrite Ei. unfold other. destruct (Nat.eqb_spec (src e) i); intuition congruence. }
    assert (Lj : j < n) by (destruct Pj as [[_ <-]|[<- _]]; assumption).
    destruct (R j) as [|e' l'] eqn:Ej; [destruct (D i e l Li Li Ei Ej)|].
    assert (Pi : src e' = j /\ dst e' = i \/ src e' = i /\ dst e' = j). { destruct (O j e' Lj) as (A' & B' & _); [rewrite Ej; left; reflexivity|]. unfold part in Hi. rewrite Ej in Hi. unfold other in Hi. destruct (Nat.eqb_spec (src e') j); intuition congruence. }
    assert (Gi : forall x l0, R i = x :: l0 -> src x = i /\ dst x = j \/ src x = j /\ dst x = i -> (In x (R j) -> exists l1, R j = x :: l1) -> forall a, a = src x \/ a = dst x -> In x (R a) -> exists l1, R a = x :: l1).
    { intros x l0 E0 Px Hx a Ha Ia. destruct (Nat.eq_dec a i) as [->|Nai]; [eauto|]. assert (a = j) as -> by (destruct Ha as [-> | ->]; intuition congruence). apply Hx, Ia. }
    assert (Gj : forall x l0, R j = x :: l0 -> src x = j /\ dst x = i \/ src x = i /\ dst x = j -> (In x (R i) -> exists l1, R i = x :: l1) -> forall a, a = src x \/ a = dst x -> In x (R a) -> exists l1, R a = x :: l1).
    { intros x l0 E0 Px Hx a Ha Ia. destruct (Nat.eq_dec a j) as [->|Nai]; [eauto|]. assert (a = i) as -> by (destruct Ha as [-> | ->]; intuition congruence). apply Hx, Ia. }
    destruct (in_dec E_dec e (R j)) as [Iej|Iej]; [|exists i, e, l; split; [exact Li|]; split; [exact Ei|]; apply (Gi e l Ei Pj); intros; contradiction].
    destruct (in_dec E_dec e' (R i)) as [Iei|Iei]; [|exists j, e', l'; split; [exact Lj|]; split; [exact Ej|]; apply (Gj e' l' Ej Pi); intros; contradiction].
    destruct (H j Lj) as (_ & Sj). specialize (Sj i). rewrite Ej, pair_hit in Sj by exact Pi. 
    assert (Ie : In e (e' :: pair j i l')). { rewrite <- pair_hit by exact Pi. rewrite <- Ej. apply pair_in; [intuition|exact Iej]. }
    destruct (H i Li) as (_ & Si). specialize (Si j). rewrite Ei, pair_hit in Si by exact Pj.
    assert (Ie' : In e' (e :: pair i j l)). { rewrite <- pair_hit by exact Pj. rewrite <- Ei. apply pair_in; [intuition|exact Iei]. }
    destruct (sorted_head _ _ Sj e Ie) as [->|B1]; [exists i, e', l; split; [exact Li|]; split; [exact Ei|]; apply (Gi e' l Ei Pj); eauto|].
    destruct (sorted_head _ _ Si e' Ie') as [->|B2]; [exists i, e, l; split; [exact Li|]; split; [exact Ei|]; apply (Gi e l Ei Pj); eauto|].
    exfalso. unfold before in B1, B2. lia.
Qed.
End Sorted.
