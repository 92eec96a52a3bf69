(** Proofs about connections through address files. *)
From Coq Require Import List Arith Bool Lia.
From Verif Require Import M_Publish S_Publish.
Import ListNotations.

Lemma put_len {A} (l : list A) : forall i x, length (put i x l) = length l.
Proof. induction l as [|y l IH]; intros [|i] x; cbn; auto. Qed.
Lemma put_eq {A} (l : list A) : forall i x, i < length l -> nth_error (put i x l) i = Some x.
Proof. induction l as [|y l IH]; intros [|i] x H; cbn in *; try lia; auto. apply IH. lia. Qed.
Lemma put_ne {A} (l : list A) : forall i j x, i <> j -> nth_error (put i x l) j = nth_error l j.
Proof. induction l as [|y l IH]; intros [|i] [|j] x H; cbn; auto; congruence. Qed.
Lemma nth_lt {A} (l : list A) i x : nth_error l i = Some x -> i < length l.
Proof. intros H. apply nth_error_Some. congruence. Qed.
Lemma put_cases {A} (l : list A) i j x y : nth_error (put i x l) j = Some y ->
  (i = j /\ y = x /\ j < length l) \/ (i <> j /\ nth_error l j = Some y).
Proof.
  intros H. destruct (Nat.eq_dec i j) as [<-|Ne].
  - left. pose proof (nth_lt _ _ _ H) as L. rewrite put_len in L. rewrite put_eq in H by exact L. injection H as <-. auto.
  - right. rewrite put_ne in H by exact Ne. auto.
Qed.

Lemma getline_content a d : ~ In newline a -> getline (content a d) = a.
Proof.
  unfold content. induction a as [|c a IH]; intros H; cbn [app getline]; [rewrite Nat.eqb_refl; reflexivity|].
  destruct (Nat.eqb_spec c newline) as [E|_]; [exfalso; apply H; left; exact E|]. rewrite IH; [reflexivity|]. intros I; apply H; right; exact I.
Qed.
Lemma trim_id a : isSpace (last a newline) = false -> trimRight a = a.
Proof.
  induction a as [|c a IH]; intros H; [reflexivity|]. cbn [trimRight]. destruct a as [|c' a].
  - cbn in H |- *. rewrite H. reflexivity.
  - rewrite IH by exact H. reflexivity.
Qed.

Lemma nodup_map {A B} (f : A -> B) (l : list A) : (forall x y, In x l -> In y l -> f x = f y -> x = y) -> NoDup l -> NoDup (map f l).
Proof.
  induction l as [|x l IH]; intros H N; [constructor|]. apply NoDup_cons_iff in N as (N1 & N2). cbn. constructor.
  - rewrite in_map_iff. intros (y & E & Hy). apply N1. rewrite (H x y (or_introl eq_refl) (or_intror Hy)); [exact Hy|congruence].
  - apply IH; [|exact N2]. intros a b Ha Hb. apply H; right; assumption.
Qed.
Lemma nth_error_ext {A} (l l' : list A) : (forall i, nth_error l i = nth_error l' i) -> l = l'.
Proof.
  revert l'. induction l as [|x l IH]; intros [|y l'] H; [reflexivity|discriminate (H 0)|discriminate (H 0)|].
  pose proof (H 0) as H0. injection H0 as ->. f_equal. apply IH. intros i. exact (H (S i)).
Qed.

Section Pub.
Variables (server : bool) (address description : text) (rank : nat -> nat) (size : nat) (foreign : text -> bool).
Hypothesis HA : proper_address address.
Notation C := (content address description).
Notation exec := (exec server address description rank size foreign).
Notation runs := (runs server address description rank size foreign).
Notation before := (before size).

Lemma runs_inv (Q : st -> Prop) : (forall l s s', Q s -> exec l s = Some s' -> Q s') ->
  forall ls s s', runs ls s s' -> Q s -> Q s'.
Proof. intros H ls s s' R. induction R as [|l ls s s1 s2 E R IH]; intros q; [exact q|]. apply IH. eapply H; eassumption. Qed.
Lemma runs_inv_cf (Q : st -> Prop) : (forall l s s', ~ is_crash l -> Q s -> exec l s = Some s' -> Q s') ->
  forall ls s s', runs ls s s' -> crash_free ls -> Q s -> Q s'.
Proof.
  intros H ls s s' R. induction R as [|l ls s s1 s2 E R IH]; intros cf q; [exact q|].
  apply IH; [intros x Hx; apply cf; right; exact Hx|]. eapply H; [|exact q|exact E]. apply cf. left. reflexivity.
Qed.

(** ** Only the published address is ever used, crashes or not *)
Definition files (s : st) : Prop :=
  match s_acc s with
  | AListen | ACheck | ACheckTmp | ACreate => s_pub s = None /\ s_tmp s = None
  | AWrite rest => s_pub s = None /\ exists w, s_tmp s = Some w /\ w ++ rest = C
  | AExists | ARename => s_pub s = None /\ s_tmp s = Some C
  | AOver _ => s_pub s = None /\ s_tmp s = None
  | ADead => (s_pub s = None \/ s_pub s = Some C) /\ (s_tmp s = None \/ exists w r, s_tmp s = Some w /\ w ++ r = C)
  | _ => s_pub s = Some C /\ s_tmp s = None
  end.
Definition rgood (p : rpc) : Prop :=
  match p with RRead t => t = C | RConnect a => a = address | RWrong _ => False | _ => True end.
Definition I1 (s : st) : Prop := files s /\ forall i p, nth_error (s_req s) i = Some p -> rgood p.

Lemma files_pub s : files s -> s_pub s = None \/ s_pub s = Some C.
Proof. unfold files. destruct (s_acc s); intros H; try (destruct H as (-> & _); auto; fail); apply H. Qed.
Lemma text_eqb_refl a : text_eqb a a = true.
Proof. unfold text_eqb. destruct (list_eq_dec Nat.eq_dec a a); congruence. Qed.
Lemma line_ok : getline C = address /\ trimRight address = address.
Proof. destruct HA as (_ & H2 & H3). split; [apply getline_content, H2|apply trim_id, H3]. Qed.

Lemma stepR_shape i s s' : stepR server address foreign i s = Some s' ->
  exists p p', nth_error (s_req s) i = Some p /\ s_req s' = put i p' (s_req s) /\
  s_pub s' = s_pub s /\ s_tmp s' = s_tmp s /\ s_acc s' = s_acc s /\ s_up s' = s_up s /\ s_table s' = s_table s /\ s_ack s' = s_ack s.
Proof.
  unfold stepR. destruct (nth_error (s_req s) i) as [p|] eqn:Hp; [|discriminate]. intros H. exists p.
  destruct p; try discriminate H;
    repeat match type of H with
    | context [match ?x with _ => _ end] => destruct x eqn:?; try discriminate H
    end; injection H as <-; cbn; eexists; (split; [reflexivity|]); (split; [reflexivity|]); repeat split; congruence.
Qed.

Lemma I1_step l s s' : I1 s -> exec l s = Some s' -> I1 s'.
Proof.
  intros (F & G) E. destruct l as [m|i| |i]; cbn [M_Publish.exec] in E.
  - (* acceptor *)
    assert (Hr : s_req s' = s_req s).
    { unfold stepA in E. destruct (s_acc s) eqn:A; try discriminate E;
      repeat match type of E with context [match ?x with _ => _ end] => destruct x eqn:?; try discriminate E end; injection E as <-; reflexivity || (cbn; congruence). }
    split; [|rewrite Hr; exact G]. unfold stepA in E. unfold files in F. destruct (s_acc s) eqn:A; try discriminate E.
    + injection E as <-. exact F.
    + destruct F as (F1 & F2). rewrite F1 in E. injection E as <-. split; assumption.
    + destruct F as (F1 & F2). rewrite F2 in E. injection E as <-. split; assumption.
    + injection E as <-. destruct F as (F1 & F2). split; [exact F1|]. exists []. split; reflexivity.
    + destruct F as (F1 & w & F2 & F3). destruct rest as [|c rest].
      * injection E as <-. unfold files. cbn. rewrite app_nil_r in F3. rewrite <- F3. split; assumption.
      * injection E as <-. unfold files. cbn [setAcc setTmp s_acc s_pub s_tmp]. split; [exact F1|]. rewrite F2. exists (w ++ firstn (S m) (c :: rest)). split; [reflexivity|].
        rewrite <- app_assoc. cbn [firstn skipn app]. rewrite firstn_skipn. exact F3.
    + destruct F as (F1 & F2). rewrite F2 in E. injection E as <-. split; assumption.
    + destruct F as (F1 & F2). rewrite F2 in E. injection E as <-. split; reflexivity.
    + destruct F as (F1 & F2). rewrite F1 in E. injection E as <-. split; assumption.
    + destruct (s_backlog s); [discriminate E|]. injection E as <-. exact F.
    + destruct (nth_error (s_req s) i) as [p|]; [|discriminate E]. destruct (goneR p); [injection E as <-; exact F|].
      destruct (wroteRank p); [|discriminate E]. destruct (negb server && existsb _ _); [injection E as <-; exact F|].
      injection E as <-. unfold files. cbn. destruct server; [unfold next; destruct (S k <? size); exact F|exact F].
    + injection E as <-. exact F.
    + destruct (nth_error (s_req s) i) as [p|]; [|discriminate E]. destruct (goneR p); [injection E as <-; exact F|].
      destruct (sentSize p); [|discriminate E]. injection E as <-. unfold files. cbn. unfold next. destruct (S k <? size); exact F.
    + injection E as <-. exact F.
    + destruct F as (F1 & F2). rewrite F1 in E. injection E as <-. split; assumption.
    + destruct F as (F1 & F2). injection E as <-. split; [reflexivity|exact F2].
  - (* requester *)
    destruct (stepR_shape _ _ _ E) as (p & p' & Hp & R1 & R2 & R3 & R4 & _). split.
    + unfold files. rewrite R2, R3, R4. exact F.
    + assert (P : s_pub s = None \/ s_pub s = Some C) by (apply files_pub, F). pose proof (G _ _ Hp) as Gp.
      destruct line_ok as (L1 & L2). pose proof HA as (N1 & _ & _).
      assert (Q : rgood p').
      { assert (Q0 : forall q, s_req s' = put i q (s_req s) -> rgood q -> rgood p').
        { intros q H H0. rewrite R1 in H. assert (X : nth_error (put i p' (s_req s)) i = Some q) by (rewrite H; apply put_eq; eapply nth_lt; exact Hp).
          rewrite put_eq in X by (eapply nth_lt; exact Hp). injection X as ->. exact H0. }
        unfold stepR in E. rewrite Hp in E. destruct p; try discriminate E.
        - destruct (s_pub s); [|discriminate E]. injection E as <-. eapply Q0; [reflexivity|exact I].
        - destruct P as [P|P]; rewrite P in E; injection E as <-; eapply Q0; try reflexivity; exact I || reflexivity.
        - destruct P as [P|P]; rewrite P in E; injection E as <-; eapply Q0; try reflexivity; exact I || reflexivity.
        - cbn in Gp. subst t. rewrite L1 in E. destruct address as [|c r] eqn:Ea; [congruence|]. rewrite <- Ea in *. injection E as <-.
          eapply Q0; [cbn; reflexivity|]. cbn. exact L2.
        - cbn in Gp. subst a. rewrite text_eqb_refl in E. destruct (s_up s); [|discriminate E]. injection E as <-. eapply Q0; [reflexivity|exact I].
        - injection E as <-. eapply Q0; [reflexivity|]. destruct server; exact I.
        - destruct (existsb (Nat.eqb i) (s_ack s)); [injection E as <-; eapply Q0; [reflexivity|exact I]|].
          destruct (goneA (s_acc s)); [|discriminate E]. injection E as <-. eapply Q0; [reflexivity|exact I].
        - injection E as <-. eapply Q0; [reflexivity|exact I]. }
      intros j q Hq. rewrite R1 in Hq. apply put_cases in Hq as [(-> & -> & _)|(_ & Hq)]; [exact Q|eapply G, Hq].
  - injection E as <-. split; [|exact G]. unfold files. cbn [setAcc setUp s_acc s_pub s_tmp]. split; [apply files_pub, F|].
    unfold files in F. destruct (s_acc s); try (destruct F as (_ & ->); left; reflexivity); try (destruct F as (_ & ->); right; exists C, []; split; [reflexivity|apply app_nil_r]).
    + destruct F as (_ & w & F2 & F3). right. exists w, rest. auto.
    + apply F.
  - unfold crashR in E. destruct (nth_error (s_req s) i) as [p|] eqn:Hp; [|discriminate E]. injection E as <-. split; [exact F|].
    intros j q Hq. cbn in Hq. apply put_cases in Hq as [(-> & -> & _)|(_ & Hq)]; [exact I|eapply G, Hq].
Qed.
Lemma req_before i p pub tmp : nth_error (s_req (before pub tmp)) i = Some p -> p = RWait.
Proof. cbn. intros H. apply nth_error_In in H. apply repeat_spec in H. exact H. Qed.
Lemma I1_before : I1 (before None None).
Proof. split; [split; reflexivity|]. intros i p H. apply req_before in H. subst. exact I. Qed.

Lemma published ls s : runs ls (before None None) s ->
  (forall i p, nth_error (s_req s) i = Some p -> (forall a, has_address p a -> a = address) /\ forall a, p <> RWrong a) /\
  (s_pub s = None \/ s_pub s = Some C).
Proof.
  intros R. pose proof (runs_inv I1 I1_step _ _ _ R I1_before) as (F & G). split; [|apply files_pub, F].
  intros i p Hp. pose proof (G _ _ Hp) as Q. split; [intros a [->| ->]; [exact Q|destruct Q]|]. intros a ->. exact Q.
Qed.

(** ** Without crashes everybody is connected *)
Hypothesis Hsize : 0 < size.
Hypothesis Hrank : forall i j, i < size -> j < size -> rank i = rank j -> i = j.

Definition cur (a : apc) : list nat := match a with ARead _ i => [i] | _ => [] end.
Definition conn (s : st) : list nat := map snd (s_table s) ++ cur (s_acc s) ++ s_backlog s.
(** the count of the acceptor *)
Definition count (s : st) : Prop :=
  match s_acc s with
  | AListen | ACheck | ACheckTmp | ACreate | AWrite _ | AExists | ARename =>
      s_table s = [] /\ s_req s = repeat RWait size
  | ACheckPub => s_table s = [] /\ s_up s = true
  | AAccept k | ARead k _ => length (s_table s) = k /\ k < size /\ s_up s = true
  | AAck k i => server = false /\ length (s_table s) = S k /\ k < size /\ s_up s = true /\ In i (map snd (s_table s))
  | ASize k i => server = false /\ length (s_table s) = S k /\ k < size /\ s_up s = true /\ In i (map snd (s_table s)) /\ In i (s_ack s)
  | AClose | AEnd None | ARemove None | AOver None => length (s_table s) = size
  | AEnd (Some _) | ARemove (Some _) | AOver (Some _) | AAbort | ADead => False
  end.
Definition busy (a : apc) (i : nat) : Prop := match a with AAck _ j | ASize _ j => i = j | _ => False end.
Record J (s : st) : Prop := {
  j_1 : I1 s;
  j_len : length (s_req s) = size;
  j_count : count s;
  j_nodup : NoDup (conn s);
  j_conn : forall i p, nth_error (s_req s) i = Some p -> (In i (conn s) <-> is_connected p);
  j_bound : forall i, In i (conn s) -> i < size;
  j_rank : forall r i, In (r, i) (s_table s) -> r = rank i;
  j_table : forall i p, In i (map snd (s_table s)) -> nth_error (s_req s) i = Some p -> wroteRank p = true /\ (~ busy (s_acc s) i -> p = RDone);
  j_alive : forall i p, nth_error (s_req s) i = Some p -> goneR p = false /\ (server = true -> p <> RWaitAck /\ p <> RSendSize);
  j_up : s_acc s <> AListen -> (s_acc s = AClose \/ exists e, s_acc s = AEnd e \/ s_acc s = ARemove e \/ s_acc s = AOver e) \/ s_up s = true
}.

Lemma J_before : J (before None None).
Proof.
  constructor.
  - apply I1_before.
  - apply repeat_length.
  - split; reflexivity.
  - constructor.
  - intros i p H. apply req_before in H. subst. split; intros [].
  - intros i [].
  - intros r i [].
  - intros i p [].
  - intros i p H. apply req_before in H. subst. split; [reflexivity|]. intros _. split; discriminate.
  - intros H. exfalso. apply H. reflexivity.
Qed.

Lemma filter_same (l : list (nat * nat)) r : existsb (fun e => fst e =? r) l = false -> filter (fun e => negb (fst e =? r)) l = l.
Proof. induction l as [|x l IH]; cbn; [reflexivity|]. destruct (fst x =? r); cbn; [discriminate|]. intros H. rewrite IH by exact H. reflexivity. Qed.

Lemma J_stepA m s s' : J s -> stepA server address description rank size m s = Some s' -> J s'.
Proof.
  intros j E. pose proof (I1_step (LA m) s s' (j_1 s j) E) as I1'. destruct j as [(F & G) L Cn Nd Co Bo Ra Ta Al Up].
  unfold stepA in E. unfold count in Cn. unfold files in F. destruct (s_acc s) eqn:A; try discriminate E.
  - injection E as <-. constructor; try assumption; unfold conn, count in *; cbn in *; rewrite ?A in *; auto.
  - destruct F as (F1 & F2). rewrite F1 in E. injection E as <-.
    constructor; try assumption; unfold conn, count in *; cbn in *; rewrite ?A in *; cbn in *; auto.
    intros _. right. destruct (Up ltac:(discriminate)) as [[Q|(e & [Q|[Q|Q]])]|Q]; congruence.
  - destruct F as (F1 & F2). rewrite F2 in E. injection E as <-.
    constructor; try assumption; unfold conn, count in *; cbn in *; rewrite ?A in *; cbn in *; auto.
    intros _. right. destruct (Up ltac:(discriminate)) as [[Q|(e & [Q|[Q|Q]])]|Q]; congruence.
  - injection E as <-.
    constructor; try assumption; unfold conn, count in *; cbn in *; rewrite ?A in *; cbn in *; auto.
    intros _. right. destruct (Up ltac:(discriminate)) as [[Q|(e & [Q|[Q|Q]])]|Q]; congruence.
  - destruct rest as [|c rest]; injection E as <-;
    (constructor; try assumption; unfold conn, count in *; cbn [setAcc setTmp s_acc s_table s_req s_up s_ack s_backlog cur busy app] in *; rewrite ?A in *; cbn [cur app busy] in *; auto;
    intros _; right; destruct (Up ltac:(discriminate)) as [[Q|(e & [Q|[Q|Q]])]|Q]; congruence).
  - destruct F as (F1 & F2). rewrite F2 in E. injection E as <-.
    constructor; try assumption; unfold conn, count in *; cbn in *; rewrite ?A in *; cbn in *; auto.
    intros _. right. destruct (Up ltac:(discriminate)) as [[Q|(e & [Q|[Q|Q]])]|Q]; congruence.
  - destruct F as (F1 & F2). rewrite F2 in E. injection E as <-.
    assert (U : s_up s = true) by (destruct (Up ltac:(discriminate)) as [[Q|(e & [Q|[Q|Q]])]|Q]; congruence).
    constructor; try assumption; unfold conn, count in *; cbn in *; rewrite ?A in *; cbn in *; auto. destruct Cn as (C1 & C2). split; assumption.
  - destruct F as (F1 & F2). rewrite F1 in E. injection E as <-. destruct Cn as (C1 & C2).
    constructor; try assumption; unfold conn, count in *; cbn in *; rewrite ?A in *; cbn in *; auto. rewrite C1. cbn. auto.
  - destruct (s_backlog s) as [|i r] eqn:B; [discriminate E|]. injection E as <-.
    constructor; try assumption; unfold conn, count in *; cbn in *; rewrite ?A, ?B in *; cbn in *; auto. intros _. right. apply Cn.
  - destruct (nth_error (s_req s) i) as [p|] eqn:Hp; [|discriminate E]. destruct (Al _ _ Hp) as (Al1 & Al2). rewrite Al1 in E.
    destruct (wroteRank p) eqn:W; [|discriminate E]. destruct Cn as (C1 & C2 & C3).
    assert (Ni : ~ In i (map snd (s_table s))).
    { unfold conn in Nd. rewrite A in Nd. cbn in Nd. apply NoDup_remove_2 in Nd. intros H. apply Nd. apply in_app_iff. left. exact H. }
    assert (Hi : i < size) by (rewrite <- L; eapply nth_lt, Hp).
    assert (Ex : existsb (fun e => fst e =? rank i) (s_table s) = false).
    { destruct (existsb (fun e => fst e =? rank i) (s_table s)) eqn:Q; [|reflexivity]. exfalso. apply existsb_exists in Q as ((r & j) & Q1 & Q2).
      cbn in Q2. apply Nat.eqb_eq in Q2. pose proof (Ra _ _ Q1) as Q3. apply Ni. replace i with j; [apply in_map_iff; exists (r, j); auto|].
      apply Hrank; [|exact Hi|congruence]. apply Bo. unfold conn. apply in_app_iff. left. apply in_map_iff. exists (r, j). auto. }
    rewrite Ex, andb_false_r in E. rewrite (filter_same _ _ Ex) in E. injection E as <-.
    assert (Cj : map snd (s_table s ++ [(rank i, i)]) = map snd (s_table s) ++ [i]) by (rewrite map_app; reflexivity).
    assert (Cc : forall a, cur a = [] -> conn (setAcc a (setTable (s_table s ++ [(rank i, i)]) s)) = conn s).
    { intros a Ha. unfold conn. cbn. rewrite Cj, Ha, A. cbn. rewrite <- app_assoc. reflexivity. }
    assert (Cu : cur (if server then next size k else AAck k i) = []) by (destruct server; [unfold next; destruct (S k <? size)|]; reflexivity).
    constructor; try assumption.
    + unfold count. cbn. destruct server eqn:Sv; cbn.
      * unfold next. destruct (Nat.ltb_spec (S k) size); rewrite app_length; cbn; [repeat split; auto; lia|lia].
      * rewrite app_length. cbn. split; [reflexivity|]. repeat split; auto; try lia. rewrite Cj. apply in_app_iff. right. left. reflexivity.
    + rewrite Cc by exact Cu. exact Nd.
    + intros x q. rewrite Cc by exact Cu. apply Co.
    + intros x. rewrite Cc by exact Cu. apply Bo.
    + cbn. intros r x Hx. apply in_app_iff in Hx as [Hx|[Hx|[]]]; [apply Ra, Hx|congruence].
    + cbn. intros x q Hx Hq. rewrite Cj in Hx. apply in_app_iff in Hx as [Hx|[<-|[]]].
      * destruct (Ta _ _ Hx Hq) as (T1 & T2). split; [exact T1|]. intros _. apply T2. auto.
      * rewrite Hp in Hq. injection Hq as <-. split; [exact W|]. intros Nb. destruct server eqn:Sv.
        -- destruct (Al2 eq_refl) as (Q1 & Q2). destruct p; try discriminate W; congruence.
        -- exfalso. apply Nb. reflexivity.
    + cbn. intros _. right. exact C3.
  - injection E as <-. destruct Cn as (C0 & C1 & C2 & C3 & C4).
    constructor; try assumption; unfold conn, count in *; cbn in *; rewrite ?A in *; cbn in *; auto. repeat split; auto.
  - destruct (nth_error (s_req s) i) as [p|] eqn:Hp; [|discriminate E]. destruct (Al _ _ Hp) as (Al1 & Al2). rewrite Al1 in E.
    destruct (sentSize p) eqn:W; [|discriminate E]. injection E as <-. destruct Cn as (C0 & C1 & C2 & C3 & C4 & C5).
    assert (Cu : cur (next size k) = []) by (unfold next; destruct (S k <? size); reflexivity).
    assert (Cc : conn (setAcc (next size k) s) = conn s) by (unfold conn; cbn; rewrite Cu, A; reflexivity).
    constructor; try assumption.
    + unfold count. cbn. unfold next. destruct (Nat.ltb_spec (S k) size); [repeat split; auto|lia].
    + rewrite Cc. exact Nd.
    + intros x q. rewrite Cc. apply Co.
    + intros x. rewrite Cc. apply Bo.
    + cbn. intros x q Hx Hq. destruct (Ta _ _ Hx Hq) as (T1 & T2). split; [exact T1|]. intros _.
      destruct (Nat.eq_dec x i) as [->|Ne]; [|apply T2; cbn; exact Ne]. rewrite Hp in Hq. injection Hq as <-. destruct p; try discriminate W. reflexivity.
    + cbn. intros _. right. exact C3.
  - injection E as <-. constructor; try assumption; unfold conn, count in *; cbn in *; rewrite ?A in *; cbn in *; auto. intros _. left. right. exists None. auto.
  - destruct e as [e|]; [destruct Cn|]. destruct F as (F1 & F2). rewrite F1 in E. injection E as <-.
    constructor; try assumption; unfold conn, count in *; cbn in *; rewrite ?A in *; cbn in *; auto. intros _. left. right. exists None. auto.
  - destruct e as [e|]; [destruct Cn|]. injection E as <-.
    constructor; try assumption; unfold conn, count in *; cbn in *; rewrite ?A in *; cbn in *; auto. intros _. left. right. exists None. auto.
Qed.

(** if a requester is not connected, the acceptor has not finished; if it has
    left its first state, the file is there *)
Lemma full s : J s -> length (s_table s) = size -> forall i, i < size -> In i (map snd (s_table s)).
Proof.
  intros j Hl i Hi. destruct j as [_ _ _ Nd _ Bo _ _ _ _].
  assert (N : NoDup (map snd (s_table s))).
  { unfold conn in Nd. clear -Nd. induction (map snd (s_table s)) as [|x l IH]; [constructor|]. cbn in Nd. apply NoDup_cons_iff in Nd as (N1 & N2).
    constructor; [intros H; apply N1, in_app_iff; left; exact H|apply IH, N2]. }
  assert (Inc : incl (map snd (s_table s)) (seq 0 size)).
  { intros x Hx. apply in_seq. assert (x < size) by (apply Bo; unfold conn; apply in_app_iff; left; exact Hx). lia. }
  assert (Inc' : incl (seq 0 size) (map snd (s_table s))).
  { apply NoDup_length_incl; [exact N|rewrite seq_length, map_length; lia|exact Inc]. }
  apply Inc', in_seq. lia.
Qed.
Lemma waiting_pub s i p : J s -> nth_error (s_req s) i = Some p -> ~ is_connected p -> p <> RWait -> s_pub s = Some C /\ s_up s = true.
Proof.
  intros j Hp Nc Nw. pose proof j as [(F & G) L Cn Nd Co Bo Ra Ta Al Up]. unfold files in F. unfold count in Cn.
  assert (Hi : i < size) by (rewrite <- L; eapply nth_lt, Hp).
  assert (Rw : s_req s = repeat RWait size -> False).
  { intros Q. rewrite Q in Hp. apply nth_error_In, repeat_spec in Hp. congruence. }
  assert (Fu : length (s_table s) = size -> False).
  { intros Q. apply Nc. apply (Co _ _ Hp). unfold conn. apply in_app_iff. left. apply (full s j Q i Hi). }
  destruct (s_acc s) as [| | | |rest| | | |k|k i'|k i'|k i'| |e|e|e| |] eqn:A; try (exfalso; apply Rw, Cn); try (exfalso; tauto).
  - split; [apply F|apply Cn].
  - split; [apply F|apply Cn].
  - split; [apply F|apply Cn].
  - split; [apply F|apply Cn].
  - split; [apply F|apply Cn].
  - exfalso. destruct e; [exact Cn|exact (Fu Cn)].
  - exfalso. destruct e; [exact Cn|exact (Fu Cn)].
  - exfalso. destruct e; [exact Cn|exact (Fu Cn)].
Qed.

Lemma J_stepR i s s' : J s -> stepR server address foreign i s = Some s' -> J s'.
Proof.
  intros j E. pose proof (I1_step (LR i) s s' (j_1 s j) E) as I1'.
  destruct (stepR_shape _ _ _ E) as (p & p' & Hp & R1 & R2 & R3 & R4 & R5 & R6 & R7).
  pose proof j as [(F & G) L Cn Nd Co Bo Ra Ta Al Up]. pose proof (G _ _ Hp) as Gp. destruct (Al _ _ Hp) as (Al1 & Al2).
  assert (Hi : i < length (s_req s)) by (eapply nth_lt, Hp). pose proof line_ok as (L1 & L2). pose proof HA as (N1 & _ & _).
  (* what the requester does *)
  assert (K : goneR p' = false /\ (server = true -> p' <> RWaitAck /\ p' <> RSendSize) /\ p <> RDone /\ (wroteRank p = true -> wroteRank p' = true) /\
              ((p = RConnect address /\ p' = RSendRank /\ s_backlog s' = s_backlog s ++ [i] /\ s_up s = true) \/
               (s_backlog s' = s_backlog s /\ (is_connected p <-> is_connected p')))).
  { assert (Q0 : forall q, s_req s' = put i q (s_req s) -> p' = q).
    { intros q H. rewrite R1 in H. assert (X : nth_error (put i p' (s_req s)) i = Some q) by (rewrite H; apply put_eq, Hi).
      rewrite put_eq in X by exact Hi. congruence. }
    unfold stepR in E. rewrite Hp in E. destruct p; try discriminate E.
    - destruct (s_pub s) eqn:P; [|discriminate E]. injection E as <-. rewrite (Q0 ROpen eq_refl). cbn. repeat split; try discriminate. right. tauto.
    - destruct (waiting_pub s i ROpen j Hp ltac:(intros []) ltac:(discriminate)) as (P & _). rewrite P in E. injection E as <-. rewrite (Q0 _ eq_refl). cbn. repeat split; try discriminate. right. tauto.
    - destruct (waiting_pub s i RReopen j Hp ltac:(intros []) ltac:(discriminate)) as (P & _). rewrite P in E. injection E as <-. rewrite (Q0 _ eq_refl). cbn. repeat split; try discriminate. right. tauto.
    - cbn in Gp. subst t. rewrite L1 in E. destruct address as [|c r] eqn:Ea; [congruence|]. rewrite <- Ea in *. injection E as <-.
      rewrite (Q0 _ eq_refl). cbn. repeat split; try discriminate. right. tauto.
    - cbn in Gp. subst a. rewrite text_eqb_refl in E. destruct (s_up s) eqn:U; [|discriminate E]. injection E as <-. rewrite (Q0 _ eq_refl). cbn. repeat split; try discriminate. left. auto.
    - injection E as <-. rewrite (Q0 _ eq_refl). cbn. destruct server; cbn; repeat split; try discriminate; right; tauto.
    - assert (Sv : server = false) by (destruct server; [destruct (Al2 eq_refl); congruence|reflexivity]).
      assert (Gn : goneA (s_acc s) = false). { unfold count in Cn. destruct (s_acc s) as [| | | |rest| | | |k|k i'|k i'|k i'| |e|e|e| |]; try reflexivity; try (destruct Cn); destruct e; [destruct Cn|reflexivity]. }
      rewrite Gn in E. destruct (existsb (Nat.eqb i) (s_ack s)); [|discriminate E]. injection E as <-. rewrite (Q0 _ eq_refl), Sv. cbn. repeat split; try discriminate. right. tauto.
    - injection E as <-. rewrite (Q0 _ eq_refl). cbn. repeat split; try discriminate. right. tauto. }
  destruct K as (K1 & K2 & K3 & K4 & K5).
  assert (Oth : forall x q, nth_error (s_req s') x = Some q -> (x = i /\ q = p') \/ (x <> i /\ nth_error (s_req s) x = Some q)).
  { intros x q Hx. rewrite R1 in Hx. apply put_cases in Hx as [(-> & -> & _)|(Ne & Hx)]; [left; auto|right; split; [congruence|exact Hx]]. }
  assert (Ru : s_req s = repeat RWait size -> s_pub s = None -> False).
  { intros Q1 Q2. rewrite Q1 in Hp. apply nth_error_In, repeat_spec in Hp. subst p. unfold stepR in E. rewrite Q1 in E.
    rewrite (nth_error_repeat RWait (m:=size) (n:=i)) in E by lia. rewrite Q2 in E. discriminate E. }
  assert (Cn' : count s').
  { unfold count in *. unfold files in F. rewrite R4, R5, R6, R7. destruct (s_acc s) as [| | | |rest| | | |k|k i'|k i'|k i'| |e|e|e| |]; try exact Cn; exfalso; apply Ru; tauto. }
  assert (Cc : (p = RConnect address /\ p' = RSendRank /\ conn s' = conn s ++ [i] /\ ~ In i (conn s)) \/ (conn s' = conn s /\ (is_connected p <-> is_connected p'))).
  { destruct K5 as [(Q1 & Q2 & Q3 & Q4)|(Q1 & Q2)]; [left|right].
    - split; [exact Q1|]. split; [exact Q2|]. split.
      + unfold conn. rewrite R4, R6, Q3, !app_assoc. reflexivity.
      + intros H. apply (Co _ _ Hp) in H. rewrite Q1 in H. exact H.
    - split; [|exact Q2]. unfold conn. rewrite R4, R6, Q1. reflexivity. }
  constructor.
  - exact I1'.
  - rewrite R1, put_len. exact L.
  - exact Cn'.
  - destruct Cc as [(_ & _ & Q & Ni)|(Q & _)]; rewrite Q; [|exact Nd].
    apply NoDup_rev in Nd. rewrite <- (rev_involutive (conn s ++ [i])). apply NoDup_rev. rewrite rev_app_distr. cbn. constructor; [rewrite <- in_rev; exact Ni|exact Nd].
  - intros x q Hx. destruct Cc as [(Q1 & Q2 & Q & Ni)|(Q & Q2)]; rewrite Q.
    + apply Oth in Hx as [(-> & ->)|(Ne & Hx)].
      * split; [intros _; rewrite Q2; exact I|]. intros _. apply in_app_iff. right. left. reflexivity.
      * rewrite <- (Co _ _ Hx). rewrite in_app_iff. cbn. split; [intros [H|[H|[]]]; [exact H|congruence]|auto].
    + apply Oth in Hx as [(-> & ->)|(Ne & Hx)]; [rewrite <- Q2; apply (Co _ _ Hp)|apply (Co _ _ Hx)].
  - intros x. destruct Cc as [(_ & _ & Q & Ni)|(Q & _)]; rewrite Q; [|apply Bo].
    rewrite in_app_iff. intros [H|[<-|[]]]; [apply Bo, H|lia].
  - rewrite R6. exact Ra.
  - rewrite R6, R4. intros x q Hx Hq. apply Oth in Hq as [(-> & ->)|(Ne & Hq)]; [|apply Ta; assumption].
    destruct (Ta _ _ Hx Hp) as (T1 & T2). split; [apply K4, T1|]. intros Nb. exfalso. apply K3, T2, Nb.
  - intros x q Hq. apply Oth in Hq as [(-> & ->)|(Ne & Hq)]; [split; assumption|apply (Al _ _ Hq)].
  - rewrite R4, R5. exact Up.
Qed.
Lemma J_step l s s' : ~ is_crash l -> J s -> exec l s = Some s' -> J s'.
Proof. intros Nc j E. destruct l; cbn in E; [eapply J_stepA; eassumption|eapply J_stepR; eassumption|exfalso; apply Nc; exact I|exfalso; apply Nc; exact I]. Qed.
Lemma J_run ls s : runs ls (before None None) s -> crash_free ls -> J s.
Proof. intros R cf. exact (runs_inv_cf J J_step _ _ _ R cf J_before). Qed.

Lemma J_ok s : J s -> no_failure s.
Proof.
  intros [_ _ Cn _ _ _ _ _ Al _]. unfold count in Cn. repeat split; try (intros e Q; rewrite Q in Cn; exact Cn); [intros Q; rewrite Q in Cn; exact Cn|].
  intros i e Q. destruct (Al _ _ Q) as (X & _). discriminate X.
Qed.
Lemma J_final s : J s -> s_acc s = AOver None -> all_connected rank size s.
Proof.
  intros j A. pose proof (full s j) as Fu. destruct j as [(F & G) L Cn Nd Co Bo Ra Ta Al Up]. unfold count in Cn. unfold files in F. rewrite A in Cn, F.
  specialize (Fu Cn). unfold conn in *. rewrite A in *. cbn [cur app busy] in *. split; [exact A|]. split.
  - apply nth_error_ext. intros i. destruct (nth_error (s_req s) i) as [p|] eqn:Hp.
    + assert (Hi : i < size) by (rewrite <- L; eapply nth_lt, Hp). rewrite (nth_error_repeat RDone Hi).
      destruct (Ta i p (Fu i Hi) Hp) as (_ & T). rewrite T by tauto. reflexivity.
    + symmetry. apply nth_error_None. rewrite repeat_length, <- L. apply nth_error_None, Hp.
  - split; [|split; [|split; [|exact F]]].
    + intros i Hi. specialize (Fu i Hi). apply in_map_iff in Fu as ((r & i') & <- & Q). cbn. rewrite <- (Ra _ _ Q). exact Q.
    + intros r i Q. split; [apply Bo; apply in_app_iff; left; apply in_map_iff; exists (r, i); auto|apply Ra, Q].
    + assert (Em : map fst (s_table s) = map rank (map snd (s_table s))).
      { clear -Ra. induction (s_table s) as [|(r, i) l IH]; [reflexivity|]. cbn. rewrite <- IH by (intros r' i' H; apply Ra; right; exact H).
        rewrite (Ra r i) by (left; reflexivity). reflexivity. }
      rewrite Em. apply nodup_map.
      * intros x y Hx Hy. apply Hrank; apply Bo, in_app_iff; left; assumption.
      * clear -Nd. induction (map snd (s_table s)) as [|x l IH]; [constructor|]. cbn in Nd. apply NoDup_cons_iff in Nd as (N1 & N2).
        constructor; [intros H; apply N1, in_app_iff; left; exact H|apply IH, N2].
Qed.

(** progress *)
Lemma J_progress s : J s -> s_acc s = AOver None \/ exists l s', ~ is_crash l /\ exec l s = Some s'.
Proof.
  intros j. pose proof j as [(F & G) L Cn Nd Co Bo Ra Ta Al Up]. unfold count in Cn. unfold files in F.
  assert (A' : forall s', stepA server address description rank size 0 s = Some s' -> exists l s', ~ is_crash l /\ exec l s = Some s') by (intros s' H; exists (LA 0), s'; split; [intros []|exact H]).
  assert (R' : forall i s', stepR server address foreign i s = Some s' -> exists l s', ~ is_crash l /\ exec l s = Some s') by (intros i s' H; exists (LR i), s'; split; [intros []|exact H]).
  unfold stepA in A'. destruct (s_acc s) as [| | | |rest| | | |k|k i|k i|k i| |e|e|e| |] eqn:A; try (right; eapply A'; reflexivity).
  - right. destruct rest; eapply A'; reflexivity.
  - (* accept *) destruct Cn as (C1 & C2 & C3). right. destruct (s_backlog s) as [|i r] eqn:B; [|eapply A'; reflexivity].
    unfold conn in *. rewrite A, B in *. cbn [cur app] in *. rewrite app_nil_r in *.
    assert (Ex : exists i, i < size /\ ~ In i (map snd (s_table s))).
    { destruct (forallb (fun i => existsb (Nat.eqb i) (map snd (s_table s))) (seq 0 size)) eqn:Q.
      - exfalso. rewrite forallb_forall in Q. assert (Inc : incl (seq 0 size) (map snd (s_table s))).
        { intros x Hx. apply Q in Hx. apply existsb_exists in Hx as (y & Hy & E). apply Nat.eqb_eq in E. subst. exact Hy. }
        apply NoDup_incl_length in Inc; [|apply seq_NoDup]. rewrite seq_length, map_length in Inc. lia.
      - apply not_true_iff_false in Q. assert (X : exists x, In x (seq 0 size) /\ existsb (Nat.eqb x) (map snd (s_table s)) = false).
        { clear -Q. induction (seq 0 size) as [|x l IH]; [exfalso; apply Q; reflexivity|]. cbn in Q. destruct (existsb (Nat.eqb x) (map snd (s_table s))) eqn:E.
          - destruct IH as (y & Y1 & Y2); [intros H; apply Q; exact H|]. exists y. split; [right; exact Y1|exact Y2].
          - exists x. split; [left; reflexivity|exact E]. }
        destruct X as (x & X1 & X2). exists x. split; [apply in_seq in X1; lia|]. intros H. apply not_true_iff_false in X2. apply X2. apply existsb_exists. exists x. split; [exact H|apply Nat.eqb_refl]. }
    destruct Ex as (i & Hi & Ni). destruct (nth_error (s_req s) i) as [p|] eqn:Hp; [|apply nth_error_None in Hp; lia].
    assert (Nc : ~ is_connected p) by (intros H; apply Ni, (Co _ _ Hp), H). pose proof (G _ _ Hp) as Gp. destruct (Al _ _ Hp) as (Al1 & _).
    specialize (R' i). unfold stepR in R'. rewrite Hp in R'. destruct F as (F1 & F2). rewrite F1 in R'. destruct p; try (exfalso; apply Nc; exact I); try discriminate Al1; try (eapply R'; reflexivity).
    + destruct (getline t); eapply R'; reflexivity.
    + cbn in Gp. subst a. rewrite text_eqb_refl, C3 in R'. eapply R'; reflexivity.
    + destruct Gp.
  - (* read *) right. assert (Hc : In i (conn s)) by (unfold conn; rewrite A; apply in_app_iff; right; left; reflexivity).
    pose proof (Bo i Hc) as Hi. destruct (nth_error (s_req s) i) as [p|] eqn:Hp; [|apply nth_error_None in Hp; lia].
    apply (Co _ _ Hp) in Hc. destruct (Al _ _ Hp) as (Al1 & _). rewrite Al1 in A'. destruct p; try (destruct Hc; fail).
    + specialize (R' i). unfold stepR in R'. rewrite Hp in R'. eapply R'; reflexivity.
    + cbn [wroteRank] in A'. destruct (negb server && _); eapply A'; reflexivity.
    + cbn [wroteRank] in A'. destruct (negb server && _); eapply A'; reflexivity.
    + cbn [wroteRank] in A'. destruct (negb server && _); eapply A'; reflexivity.
  - (* size *) right. destruct Cn as (C0 & C1 & C2 & C3 & C4 & C5).
    assert (Hi : i < size) by (apply Bo; unfold conn; apply in_app_iff; left; exact C4).
    destruct (nth_error (s_req s) i) as [p|] eqn:Hp; [|apply nth_error_None in Hp; lia]. destruct (Ta _ _ C4 Hp) as (T1 & _).
    destruct (Al _ _ Hp) as (Al1 & _). rewrite Al1 in A'. specialize (R' i). unfold stepR in R'. rewrite Hp in R'. destruct p; try discriminate T1.
    + assert (X : existsb (Nat.eqb i) (s_ack s) = true) by (apply existsb_exists; exists i; split; [exact C5|apply Nat.eqb_refl]). rewrite X in R'. eapply R'; reflexivity.
    + eapply R'; reflexivity.
    + eapply A'; reflexivity.
  - left. destruct e; [destruct Cn|reflexivity].
  - destruct Cn.
  - destruct Cn.
Qed.

(** every step is progress *)
Definition mA (a : apc) : nat :=
  match a with
  | AListen => 4 * size + 12 + length C
  | ACheck => 4 * size + 11 + length C
  | ACheckTmp => 4 * size + 10 + length C
  | ACreate => 4 * size + 9 + length C
  | AWrite rest => 4 * size + 8 + length rest
  | AExists => 4 * size + 7
  | ARename => 4 * size + 6
  | ACheckPub => 4 * size + 5
  | AAccept k => 4 * (size - k) + 4
  | ARead k _ => 4 * (size - k) + 3
  | AAck k _ => 4 * (size - k) + 2
  | ASize k _ => 4 * (size - k) + 1
  | AClose => 3
  | AEnd _ => 2
  | ARemove _ => 1
  | _ => 0
  end.
Definition mR (p : rpc) : nat :=
  match p with
  | RWait => 8 | ROpen => 7 | RReopen => 6 | RRead _ => 5 | RConnect _ => 4 | RSendRank => 3 | RWaitAck => 2 | RSendSize => 1 | _ => 0
  end.
Definition measure (s : st) : nat := mA (s_acc s) + list_sum (map mR (s_req s)).
Lemma sum_put (l : list rpc) : forall i p q, nth_error l i = Some p -> mR q < mR p -> list_sum (map mR (put i q l)) < list_sum (map mR l).
Proof.
  induction l as [|y l IH]; intros [|i] p q H Lt; try discriminate H; cbn [put map list_sum fold_right] in *.
  - injection H as ->. lia.
  - pose proof (IH i p q H Lt). unfold list_sum in *. lia.
Qed.
Lemma next_lt k : k < size -> mA (next size k) < 4 * (size - k) + 1.
Proof. intros H. unfold next. destruct (Nat.ltb_spec (S k) size); cbn [mA]; lia. Qed.
Lemma measure_dec l s s' : ~ is_crash l -> J s -> exec l s = Some s' -> measure s' < measure s.
Proof.
  intros Nc j E. destruct l as [m|i| |i]; [| |exfalso; apply Nc; exact I|exfalso; apply Nc; exact I]; cbn [M_Publish.exec] in E.
  - assert (X : s_req s' = s_req s /\ mA (s_acc s') < mA (s_acc s)); [|destruct X as (X1 & X2); unfold measure; rewrite X1; lia].
    pose proof j as [(F & G) L Cn Nd Co Bo Ra Ta Al Up]. unfold count in Cn. unfold files in F. unfold stepA in E.
    destruct (s_acc s) as [| | | |rest| | | |k|k i|k i|k i| |e|e|e| |] eqn:A; try discriminate E.
    + injection E as <-. cbn -[Nat.mul]. split; [reflexivity|lia].
    + destruct F as (F1 & F2). rewrite F1 in E. injection E as <-. cbn -[Nat.mul]. split; [reflexivity|lia].
    + destruct F as (F1 & F2). rewrite F2 in E. injection E as <-. cbn -[Nat.mul]. split; [reflexivity|lia].
    + injection E as <-. cbn -[Nat.mul]. split; [reflexivity|lia].
    + destruct rest as [|c rest]; injection E as <-; cbn -[Nat.mul]; (split; [reflexivity|]); [lia|]. pose proof (skipn_length m rest). lia.
    + destruct F as (F1 & F2). rewrite F2 in E. injection E as <-. cbn -[Nat.mul]. split; [reflexivity|lia].
    + destruct F as (F1 & F2). rewrite F2 in E. injection E as <-. cbn -[Nat.mul]. split; [reflexivity|lia].
    + destruct F as (F1 & F2). rewrite F1 in E. injection E as <-. cbn -[Nat.mul Nat.sub]. split; [reflexivity|lia].
    + destruct (s_backlog s); [discriminate E|]. injection E as <-. cbn -[Nat.mul]. split; [reflexivity|lia].
    + destruct (nth_error (s_req s) i) as [p|] eqn:Hp; [|discriminate E]. destruct (Al _ _ Hp) as (Al1 & _). rewrite Al1 in E.
      destruct (wroteRank p); [|discriminate E]. destruct (negb server && _); injection E as <-; (split; [reflexivity|]); cbn -[Nat.mul Nat.sub]; [lia|].
      destruct server; [|cbn; lia]. pose proof (next_lt k). lia.
    + injection E as <-. cbn -[Nat.mul]. split; [reflexivity|lia].
    + destruct (nth_error (s_req s) i) as [p|] eqn:Hp; [|discriminate E]. destruct (Al _ _ Hp) as (Al1 & _). rewrite Al1 in E.
      destruct (sentSize p); [|discriminate E]. injection E as <-. split; [reflexivity|]. cbn -[Nat.mul Nat.sub]. pose proof (next_lt k). lia.
    + injection E as <-. cbn. split; [reflexivity|lia].
    + injection E as <-. cbn. destruct (s_pub s); cbn; split; [reflexivity|lia|reflexivity|lia].
    + injection E as <-. cbn. split; [reflexivity|lia].
  - destruct (stepR_shape _ _ _ E) as (p & p' & Hp & R1 & R2 & R3 & R4 & R5 & R6 & R7). unfold measure. rewrite R4, R1.
    assert (X : mR p' < mR p); [|pose proof (sum_put (s_req s) i p p' Hp X); lia].
    assert (Hi : i < length (s_req s)) by (eapply nth_lt, Hp).
    assert (Q0 : forall q, s_req s' = put i q (s_req s) -> p' = q).
    { intros q H. rewrite R1 in H. assert (X : nth_error (put i p' (s_req s)) i = Some q) by (rewrite H; apply put_eq, Hi).
      rewrite put_eq in X by exact Hi. congruence. }
    unfold stepR in E. rewrite Hp in E. destruct p; try discriminate E;
    repeat match type of E with context [match ?x with _ => _ end] => destruct x; try discriminate E end; injection E as <-;
    (match goal with |- mR ?x < _ => rewrite (Q0 _ eq_refl) end); cbn; lia.
Qed.
Lemma run_bound ls : forall s s', runs ls s s' -> crash_free ls -> J s -> length ls + measure s' <= measure s.
Proof.
  intros s s' R. induction R as [|l ls s s1 s2 E R IH]; intros cf j; [cbn; lia|].
  assert (Nc : ~ is_crash l) by (apply cf; left; reflexivity).
  pose proof (measure_dec l s s1 Nc j E). pose proof (IH ltac:(intros x Hx; apply cf; right; exact Hx) (J_step l s s1 Nc j E)). cbn [length]. lia.
Qed.
Lemma measure_before : measure (before None None) = 12 * size + 12 + length C.
Proof.
  unfold measure. cbn [s_acc s_req before M_Publish.before mA]. assert (X : list_sum (map mR (repeat RWait size)) = 8 * size).
  { generalize size. intros k. induction k as [|k IH]; [reflexivity|]. cbn [repeat map list_sum fold_right mR] in *. unfold list_sum in *. lia. }
  lia.
Qed.
End Pub.

(** ** Files left by an earlier run *)
Section Left.
Variables (server : bool) (address description : text) (rank : nat -> nat) (size : nat) (foreign : text -> bool).
Notation exec := (exec server address description rank size foreign).
Notation runs := (runs server address description rank size foreign).

(** the acceptor never gets beyond the two checks *)
Definition stopped (e : nat) (a : apc) : Prop :=
  match a with AListen | ACheck | ADead => True | ACheckTmp => e = 2 | AEnd x | ARemove x | AOver x => x = Some e | _ => False end.
Lemma leftover_pub t tmp ls s : runs ls (before size (Some t) tmp) s -> stopped 1 (s_acc s) /\ s_tmp s = tmp /\ (s_pub s = Some t \/ s_pub s = None /\ (s_acc s = AOver (Some 1) \/ s_acc s = ADead)).
Proof.
  intros R. set (Q := fun s => stopped 1 (s_acc s) /\ s_tmp s = tmp /\ (s_pub s = Some t \/ s_pub s = None /\ (s_acc s = AOver (Some 1) \/ s_acc s = ADead))).
  change (Q s). revert R. assert (Q0 : Q (before size (Some t) tmp)) by (split; [exact I|split; [reflexivity|left; reflexivity]]). revert Q0. generalize (before size (Some t) tmp). intros s0 q R.
  induction R as [|l ls s0 s1 s2 E R IH]; [exact q|]. apply IH. clear IH R. destruct q as (q1 & q2 & q3). destruct l as [m|i| |i]; cbn [M_Publish.exec] in E.
  - unfold stepA in E. destruct (s_acc s0) as [| | | |rest| | | |k|k i|k i|k i| |e|e|e| |] eqn:A; try discriminate E; try (destruct q1; fail); try (discriminate q1).
    + injection E as <-. split; [exact I|]. split; [exact q2|]. destruct q3 as [q3|(_ & [q3|q3])]; try discriminate q3. left. exact q3.
    + destruct q3 as [q3|(_ & [q3|q3])]; try discriminate q3. rewrite q3 in E. injection E as <-. split; [reflexivity|]. split; [exact q2|left; exact q3].
    + destruct q3 as [q3|(_ & [q3|q3])]; try discriminate q3. rewrite q3 in E. injection E as <-. cbn in q1. subst e. split; [reflexivity|]. split; [exact q2|left; exact q3].
    + injection E as <-. cbn in q1. subst e. split; [reflexivity|]. split; [exact q2|]. right. split; [reflexivity|left; reflexivity].
  - destruct (stepR_shape _ _ _ _ _ _ E) as (p & p' & Hp & R1 & R2 & R3 & R4 & _). unfold Q. rewrite R2, R3, R4. auto.
  - injection E as <-. split; [exact I|]. split; [exact q2|]. destruct q3 as [q3|(q3 & _)]; [left; exact q3|right; split; [exact q3|right; reflexivity]].
  - unfold crashR in E. destruct (nth_error (s_req s0) i); [|discriminate E]. injection E as <-. split; [exact q1|]. split; [exact q2|exact q3].
Qed.
Lemma stopped_table e s s' l : s_table s = [] -> stopped e (s_acc s) -> exec l s = Some s' -> s_table s' = [].
Proof.
  intros T q1 E. destruct l as [m|i| |i]; cbn [M_Publish.exec] in E.
  - unfold stepA in E. destruct (s_acc s) as [| | | |rest| | | |k|k i|k i|k i| |x|x|x| |] eqn:A; try discriminate E; try (destruct q1; fail);
    repeat match type of E with context [match ?x with _ => _ end] => destruct x eqn:?; try discriminate E end; injection E as <-; exact T.
  - destruct (stepR_shape _ _ _ _ _ _ E) as (p & p' & Hp & R1 & R2 & R3 & R4 & R5 & R6 & _). congruence.
  - injection E as <-. exact T.
  - unfold crashR in E. destruct (nth_error (s_req s) i); [|discriminate E]. injection E as <-. exact T.
Qed.
Lemma runs_snoc ls : forall s s1, runs ls s s1 -> forall (Q : list label -> st -> Prop), Q [] s ->
  (forall ls0 s0 l s0', runs ls0 s s0 -> Q ls0 s0 -> exec l s0 = Some s0' -> Q (ls0 ++ [l]) s0') -> Q ls s1.
Proof.
  intros s s1 R. induction R as [s|l ls s s1 s2 E R IH]; intros Q H0 H1; [exact H0|].
  apply (IH (fun ls0 x => Q (l :: ls0) x)).
  - apply (H1 [] s l s1); [constructor|exact H0|exact E].
  - intros ls0 s0 l' s0' R0 q E0. apply (H1 (l :: ls0) s0 l' s0'); [econstructor; eassumption|exact q|exact E0].
Qed.
Lemma leftover_pub_table t tmp ls s : runs ls (before size (Some t) tmp) s -> s_table s = [].
Proof.
  intros R. apply (runs_snoc _ _ _ R (fun _ x => s_table x = [])); [reflexivity|]. intros ls0 s0 l s0' R0 q E.
  eapply stopped_table; [exact q|apply (leftover_pub t tmp ls0 s0 R0)|exact E].
Qed.
Lemma leftover_pub_removed t tmp ls s : runs ls (before size (Some t) tmp) s -> s_acc s = AOver (Some 1) -> s_pub s = None.
Proof.
  intros R. apply (runs_snoc _ _ _ R (fun _ x => s_acc x = AOver (Some 1) -> s_pub x = None)); [intros Q; discriminate Q|]. intros ls0 s0 l s0' R0 q E A.
  destruct l as [m|i| |i]; cbn [M_Publish.exec] in E.
  - unfold stepA in E. destruct (leftover_pub t tmp ls0 s0 R0) as (q1 & q2 & q3).
    destruct (s_acc s0) as [| | | |rest| | | |k|k i|k i|k i| |x|x|x| |] eqn:A0; try discriminate E; try (destruct q1; fail).
    + injection E as <-. discriminate A.
    + destruct (s_pub s0); injection E as <-; discriminate A.
    + discriminate q1.
    + injection E as <-. cbn in A |- *. destruct (s_pub s0); [discriminate A|reflexivity].
    + injection E as <-. reflexivity.
  - destruct (stepR_shape _ _ _ _ _ _ E) as (p & p' & Hp & R1 & R2 & R3 & R4 & R5 & R6 & _). rewrite R2. apply q. congruence.
  - injection E as <-. discriminate A.
  - unfold crashR in E. destruct (nth_error (s_req s0) i); [|discriminate E]. injection E as <-. apply q, A.
Qed.
Lemma leftover_tmp t ls s : runs ls (before size None (Some t)) s -> stopped 2 (s_acc s) /\ s_tmp s = Some t /\ s_pub s = None.
Proof.
  intros R. set (Q := fun s => stopped 2 (s_acc s) /\ s_tmp s = Some t /\ s_pub s = None).
  change (Q s). revert R. assert (Q0 : Q (before size None (Some t))) by (repeat split). revert Q0. generalize (before size None (Some t)). intros s0 q R.
  induction R as [|l ls s0 s1 s2 E R IH]; [exact q|]. apply IH. clear IH R. destruct q as (q1 & q2 & q3). destruct l as [m|i| |i]; cbn [M_Publish.exec] in E.
  - unfold stepA in E. destruct (s_acc s0) as [| | | |rest| | | |k|k i|k i|k i| |e|e|e| |] eqn:A; try discriminate E; try (destruct q1; fail); try (discriminate q1).
    + injection E as <-. repeat split; assumption.
    + rewrite q3 in E. injection E as <-. repeat split; assumption.
    + rewrite q2 in E. injection E as <-. repeat split; assumption.
    + rewrite q3 in E. injection E as <-. cbn in q1. subst e. repeat split; assumption.
    + injection E as <-. cbn in q1. subst e. repeat split; assumption.
  - destruct (stepR_shape _ _ _ _ _ _ E) as (p & p' & Hp & R1 & R2 & R3 & R4 & _). unfold Q. rewrite R2, R3, R4. auto.
  - injection E as <-. repeat split; assumption.
  - unfold crashR in E. destruct (nth_error (s_req s0) i); [|discriminate E]. injection E as <-. repeat split; assumption.
Qed.
End Left.
