(** Proofs about the primary ranks of all participants. *)
From Coq Require Import ZArith List Arith String Ascii Bool Lia Sorting.Sorted.
From Verif Require Import M_Net S_Term P_Net P_Term M_Ring M_Swarm S_Swarm.
Import List ListNotations.
Open Scope nat_scope.

(** * Exchanges along all links, in the order of names *)
Definition mates (b b' : bm2n) : Prop :=
  isRequesting b' = negb (isRequesting b) /\ primaryConn b' = primaryConn b.
Record wfam (n : nat) (ms : nat -> list bm2n) : Prop := {
  wf_sorted : forall i, i < n -> StronglySorted lt (map remote (ms i));
  wf_mate : forall i b, i < n -> In b (ms i) -> remote b < n /\ remote b <> i /\
    exists b', In b' (ms (remote b)) /\ remote b' = i /\ mates b b'
}.

Lemma first_nonempty n (ms : nat -> list bm2n) :
  (forall i, i < n -> ms i = []) \/
  exists a, a < n /\ ms a <> [] /\ forall i, i < a -> ms i = [].
Proof.
  induction n as [|n IH]; [left; intros; lia|].
  destruct IH as [H|(a & Ha & Hn & Hm)]; [|right; exists a; repeat split; auto].
  destruct (ms n) as [|b r] eqn:E.
  - left. intros i Hi. destruct (Nat.eq_dec i n) as [->|]; auto. apply H. lia.
  - right. exists n. repeat split; auto. rewrite E. discriminate.
Qed.

Definition total (n : nat) (ms : nat -> list bm2n) : nat := list_sum (map (fun i => List.length (ms i)) (seq 0 n)).
Lemma list_sum_le {A} (f g : A -> nat) l : (forall x, In x l -> f x <= g x) -> list_sum (map f l) <= list_sum (map g l).
Proof.
  induction l as [|x l IH]; intros H; auto.
  change (list_sum (map f (x :: l))) with (f x + list_sum (map f l)); change (list_sum (map g (x :: l))) with (g x + list_sum (map g l)).
  pose proof (H x (or_introl eq_refl)). assert (list_sum (map f l) <= list_sum (map g l)) by (apply IH; intros; apply H; right; auto).
  lia.
Qed.
Lemma list_sum_lt {A} (f g : A -> nat) l y : (forall x, In x l -> f x <= g x) -> In y l -> f y < g y ->
  list_sum (map f l) < list_sum (map g l).
Proof.
  induction l as [|x l IH]; intros H Hy Hl; [contradiction|].
  change (list_sum (map f (x :: l))) with (f x + list_sum (map f l)); change (list_sum (map g (x :: l))) with (g x + list_sum (map g l)).
  destruct Hy as [->|Hy].
  - assert (list_sum (map f l) <= list_sum (map g l)) by (apply list_sum_le; intros; apply H; right; auto). lia.
  - pose proof (H x (or_introl eq_refl)). assert (list_sum (map f l) < list_sum (map g l)) by (apply IH; auto; intros; apply H; right; auto).
    lia.
Qed.

Lemma sorted_head_lt b r c : StronglySorted lt (map remote (b :: r)) -> In c r -> remote b < remote c.
Proof. intros H Hc. inversion H as [|x l H1 H2]; subst. rewrite Forall_forall in H2. apply H2, in_map, Hc. Qed.

Section Visit.
Variables (n : nat) (S : Type) (f : nat -> bm2n -> S -> proc smsg S) (nx : nat -> bm2n -> S -> S).
Hypothesis T : forall i j b b' si sj, i < n -> j < n -> i <> j -> remote b = j -> remote b' = i -> mates b b' ->
  isRequesting b = true ->
  talk i j (f i b si) (f j b' sj) (nx i b si) (nx j b' sj).

Lemma T2 i j b b' si sj : i < n -> j < n -> i <> j -> remote b = j -> remote b' = i -> mates b b' ->
  talk i j (f i b si) (f j b' sj) (nx i b si) (nx j b' sj).
Proof.
  intros Hi Hj N Eb Eb' (M1 & M2). destruct (isRequesting b) eqn:R.
  - apply T; auto. split; congruence.
  - apply talk_sym. apply T; auto. split; [|congruence]. rewrite M1, R. reflexivity.
Qed.

Theorem visit_runs : forall k ms (s : nat -> S), total n ms <= k -> wfam n ms ->
  runs n (fun i => visit (f i) (ms i) (s i)) (fun i => PRet (fold_left (fun s b => nx i b s) (ms i) (s i))).
Proof.
  induction k as [|k IH]; intros ms s Hk W.
  - apply runs_refl. intros i Hi.
    assert (E : ms i = []).
    { destruct (ms i) as [|b r] eqn:E; auto. exfalso.
      assert (Z0 : list_sum (map (fun _ : nat => 0) (seq 0 n)) = 0) by (clear; induction (seq 0 n); cbn; auto).
      assert (L : list_sum (map (fun _ : nat => 0) (seq 0 n)) < total n ms).
      { unfold total. apply list_sum_lt with (y := i); [intros; lia|apply in_seq; lia|rewrite E; cbn; lia]. }
      lia. }
    rewrite E. reflexivity.
  - destruct (first_nonempty n ms) as [H|(a & Ha & Na & Hm)].
    { apply runs_refl. intros i Hi. rewrite (H i Hi). reflexivity. }
    destruct (ms a) as [|b ra] eqn:Ea; [congruence|]. clear Na.
    destruct (wf_mate n ms W a b Ha) as (Hp & Np & b' & Hb' & Eb' & Mt); [rewrite Ea; left; auto|].
    set (p := remote b) in *.
    assert (Lp : a < p).
    { destruct (lt_dec p a) as [L|L]; [|lia]. rewrite (Hm p L) in Hb'. contradiction. }
    assert (Hd : exists rp, ms p = b' :: rp).
    { destruct (ms p) as [|c rp] eqn:Ep; [contradiction|]. destruct Hb' as [->|Hb']; [eauto|]. exfalso.
      assert (L : remote c < a).
      { rewrite <- Eb'. apply sorted_head_lt with (r := rp); auto. rewrite <- Ep. apply (wf_sorted n ms W). auto. }
      destruct (wf_mate n ms W p c Hp) as (_ & _ & b2 & Hb2 & _); [rewrite Ep; left; auto|].
      rewrite (Hm _ L) in Hb2. contradiction. }
    destruct Hd as (rp & Ep).
    assert (TT := T2 a p b b' (s a) (s p) Ha Hp (Nat.lt_neq _ _ Lp) eq_refl Eb' Mt).
    destruct (runs_talk n a p (f a b (s a)) (f p b' (s p)) _ _ TT
               (fun i => visit (f i) (ms i) (s i))
               (fun t X => X = visit (f a) ra t) (fun t X => X = visit (f p) rp t)) as (X & Y & R & EX & EY); [exact Ha|exact Hp|lia| | |].
    { rewrite Ea. cbn [visit]. apply leads_intro. }
    { rewrite Ep. cbn [visit]. apply leads_intro. }
    subst X Y.
    set (ms' := fun i => if i =? p then rp else if i =? a then ra else ms i).
    set (s' := fun i => if i =? p then nx p b' (s p) else if i =? a then nx a b (s a) else s i).
    eapply runs_trans; [exact R|].
    eapply runs_ext; [| |apply (IH ms' s')].
    + intros i Hi. unfold ms', s', putp. destruct (Nat.eqb_spec i p) as [->|]; auto. destruct (Nat.eqb_spec i a) as [->|]; auto.
    + intros i Hi. unfold ms', s'. destruct (Nat.eqb_spec i p) as [->|]; [rewrite Ep; auto|].
      destruct (Nat.eqb_spec i a) as [->|]; [rewrite Ea; auto|]. auto.
    + assert (total n ms' < total n ms); [|lia]. unfold total. apply list_sum_lt with (y := a).
      * intros i _. unfold ms'. destruct (Nat.eqb_spec i p) as [->|]; [rewrite Ep; cbn; lia|].
        destruct (Nat.eqb_spec i a) as [->|]; [rewrite Ea; cbn; lia|]. lia.
      * apply in_seq. lia.
      * unfold ms'. destruct (Nat.eqb_spec a p) as [->|]; [lia|]. rewrite Nat.eqb_refl, Ea. cbn. lia.
    + constructor.
      * intros i Hi. unfold ms'. destruct (Nat.eqb_spec i p) as [->|].
        { pose proof (wf_sorted n ms W p Hp) as H. rewrite Ep in H. inversion H; auto. }
        destruct (Nat.eqb_spec i a) as [->|].
        { pose proof (wf_sorted n ms W a Ha) as H. rewrite Ea in H. inversion H; auto. }
        apply (wf_sorted n ms W); auto.
      * intros i c Hi Hc.
        assert (Hc0 : In c (ms i)).
        { unfold ms' in Hc. destruct (Nat.eqb_spec i p) as [->|]; [rewrite Ep; right; auto|].
          destruct (Nat.eqb_spec i a) as [->|]; [rewrite Ea; right; auto|]. auto. }
        destruct (wf_mate n ms W i c Hi Hc0) as (H1 & H2 & c' & H3 & H4 & H5).
        split; auto. split; auto. exists c'. split; auto.
        (* the mate is not the removed one *)
        unfold ms'. destruct (Nat.eqb_spec (remote c) p) as [E|].
        { rewrite E, Ep in H3. destruct H3 as [<-|H3]; auto. exfalso.
          assert (i = a) as -> by congruence. unfold ms' in Hc.
          destruct (Nat.eqb_spec a p); [lia|]. rewrite Nat.eqb_refl in Hc.
          pose proof (wf_sorted n ms W a Ha) as HS. rewrite Ea in HS. pose proof (sorted_head_lt _ _ _ HS Hc). lia. }
        destruct (Nat.eqb_spec (remote c) a) as [E|]; auto.
        rewrite E, Ea in H3. destruct H3 as [<-|H3]; auto. exfalso.
        assert (i = p) as -> by (unfold p; congruence). unfold ms' in Hc. rewrite Nat.eqb_refl in Hc.
        pose proof (wf_sorted n ms W p Hp) as HS. rewrite Ep in HS. pose proof (sorted_head_lt _ _ _ HS Hc). lia.
Qed.
End Visit.

(** * Configured connections *)
Definition entry (n me : nat) (t : m2nTag) : option bm2n :=
  if acceptor t =? me then (if connector t <? n then Some (mkB (connector t) true false false) else None)
  else if connector t =? me then (if acceptor t <? n then Some (mkB (acceptor t) false false false) else None)
  else None.

Lemma insert_ok b m : forall m', insertM2N b m = Some m' -> StronglySorted lt (map remote m) ->
  StronglySorted lt (map remote m') /\ forall c, In c m' <-> c = b \/ In c m.
Proof.
  induction m as [|c m IH]; intros m' H HS; cbn [insertM2N] in H.
  - injection H as <-. split; [repeat constructor|]. intros x. cbn. intuition.
  - destruct (Nat.eqb_spec (remote b) (remote c)); [discriminate|].
    destruct (Nat.ltb_spec (remote b) (remote c)).
    + injection H as <-. split; [|intros x; cbn; intuition].
      cbn. constructor; auto. constructor; auto.
      inversion HS as [|y l H1 H2]; subst. eapply Forall_impl; [|exact H2]. cbn. intros; lia.
    + destruct (insertM2N b m) as [m1|] eqn:E; [|discriminate]. injection H as <-.
      inversion HS as [|y l H1 H2]; subst. destruct (IH m1 eq_refl H1) as (IS & II).
      split; [|intros x; cbn; rewrite II; intuition].
      cbn. constructor; auto. rewrite Forall_forall. intros r Hr. apply in_map_iff in Hr.
      destruct Hr as (x & <- & Hx). apply II in Hx. destruct Hx as [->|Hx]; [lia|].
      rewrite Forall_forall in H2. apply H2. apply in_map; auto.
Qed.
Lemma insert_some b m : (forall c, In c m -> remote c <> remote b) -> exists m', insertM2N b m = Some m'.
Proof.
  induction m as [|c m IH]; intros H; cbn [insertM2N]; [eauto|].
  destruct (Nat.eqb_spec (remote b) (remote c)) as [E|]; [exfalso; apply (H c); [left; auto|auto]|].
  destruct (remote b <? remote c); eauto.
  destruct IH as (m' & E); [intros x Hx; apply H; right; auto|]. rewrite E. eauto.
Qed.

Lemma bound_step n me t tags acc : boundM2Ns n me (t :: tags) acc =
  match entry n me t with
  | Some b => match insertM2N b acc with Some acc' => boundM2Ns n me tags acc' | None => None end
  | None => boundM2Ns n me tags acc
  end.
Proof.
  cbn [boundM2Ns]. unfold entry. destruct (Nat.eqb_spec (acceptor t) me) as [E|E]; cbn [negb andb].
  - destruct (connector t <? n); auto.
  - destruct (Nat.eqb_spec (connector t) me) as [E'|E']; cbn [negb andb]; auto.
    destruct (acceptor t <? n); auto.
Qed.
Lemma bound_ok n me tags : forall acc res, boundM2Ns n me tags acc = Some res -> StronglySorted lt (map remote acc) ->
  StronglySorted lt (map remote res) /\
  forall b, In b res <-> In b acc \/ exists t, In t tags /\ entry n me t = Some b.
Proof.
  induction tags as [|t tags IH]; intros acc res H HS.
  - injection H as <-. split; auto. intros b. split; [auto|]. intros [?|(t & [] & _)]; auto.
  - rewrite bound_step in H. destruct (entry n me t) as [b|] eqn:E.
    + destruct (insertM2N b acc) as [acc'|] eqn:EI; [|discriminate].
      destruct (insert_ok _ _ _ EI HS) as (S1 & I1). destruct (IH _ _ H S1) as (S2 & I2). split; auto.
      intros c. rewrite I2, I1. split.
      * intros [[->|?]|(u & Hu & Eu)]; [right; exists t; split; [left|]; auto|auto|right; exists u; split; [right|]; auto].
      * intros [?|(u & [<-|Hu] & Eu)]; auto.
        { left. left. congruence. }
        { right. exists u. auto. }
    + destruct (IH _ _ H HS) as (S2 & I2). split; auto. intros c. rewrite I2. split.
      * intros [?|(u & Hu & Eu)]; auto. right. exists u. split; [right|]; auto.
      * intros [?|(u & [<-|Hu] & Eu)]; auto; [congruence|]. right. exists u. auto.
Qed.
Lemma bound_in n me tags ms b : getBoundM2NsFor n me tags = Some ms ->
  In b ms <-> exists t, In t tags /\ entry n me t = Some b.
Proof.
  intros H. destruct (bound_ok n me tags [] ms H) as (_ & I); [constructor|]. rewrite I. split; [intros [[]|?]; auto|auto].
Qed.

Lemma configured_wfam n tags ms : no_self_link tags -> configured n tags ms -> wfam n ms.
Proof.
  intros NS (_ & C). constructor.
  - intros i Hi. apply (bound_ok n i tags [] (ms i)); [apply C; auto|constructor].
  - intros i b Hi Hb. apply (bound_in n i tags (ms i)) in Hb; [|apply C; auto].
    destruct Hb as (t & Ht & E). pose proof (NS t Ht) as N. unfold entry in E.
    destruct (Nat.eqb_spec (acceptor t) i) as [Ea|Ea].
    + destruct (Nat.ltb_spec (connector t) n) as [L|]; [|discriminate]. injection E as <-. cbn [remote].
      split; auto. split; [congruence|]. exists (mkB i false false false). split; [|split; [auto|split; auto]].
      apply (bound_in n (connector t) tags (ms (connector t))); [apply C; auto|]. exists t. split; auto.
      unfold entry. destruct (Nat.eqb_spec (acceptor t) (connector t)); [congruence|].
      rewrite Nat.eqb_refl. destruct (Nat.ltb_spec (acceptor t) n); [subst; auto|lia].
    + destruct (Nat.eqb_spec (connector t) i) as [Ec|Ec]; [|discriminate].
      destruct (Nat.ltb_spec (acceptor t) n) as [L|]; [|discriminate]. injection E as <-. cbn [remote].
      split; auto. split; [congruence|]. exists (mkB i true false false). split; [|split; [auto|split; auto]].
      apply (bound_in n (acceptor t) tags (ms (acceptor t))); [apply C; auto|]. exists t. split; auto.
      unfold entry. rewrite Nat.eqb_refl. destruct (Nat.ltb_spec (connector t) n); [subst; auto|lia].
Qed.
Lemma configured_linked n tags ms i j : configured n tags ms -> i < n -> j < n ->
  linked tags i j <-> exists b, In b (ms i) /\ remote b = j.
Proof.
  intros (_ & C) Hi Hj. split.
  - intros H.
    assert (HH : exists t, In t tags /\ exists b, entry n i t = Some b /\ remote b = j).
    { destruct H as [H|H].
      - exists (mkTag i j). split; auto. unfold entry. cbn [acceptor connector]. rewrite Nat.eqb_refl.
        destruct (Nat.ltb_spec j n); [|lia]. eexists. split; [reflexivity|reflexivity].
      - exists (mkTag j i). split; auto. unfold entry. cbn [acceptor connector]. rewrite Nat.eqb_refl.
        destruct (Nat.eqb_spec j i) as [->|N].
        + destruct (Nat.ltb_spec i n); [|lia]. eexists. split; reflexivity.
        + destruct (Nat.ltb_spec j n); [|lia]. eexists. split; reflexivity. }
    destruct HH as (t & Ht & b & Eb & Er). exists b. split; auto.
    apply (bound_in n i tags (ms i)); [apply C; auto|]. exists t. auto.
  - intros (b & Hb & <-). apply (bound_in n i tags (ms i)) in Hb; [|apply C; auto].
    destruct Hb as (t & Ht & E). unfold entry in E. destruct t as [a c]. cbn [acceptor connector] in E.
    destruct (Nat.eqb_spec a i) as [->|].
    + destruct (c <? n); [|discriminate]. injection E as <-. left. auto.
    + destruct (Nat.eqb_spec c i) as [->|]; [|discriminate].
      destruct (a <? n); [|discriminate]. injection E as <-. right. auto.
Qed.

Lemma readTags_app pre tags : forall out, readTags pre tags = Some out -> out = pre ++ tags.
Proof.
  revert pre. induction tags as [|t tags IH]; intros pre out H; cbn in H.
  - injection H as <-. symmetry. apply app_nil_r.
  - destruct (checkDuplicates pre t); [|discriminate]. rewrite (IH _ _ H), <- app_assoc. reflexivity.
Qed.
Lemma bound_some n me tags : forall pre acc, readTags pre tags = Some (pre ++ tags) ->
  (forall b, In b acc -> exists t, In t pre /\ entry n me t = Some b) ->
  exists res, boundM2Ns n me tags acc = Some res.
Proof.
  induction tags as [|t tags IH]; intros pre acc H Hacc; [cbn; eauto|].
  cbn [readTags] in H. destruct (checkDuplicates pre t) eqn:D; [|discriminate].
  assert (H' : readTags (pre ++ [t]) tags = Some ((pre ++ [t]) ++ tags)) by (rewrite <- app_assoc; exact H).
  rewrite bound_step. destruct (entry n me t) as [b|] eqn:E.
  - destruct (insert_some b acc) as (acc' & EI).
    { intros c Hc Er. destruct (Hacc c Hc) as (u & Hu & Eu).
      unfold checkDuplicates in D. apply negb_true_iff in D.
      assert (X : existsb (fun c => ((acceptor c =? acceptor t) && (connector c =? connector t)) ||
                          ((connector c =? acceptor t) && (acceptor c =? connector t))) pre = true); [|congruence].
      apply existsb_exists. exists u. split; auto. unfold entry in E, Eu.
      destruct (Nat.eqb_spec (acceptor t) me); [destruct (connector t <? n); [|discriminate]|
        destruct (Nat.eqb_spec (connector t) me); [|discriminate]; destruct (acceptor t <? n); [|discriminate]];
      (destruct (Nat.eqb_spec (acceptor u) me); [destruct (connector u <? n); [|discriminate]|
        destruct (Nat.eqb_spec (connector u) me); [|discriminate]; destruct (acceptor u <? n); [|discriminate]]);
      injection E as <-; injection Eu as <-; cbn [remote] in Er;
      apply orb_true_iff; rewrite !andb_true_iff, !Nat.eqb_eq; lia. }
    rewrite EI. apply (IH (pre ++ [t])); auto. intros c Hc.
    assert (HI : forall m m', insertM2N b m = Some m' -> In c m' -> c = b \/ In c m).
    { clear. induction m as [|x m IHm]; intros m' H; cbn [insertM2N] in H.
      - injection H as <-. intros [<-|[]]; auto.
      - destruct (remote b =? remote x); [discriminate|]. destruct (remote b <? remote x).
        + injection H as <-. intros [<-|?]; auto.
        + destruct (insertM2N b m) as [m1|]; [|discriminate]. injection H as <-.
          intros [<-|Hc]; [right; left; auto|]. destruct (IHm m1 eq_refl Hc); auto. right. right. auto. }
    destruct (HI _ _ EI Hc) as [->|Hc'].
    + exists t. split; auto. apply in_or_app. right. left. auto.
    + destruct (Hacc c Hc') as (u & Hu & Eu). exists u. split; auto. apply in_or_app; auto.
  - apply (IH (pre ++ [t])); auto. intros c Hc. destruct (Hacc c Hc) as (u & Hu & Eu). exists u. split; auto.
    apply in_or_app; auto.
Qed.
Theorem configured_exists n tags : configuredM2Ns tags = Some tags -> exists ms, configured n tags ms.
Proof.
  intros H. exists (fun i => match getBoundM2NsFor n i tags with Some m => m | None => [] end).
  split; auto. intros i Hi. destruct (bound_some n i tags [] []) as (res & E); [exact H|intros b []|].
  unfold getBoundM2NsFor. rewrite E. reflexivity.
Qed.
Lemma readTags_some pre tags : readTags pre tags = None \/ readTags pre tags = Some (pre ++ tags).
Proof.
  destruct (readTags pre tags) as [out|] eqn:E; auto. right. rewrite (readTags_app _ _ _ E). reflexivity.
Qed.

(** * The single exchanges *)
Lemma wfam_map n ms (g : bm2n -> bm2n) :
  (forall b, remote (g b) = remote b /\ isRequesting (g b) = isRequesting b) ->
  (forall b b', mates b b' -> primaryConn (g b') = primaryConn (g b)) ->
  wfam n ms -> wfam n (fun i => map g (ms i)).
Proof.
  intros G1 G2 W. constructor.
  - intros i Hi. rewrite map_map. rewrite (map_ext _ remote) by (intros; apply G1). apply W; auto.
  - intros i b Hi Hb. apply in_map_iff in Hb. destruct Hb as (b0 & <- & Hb0).
    destruct (wf_mate n ms W i b0 Hi Hb0) as (H1 & H2 & c & H3 & H4 & H5). destruct (G1 b0) as (-> & Q).
    split; auto. split; auto. exists (g c). split; [apply in_map; auto|]. destruct (G1 c) as (Ec & Qc).
    split; [congruence|]. split; [|apply G2; auto]. rewrite Q, Qc. apply H5.
Qed.

Lemma talk_wire {A B} i j (p : proc rmsg A) (q : proc rmsg B) a b : talk i j p q a b -> talk i j (wire p) (wire q) a b.
Proof. intros H. induction H; cbn; constructor; auto. Qed.
Lemma talk_conn i j x y : talk i j (requestConnection j i x y 0 1) (acceptConnection i j x y 0) j i.
Proof.
  unfold requestConnection, acceptConnection, send, recv, rInt. cbn [bind].
  apply talk_recv. cbn [bind]. rewrite !Nat.eqb_refl. cbn [andb check bind].
  apply talk_send. cbn [bind]. apply talk_send. cbn [bind]. apply talk_recv. cbn [bind].
  apply talk_send. cbn [bind]. cbn. constructor.
Qed.

Lemma split_info v h : no_semicolon v -> splitInfo (makeLocalInfo v h) = Some (v, h).
Proof.
  unfold makeLocalInfo. induction v as [|c v IH]; intros H; cbn; auto.
  destruct H as (H1 & H2). destruct (Ascii.eqb_spec c ";"%char); [congruence|].
  cbn in IH. rewrite IH by auto. reflexivity.
Qed.
Lemma check_info v h v' h' : no_semicolon v' -> checkRemoteInfo v h (makeLocalInfo v' h') =
  if String.eqb v' v then if String.eqb h' h then PRet tt else PErr eConfig else PErr eVersion.
Proof.
  intros H. unfold checkRemoteInfo. rewrite split_info by auto. unfold check.
  destruct (String.eqb v' v); auto.
Qed.

Lemma talk_connect_primary v h i j b b' si sj : no_semicolon v -> i <> j -> remote b = j -> remote b' = i -> mates b b' ->
  isRequesting b = true ->
  talk i j (connectPrimary i v h b si) (connectPrimary j v h b' sj)
    (si ++ [if primaryConn b then b else mkB (remote b) (isRequesting b) true (secondaryConn b)])
    (sj ++ [if primaryConn b' then b' else mkB (remote b') (isRequesting b') true (secondaryConn b')]).
Proof.
  intros NS N Eb Eb' (M1 & M2) R. unfold connectPrimary. rewrite M2. destruct (primaryConn b); [constructor|].
  rewrite M1, R, Eb, Eb'. cbn [negb].
  eapply talk_bind; [|constructor].
  unfold requestPrimaryRankConnection, acceptPrimaryRankConnection.
  eapply talk_bind; [apply talk_wire, talk_conn|].
  unfold send, recvStr, recv. cbn [bind]. apply talk_recv. cbn [bind]. apply talk_send. cbn [bind].
  rewrite check_info by auto. rewrite !String.eqb_refl. constructor.
Qed.

Lemma talk_coordinate ri rj i j b b' si sj : remote b = j -> remote b' = i -> mates b b' -> isRequesting b = true ->
  talk i j (coordinate ri b si) (coordinate rj b' sj) (si || rj) (sj || ri).
Proof.
  intros Eb Eb' (M1 & M2) R. unfold coordinate. rewrite M1, R, Eb, Eb'. cbn [negb].
  unfold send, recvBool, recv. cbn [bind]. apply talk_send. cbn [bind]. apply talk_recv. cbn [bind]. constructor.
Qed.

Lemma talk_close w cl i j b b' si sj : remote b = j -> remote b' = i -> mates b b' -> isRequesting b = true ->
  talk i j (closeChannel w cl b si) (closeChannel w cl b' sj)
    (si ++ [if primaryConn b then closeM2N cl b else b]) (sj ++ [if primaryConn b' then closeM2N cl b' else b']).
Proof.
  intros Eb Eb' (M1 & M2) R. unfold closeChannel. rewrite M2. destruct (primaryConn b); cbn [negb]; [|constructor].
  destruct w; [|constructor]. unfold pingPong. rewrite M1, R, Eb, Eb'. cbn [negb].
  eapply talk_bind; [|constructor].
  unfold send, recvStr, recv. cbn [bind]. apply talk_send. cbn [bind]. apply talk_recv. cbn. constructor.
Qed.

Lemma fold_app {A B} (g : A -> B) l : forall acc, fold_left (fun s b => s ++ [g b]) l acc = acc ++ map g l.
Proof.
  induction l as [|x l IH]; intros acc; cbn; [symmetry; apply app_nil_r|]. rewrite IH, <- app_assoc. reflexivity.
Qed.
Lemma fold_or {A} (g : A -> bool) l : forall s, fold_left (fun s b => s || g b) l s = s || existsb g l.
Proof.
  induction l as [|x l IH]; intros s; cbn; [symmetry; apply orb_false_r|]. rewrite IH, orb_assoc. reflexivity.
Qed.

Section Fam.
Variables (n : nat) (ms : nat -> list bm2n).
Hypothesis W : wfam n ms.
Theorem connect_runs v h : no_semicolon v ->
  runs n (fun i => connectPrimaries i v h (ms i))
    (fun i => PRet (map (fun b => if primaryConn b then b else mkB (remote b) (isRequesting b) true (secondaryConn b)) (ms i))).
Proof.
  intros NS. unfold connectPrimaries.
  eapply runs_ext; [| |apply (visit_runs n (list bm2n) (fun i => connectPrimary i v h)
    (fun i b s => s ++ [if primaryConn b then b else mkB (remote b) (isRequesting b) true (secondaryConn b)])
    ltac:(intros; apply talk_connect_primary; auto) (total n ms) ms (fun _ => []) (le_n _) W)].
  - intros i Hi. cbv beta. reflexivity.
  - intros i Hi. cbv beta. rewrite fold_app. reflexivity.
Qed.
Theorem handshake_runs req :
  runs n (fun i => reinitHandshake (req i) (ms i))
    (fun i => PRet (req i || existsb (fun b => req (remote b)) (ms i))).
Proof.
  unfold reinitHandshake.
  eapply runs_ext; [| |apply (visit_runs n bool (fun i => coordinate (req i))
    (fun i b s => s || req (remote b)) ltac:(intros; cbv beta; subst; apply talk_coordinate; auto)
    (total n ms) ms req (le_n _) W)].
  - intros i Hi. cbv beta. reflexivity.
  - intros i Hi. cbv beta. rewrite fold_or. reflexivity.
Qed.
Theorem close_runs w cl :
  runs n (fun i => closeCommunicationChannels w cl (ms i))
    (fun i => PRet (map (fun b => if primaryConn b then closeM2N cl b else b) (ms i))).
Proof.
  unfold closeCommunicationChannels.
  eapply runs_ext; [| |apply (visit_runs n (list bm2n) (fun i => closeChannel w cl)
    (fun i b s => s ++ [if primaryConn b then closeM2N cl b else b])
    ltac:(intros; apply talk_close; auto) (total n ms) ms (fun _ => []) (le_n _) W)].
  - intros i Hi. cbv beta. reflexivity.
  - intros i Hi. cbv beta. rewrite fold_app. reflexivity.
Qed.
End Fam.

(** * Nobody leaves before everybody came *)
Inductive owes {M A} (j : nat) : proc M A -> Prop :=
| ow_here k : owes j (PRecv j k)
| ow_recv s k : (forall m, owes j (k m)) -> owes j (PRecv s k)
| ow_send d m k : owes j k -> owes j (PSend d m k)
| ow_err e : owes j (PErr e).
Lemma owes_bind_l {M A B} j (p : proc M A) (f : A -> proc M B) : owes j p -> owes j (bind p f).
Proof. induction 1; cbn; [apply ow_here|apply ow_recv|apply ow_send|apply ow_err]; auto. Qed.
Lemma owes_bind_r {M A B} j (p : proc M A) (f : A -> proc M B) : (forall a, owes j (f a)) -> owes j (bind p f).
Proof.
  intros H. induction p; cbn; auto; [apply ow_err|apply ow_send; auto|apply ow_recv; auto].
Qed.
Lemma owes_ret {M A} j (a : A) : ~ owes (M := M) j (PRet a).
Proof. intros H. inversion H. Qed.

Fixpoint nowait {M A} (p : proc M (caller A)) : Prop :=
  match p with
  | PRet s => s <> Waiting
  | PErr _ => True
  | PSend _ _ k => nowait k
  | PRecv _ k => forall m, nowait (k m)
  end.
Lemma nowait_bind {M A} (p : proc M A) : nowait (bind p (fun a => PRet (Done a))).
Proof. induction p; cbn; auto. discriminate. Qed.

Section Leave.
Context {M A : Type}.
Variables (n i j : nat) (prog : nat -> proc M A).
Hypotheses (Hi : i < n) (Hj : j < n) (N : i <> j) (O : owes j (prog i)).
Let start : list (proc M (caller A)) := repeat (PRet Waiting) n.
Definition leaveInv (x : list (proc M (caller A)) * chans (M := M)) : Prop :=
  length (fst x) = n /\ length (snd x) = n * n /\
  ((exists p, nth_error (fst x) j = Some p /\ nowait p) \/
   (nth_error (fst x) j = Some (PRet Waiting) /\ chget (M := M) n j i (snd x) = [] /\
    exists p, nth_error (fst x) i = Some p /\ (p = PRet Waiting \/ owes j p))).

Lemma leave_step a x x' : leaveInv x -> astep (calls prog) a x x' -> leaveInv x'.
Proof.
  intros (L1 & L2 & D) H. inversion H as [a0 b m k c q N1 Lb Ha|a0 b m k c q r N1 Lb Ha Hq|a0 s p c q Ha Hb]; subst; cbn [fst snd] in *.
  - assert (La : a < length c) by (eapply nth_error_lt; eauto).
    unfold leaveInv; cbn [fst snd]. split; [rewrite upd_length; auto|]. split; [rewrite chset_length; auto|]. cbn [fst snd].
    destruct D as [(p & Ep & Wp)|(Ej & Eq & p & Ei & Op)].
    + left. destruct (Nat.eq_dec a j) as [->|Na].
      * exists k. rewrite nth_upd_eq by auto. split; auto. rewrite Ha in Ep. injection Ep as <-. exact Wp.
      * exists p. rewrite nth_upd_ne by auto. auto.
    + right. destruct (Nat.eq_dec a j) as [->|Na]; [congruence|].
      rewrite nth_upd_ne by auto. split; auto. split.
      * rewrite <- Eq. rewrite L1. apply chget_set_ne; try lia. congruence.
      * destruct (Nat.eq_dec a i) as [->|Nai].
        { exists k. rewrite nth_upd_eq by auto. split; auto. right.
          rewrite Ha in Ei. injection Ei as <-. destruct Op as [Op|Op]; [discriminate|]. inversion Op; auto. }
        { exists p. rewrite nth_upd_ne by auto. auto. }
  - assert (La : a < length c) by (eapply nth_error_lt; eauto).
    unfold leaveInv; cbn [fst snd]. split; [rewrite upd_length; auto|]. split; [rewrite chset_length; auto|]. cbn [fst snd].
    destruct D as [(p & Ep & Wp)|(Ej & Eq & p & Ei & Op)].
    + left. destruct (Nat.eq_dec a j) as [->|Na].
      * exists (k m). rewrite nth_upd_eq by auto. split; auto. rewrite Ha in Ep. injection Ep as <-. apply Wp.
      * exists p. rewrite nth_upd_ne by auto. auto.
    + right. destruct (Nat.eq_dec a j) as [->|Na]; [congruence|].
      rewrite nth_upd_ne by auto. split; auto.
      destruct (Nat.eq_dec a i) as [->|Nai].
      * rewrite Ha in Ei. injection Ei as <-. destruct Op as [Op|Op]; [discriminate|].
        destruct (Nat.eq_dec b j) as [->|Nb]; [rewrite L1 in Hq; congruence|]. split.
        { rewrite <- Eq. rewrite L1. apply chget_set_ne; try lia. congruence. }
        exists (k m). rewrite nth_upd_eq by auto. split; auto. right. inversion Op; subst; auto. contradiction.
      * split.
        { rewrite <- Eq. rewrite L1. apply chget_set_ne; try lia. congruence. }
        exists p. rewrite nth_upd_ne by auto. auto.
  - assert (La : a < length c) by (eapply nth_error_lt; eauto).
    unfold leaveInv; cbn [fst snd]. split; [rewrite upd_length; auto|]. split; [auto|]. cbn [fst snd].
    destruct s as [|s]; [|discriminate]. cbn in Hb. injection Hb as <-.
    destruct (Nat.eq_dec a j) as [->|Na].
    + left. eexists. rewrite nth_upd_eq by auto. split; [reflexivity|]. apply nowait_bind.
    + destruct D as [(p & Ep & Wp)|(Ej & Eq & p & Ei & Op)].
      * left. exists p. rewrite nth_upd_ne by auto. auto.
      * right. rewrite nth_upd_ne by auto. split; auto. split; auto.
        destruct (Nat.eq_dec a i) as [->|Nai].
        { eexists. rewrite nth_upd_eq by auto. split; [reflexivity|]. right. apply owes_bind_l; auto. }
        { exists p. rewrite nth_upd_ne by auto. auto. }
Qed.
Lemma leave_async x : reaches (astep (calls prog)) (start, emptych n) x -> leaveInv x.
Proof.
  intros (w & H).
  assert (I0 : leaveInv (start, emptych n)).
  { unfold leaveInv, start. cbn [fst snd]. rewrite repeat_length, emptych_length. split; auto. split; auto. right.
    assert (R : forall k, k < n -> nth_error (repeat (@PRet M (caller A) Waiting) n) k = Some (PRet Waiting)).
    { intros k Hk. rewrite (nth_error_nth' _ (PRet Waiting)) by (rewrite repeat_length; auto). f_equal.
      apply repeat_spec with (n := n). apply nth_In. rewrite repeat_length; auto. }
    split; [apply R; auto|]. split; [apply chget_empty|]. exists (PRet Waiting). split; [apply R; auto|auto]. }
  revert I0. induction H as [|l w c1 c2 c3 Hs Hr IH]; intros I0; auto. apply IH. eapply leave_step; eauto.
Qed.
Lemma leaves_after a c q : leaveInv (c, q) -> nth_error c i = Some (PRet (Done a)) -> nth_error c j <> Some (PRet Waiting).
Proof.
  intros (_ & _ & [(p & Ep & Wp)|(Ej & Eq & p & Ei & Op)]) Ha Hw; cbn [fst snd] in *.
  - rewrite Hw in Ep. injection Ep as <-. apply Wp. reflexivity.
  - rewrite Ha in Ei. injection Ei as <-. destruct Op as [Op|Op]; [discriminate|]. exact (owes_ret _ _ Op).
Qed.
End Leave.

Lemma close_owes cl j m2ns : (exists b, In b m2ns /\ remote b = j /\ primaryConn b = true) -> forall done,
  owes j (visit (closeChannel true cl) m2ns done).
Proof.
  induction m2ns as [|c m IH]; intros (b & Hb & E & P) done; [contradiction|].
  cbn [visit]. destruct Hb as [->|Hb].
  - apply owes_bind_l. unfold closeChannel. rewrite P. cbn [negb]. apply owes_bind_l. unfold pingPong. rewrite E.
    unfold send, recvStr, recv. destruct (isRequesting b); cbn [bind]; [apply ow_send|]; apply ow_here.
  - apply owes_bind_r. intros d. apply IH. eauto.
Qed.
