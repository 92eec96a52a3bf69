From Coq Require Import ZArith QArith List Arith Lia Bool Sorted.
From Verif Require Import M_Net M_Comm M_M2N S_Term S_Intra S_M2N P_Net P_Term P_Serial P_SerPart P_Intra P_M2N.
Import ListNotations.
Open Scope nat_scope.

(** * Intersections *)
Definition mem (x : nat) (l : list nat) : bool := existsb (Nat.eqb x) l.
Lemma mem_in x l : mem x l = true <-> In x l.
Proof.
  unfold mem. rewrite existsb_exists. split; [intros (y & H & E); apply Nat.eqb_eq in E; subst; auto|].
  intros H. exists x. rewrite Nat.eqb_refl. auto.
Qed.
Lemma mem_false x l : mem x l = false <-> ~ In x l.
Proof. rewrite <- mem_in. destruct (mem x l); split; congruence. Qed.
Fixpoint posIn (i : nat) (l1 l2 : list nat) : list nat :=
  match l1 with [] => [] | x :: r => if mem x l2 then i :: posIn (S i) r l2 else posIn (S i) r l2 end.
Lemma posIn_ext l l' : forall l1 i, (forall x, In x l1 -> mem x l = mem x l') -> posIn i l1 l = posIn i l1 l'.
Proof.
  induction l1 as [|x r IH]; intros i H; cbn [posIn]; auto. rewrite (H x) by (left; auto).
  rewrite (IH (S i)) by (intros y Hy; apply H; right; auto). reflexivity.
Qed.
Lemma ss_head x l : StronglySorted lt (x :: l) -> forall y, In y l -> x < y.
Proof. intros H. apply StronglySorted_inv in H as (_ & H). rewrite Forall_forall in H. auto. Qed.
Lemma ss_tail x l : StronglySorted lt (x :: l) -> StronglySorted lt l.
Proof. intros H. apply StronglySorted_inv in H as (H & _). auto. Qed.
Lemma sii_step i x r1 y r2 : set_intersection_indices i (x :: r1) (y :: r2) =
  if x <? y then set_intersection_indices (S i) r1 (y :: r2)
  else if negb (y <? x) then i :: set_intersection_indices (S i) r1 r2 else set_intersection_indices i (x :: r1) r2.
Proof. reflexivity. Qed.
Lemma sii_pos : forall l1 l2 i, StronglySorted lt l1 -> StronglySorted lt l2 -> set_intersection_indices i l1 l2 = posIn i l1 l2.
Proof.
  induction l1 as [|x r1 IH1]; intros l2 i S1 S2.
  - destruct l2; reflexivity.
  - induction l2 as [|y r2 IH2].
    + cbn [posIn mem existsb]. rewrite <- (IH1 [] (S i)); auto; [|apply (ss_tail x), S1]. destruct r1; reflexivity.
    + rewrite sii_step. destruct (Nat.ltb_spec x y) as [Hxy|Hxy].
      * rewrite IH1; [|apply (ss_tail x), S1|auto]. cbn [posIn].
        replace (mem x (y :: r2)) with false; auto. symmetry. apply mem_false. intros [H|H]; [lia|].
        pose proof (ss_head y r2 S2 x H). lia.
      * destruct (Nat.ltb_spec y x) as [Hyx|Hyx]; cbn [negb].
        -- rewrite IH2 by (apply (ss_tail y), S2). apply posIn_ext. intros z Hz.
           assert (Hyz : y < z) by (destruct Hz as [<-|Hz]; [auto|pose proof (ss_head x r1 S1 z Hz); lia]).
           unfold mem. cbn [existsb]. destruct (Nat.eqb_spec z y); [lia|reflexivity].
        -- assert (x = y) as -> by lia. cbn [posIn]. unfold mem at 1. cbn [existsb]. rewrite Nat.eqb_refl. cbn [orb].
           f_equal. rewrite IH1; [|apply (ss_tail y), S1|apply (ss_tail y), S2]. apply posIn_ext. intros z Hz.
           pose proof (ss_head y r1 S1 z Hz). unfold mem. cbn [existsb]. destruct (Nat.eqb_spec z y); [lia|reflexivity].
Qed.
Lemma posIn_range l2 : forall l1 i k, In k (posIn i l1 l2) -> i <= k < i + length l1 /\ In (nth (k - i) l1 0) l2.
Proof.
  induction l1 as [|x r IH]; intros i k; cbn [posIn length]; [intros []|].
  assert (X : In k (posIn (S i) r l2) -> i <= k < i + S (length r) /\ In (nth (k - i) (x :: r) 0) l2).
  { intros H. apply IH in H as (H1 & H2). split; [lia|]. replace (k - i) with (S (k - S i)) by lia. exact H2. }
  destruct (mem x l2) eqn:E; auto. intros [<-|H]; auto. split; [lia|]. rewrite Nat.sub_diag. apply mem_in, E.
Qed.
Lemma posIn_verts l2 : forall l1 i, map (fun k => nth (k - i) l1 0) (posIn i l1 l2) = filter (fun x => mem x l2) l1.
Proof.
  induction l1 as [|x r IH]; intros i; cbn [posIn filter]; auto.
  assert (X : map (fun k => nth (k - i) (x :: r) 0) (posIn (S i) r l2) = filter (fun x => mem x l2) r).
  { rewrite <- (IH (S i)). apply map_ext_in. intros k Hk. apply posIn_range in Hk as (Hk & _).
    replace (k - i) with (S (k - S i)) by lia. reflexivity. }
  destruct (mem x l2); [|exact X]. cbn [map]. rewrite Nat.sub_diag. cbn [nth]. f_equal. exact X.
Qed.
Lemma filter_sorted f l : StronglySorted lt l -> StronglySorted lt (filter f l).
Proof.
  induction l as [|x l IH]; intros H; cbn [filter]; [constructor|]. pose proof (ss_tail x l H) as Ht. destruct (f x); auto.
  constructor; auto. apply Forall_forall. intros y Hy. apply filter_In in Hy as (Hy & _). apply (ss_head x l H y Hy).
Qed.
Lemma sorted_eq : forall l l', StronglySorted lt l -> StronglySorted lt l' -> (forall x, In x l <-> In x l') -> l = l'.
Proof.
  induction l as [|x l IH]; intros [|y l'] S1 S2 H; auto.
  - destruct (proj2 (H y)). left; auto.
  - destruct (proj1 (H x)). left; auto.
  - assert (x = y) as ->.
    { destruct (proj1 (H x) (or_introl eq_refl)) as [E|E]; auto. destruct (proj2 (H y) (or_introl eq_refl)) as [E'|E']; auto.
      pose proof (ss_head x l S1 y E'). pose proof (ss_head y l' S2 x E). lia. }
    f_equal. apply IH; [apply (ss_tail y), S1|apply (ss_tail y), S2|]. intros z. split; intros Hz.
    + destruct (proj1 (H z) (or_intror Hz)) as [<-|]; auto. pose proof (ss_head y l S1 y Hz). lia.
    + destruct (proj2 (H z) (or_intror Hz)) as [<-|]; auto. pose proof (ss_head y l' S2 y Hz). lia.
Qed.
Lemma common_eq l l' : StronglySorted lt l -> StronglySorted lt l' -> filter (fun x => mem x l') l = filter (fun x => mem x l) l'.
Proof.
  intros H H'. apply sorted_eq; auto using filter_sorted. intros x. rewrite !filter_In, !mem_in. tauto.
Qed.
(** the two index lists select the same vertices, in the same order *)
Lemma posIn_match l l' : StronglySorted lt l -> StronglySorted lt l' ->
  map (fun k => nth k l 0) (posIn 0 l l') = map (fun k => nth k l' 0) (posIn 0 l' l).
Proof.
  intros H H'. transitivity (filter (fun x => mem x l') l); [|transitivity (filter (fun x => mem x l) l')].
  - rewrite <- (posIn_verts l' l 0). apply map_ext. intros k. rewrite Nat.sub_0_r. reflexivity.
  - apply common_eq; auto.
  - rewrite <- (posIn_verts l l' 0). apply map_ext. intros k. rewrite Nat.sub_0_r. reflexivity.
Qed.
Lemma posIn_len l l' : StronglySorted lt l -> StronglySorted lt l' -> length (posIn 0 l l') = length (posIn 0 l' l).
Proof. intros H H'. pose proof (f_equal (@length nat) (posIn_match l l' H H')) as E. rewrite !map_length in E. exact E. Qed.
Lemma posIn_nil l l' : posIn 0 l l' = [] <-> forall v, In v l -> ~ In v l'.
Proof.
  pose proof (posIn_verts l' l 0) as E. split.
  - intros H v Hv Hv'. rewrite H in E. cbn in E. assert (X : In v (filter (fun x => mem x l') l)) by (apply filter_In; rewrite mem_in; auto).
    rewrite <- E in X. destruct X.
  - intros H. destruct (posIn 0 l l') as [|k r] eqn:Ek; auto. exfalso.
    assert (X : In k (posIn 0 l l')) by (rewrite Ek; left; auto). apply posIn_range in X as (X1 & X2).
    rewrite Nat.sub_0_r in X2. apply (H (nth k l 0)); auto. apply nth_In. lia.
Qed.
Lemma nth_inj l : StronglySorted lt l -> forall i j, i < length l -> j < length l -> nth i l 0 = nth j l 0 -> i = j.
Proof.
  intros H. assert (Nd : NoDup l).
  { induction H as [|x l H IH F]; constructor; auto. intros Hx. rewrite Forall_forall in F. specialize (F x Hx). lia. }
  intros i j Hi Hj E. eapply NoDup_nth; eauto.
Qed.

(** * Communication maps *)
Lemma sorted_is l : StronglySorted lt l -> is_sorted l = true.
Proof.
  induction l as [|x l IH]; intros H; cbn [is_sorted]; auto. rewrite IH by (apply (ss_tail x), H). rewrite andb_true_r.
  destruct l as [|y l]; auto. apply Nat.leb_le. pose proof (ss_head x (y :: l) H y (or_introl eq_refl)). lia.
Qed.
Lemma sorted_back l : StronglySorted lt l -> forall v, In v l -> front l <= v <= back l.
Proof.
  induction l as [|x l IH]; intros H v Hv; [destruct Hv|]. cbn [front hd]. destruct l as [|y l].
  - destruct Hv as [<-|[]]. cbn. lia.
  - change (back (x :: y :: l)) with (back (y :: l)). pose proof (ss_tail _ _ H) as Ht.
    destruct (IH Ht y (or_introl eq_refl)) as (_ & B). pose proof (ss_head _ _ H y (or_introl eq_refl)).
    destruct Hv as [<-|Hv]; [lia|]. destruct (IH Ht v Hv) as (B1 & B2). cbn [front hd] in B1. lia.
Qed.
Definition ent (mine : list nat) (rank : nat) (vertices : list nat) : commMap :=
  if isEmpty (posIn 0 mine vertices) then [] else [(rank, posIn 0 mine vertices)].
Lemma commEntry_ok mine rank l : StronglySorted lt mine -> StronglySorted lt l -> commEntry mine rank l = Some (ent mine rank l).
Proof.
  intros S1 S2. unfold commEntry. rewrite (sorted_is l S2), (sii_pos mine l 0 S1 S2). fold (ent mine rank l).
  destruct (isEmpty mine || isEmpty l || (back l <? front mine) || (back mine <? front l)) eqn:E; auto.
  assert (X : posIn 0 mine l = []); [|unfold ent; rewrite X; reflexivity].
  apply posIn_nil. intros v H1 H2.
  destruct (sorted_back mine S1 v H1) as (A1 & A2). destruct (sorted_back l S2 v H2) as (B1 & B2).
  rewrite !orb_true_iff, !Nat.ltb_lt in E. destruct E as [[[E|E]|E]|E]; try lia.
  - destruct mine; [destruct H1|discriminate E].
  - destruct l; [destruct H2|discriminate E].
Qed.
Lemma commEntries_ok mine others : StronglySorted lt mine -> (forall e, In e others -> StronglySorted lt (snd e)) ->
  commEntries mine others = Some (flat_map (fun e => ent mine (fst e) (snd e)) others).
Proof.
  intros S1. induction others as [|(r, l) t IH]; intros H; cbn [commEntries flat_map fst snd]; auto.
  rewrite (commEntry_ok mine r l S1) by (apply (H (r, l)); left; auto).
  rewrite IH by (intros e He; apply H; right; auto). reflexivity.
Qed.
Lemma verts_cons k l t r : verts ((k, l) :: t) r = if k =? r then l else verts t r.
Proof. unfold verts. cbn [vfind]. destruct (k =? r); reflexivity. Qed.
Lemma verts_none vd r : ~ In r (map fst vd) -> verts vd r = [].
Proof.
  intros H. unfold verts. destruct (vfind r vd) as [l|] eqn:E; auto. apply vfind_key in E. contradiction.
Qed.
Lemma flat_verts {A} (f : nat -> list nat -> list A) (Hf : forall r, f r [] = []) : forall k a vd,
  StronglySorted lt (map fst vd) -> (forall r, In r (map fst vd) -> a <= r < a + k) ->
  flat_map (fun e => f (fst e) (snd e)) vd = flat_map (fun r => f r (verts vd r)) (seq a k).
Proof.
  induction k as [|k IH]; intros a vd S1 H.
  - destruct vd as [|(r, l) t]; [reflexivity|]. specialize (H r (or_introl eq_refl)). lia.
  - cbn [seq flat_map]. destruct vd as [|(r, l) t].
    + cbn [flat_map]. unfold verts at 1. cbn [vfind]. rewrite Hf. cbn [app].
      rewrite <- (IH (S a) []); [reflexivity|constructor|intros r []].
    + cbn [map fst] in *. destruct (Nat.eq_dec r a) as [->|N].
      * cbn [flat_map fst snd]. rewrite verts_cons, Nat.eqb_refl. f_equal.
        rewrite (IH (S a) t); [|apply (ss_tail a), S1|].
        -- rewrite !flat_map_concat_map. f_equal. apply map_ext_in. intros x Hx. apply in_seq in Hx. rewrite verts_cons.
           destruct (Nat.eqb_spec a x); [lia|reflexivity].
        -- intros x Hx. pose proof (ss_head _ _ S1 x Hx). specialize (H x (or_intror Hx)). lia.
      * assert (Hra : a < r) by (specialize (H r (or_introl eq_refl)); lia).
        rewrite verts_none; [rewrite Hf|].
        -- cbn [app]. apply IH; [exact S1|]. cbn [map fst]. intros x Hx. specialize (H x Hx).
           destruct Hx as [<-|Hx]; [lia|]. pose proof (ss_head _ _ S1 x Hx). lia.
        -- cbn [map fst]. intros [Hx|Hx]; [lia|]. pose proof (ss_head _ _ S1 a Hx). lia.
Qed.
Lemma snd_verts vd : StronglySorted lt (map fst vd) -> forall e, In e vd -> snd e = verts vd (fst e).
Proof.
  induction vd as [|(k, l) t IH]; intros S1 e He; [destruct He|]. cbn [map fst] in S1. destruct He as [<-|He].
  - rewrite verts_cons. cbn [fst snd]. rewrite Nat.eqb_refl. reflexivity.
  - rewrite verts_cons. assert (Hk : k < fst e) by (apply (ss_head _ _ S1); apply in_map; auto).
    destruct (Nat.eqb_spec k (fst e)); [lia|]. apply IH; auto. apply (ss_tail k), S1.
Qed.
(** the communication map of rank [s] for [m] ranks of the other participant *)
Definition shareb (vd : distribution) (s : nat) (vd' : distribution) (r : nat) : bool :=
  negb (isEmpty (posIn 0 (verts vd s) (verts vd' r))).
Definition cmap (vd vd' : distribution) (m s : nat) : commMap :=
  map (fun r => (r, posIn 0 (verts vd s) (verts vd' r))) (filter (shareb vd s vd') (seq 0 m)).
Lemma build_ok vd vd' m N s : increasing vd -> increasing vd' -> distributes vd' m N ->
  buildCommunicationMap vd vd' s = Some (cmap vd vd' m s).
Proof.
  intros I1 I2 D2. unfold buildCommunicationMap, cmap, shareb. pose proof (I1 s) as Is. unfold verts at 1 in Is.
  destruct (vfind s vd) as [mine|] eqn:E.
  - rewrite (sorted_is mine Is). rewrite (commEntries_ok mine vd' Is).
    + f_equal. rewrite (flat_verts (ent mine)) with (k := m) (a := 0).
      * rewrite (verts_some _ _ _ E). induction (seq 0 m) as [|r l IH]; [reflexivity|]. cbn [flat_map filter].
        rewrite IH. unfold ent. destruct (isEmpty (posIn 0 mine (verts vd' r))); reflexivity.
      * intros r. unfold ent. replace (posIn 0 mine []) with (@nil nat); auto. symmetry. apply posIn_nil. intros v _ [].
      * apply D2.
      * intros r Hr. pose proof (ds_ranks _ _ _ D2 r Hr). lia.
    + intros e He. rewrite (snd_verts vd' (ds_order _ _ _ D2) e He). apply I2.
  - assert (X : verts vd s = []) by (unfold verts; rewrite E; reflexivity). rewrite X. cbn [posIn isEmpty negb].
    f_equal. induction (seq 0 m) as [|r l IH]; [reflexivity|]. cbn [filter]. exact IH.
Qed.
Lemma shareb_meet vd s vd' r : shareb vd s vd' r = true <-> meet vd s vd' r.
Proof.
  unfold shareb, meet. destruct (posIn 0 (verts vd s) (verts vd' r)) as [|k l] eqn:E; cbn [isEmpty negb].
  - split; [discriminate|]. intros (v & H1 & H2). destruct (proj1 (posIn_nil _ _) E v H1 H2).
  - split; auto. intros _. assert (X : In k (posIn 0 (verts vd s) (verts vd' r))) by (rewrite E; left; auto).
    apply posIn_range in X as (X1 & X2). rewrite Nat.sub_0_r in X2. eexists. split; [|exact X2]. apply nth_In. lia.
Qed.
Lemma meet_sym vd s vd' r : meet vd s vd' r <-> meet vd' r vd s.
Proof. unfold meet. firstorder. Qed.
Lemma shareb_sym vd s vd' r : shareb vd s vd' r = shareb vd' r vd s.
Proof.
  pose proof (shareb_meet vd s vd' r). pose proof (shareb_meet vd' r vd s). pose proof (meet_sym vd s vd' r).
  destruct (shareb vd s vd' r); destruct (shareb vd' r vd s); intuition congruence.
Qed.
