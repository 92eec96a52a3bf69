(** Reading of configuration files: what the theorems need. *)

From Coq Require Import List Bool Arith Lia.
From Verif Require Import M_Wiring S_Wiring P_Wiring P_Wiring2 P_Wiring3.
Import ListNotations.

Lemma forall2_left : forall X Y (R : X -> Y -> Prop) l k x, Forall2 R l k -> In x l ->
  exists y, In (x, y) (combine l k) /\ In y k /\ R x y.
Proof.
  intros X Y R l k x H. induction H as [| a b l k Hab H IH]; intros Hx; [easy |].
  destruct Hx as [<- | Hx]; [exists b; cbn; auto |].
  destruct (IH Hx) as (y & H1 & H2 & H3). exists y. cbn. auto.
Qed.

Lemma forall2_right : forall X Y (R : X -> Y -> Prop) l k y, Forall2 R l k -> In y k ->
  exists x, In x l /\ R x y.
Proof.
  intros X Y R l k y H. induction H as [| a b l k Hab H IH]; intros Hy; [easy |].
  destruct Hy as [<- | Hy]; [exists a; cbn; auto |].
  destruct (IH Hy) as (x & H1 & H2). exists x. cbn. auto.
Qed.

Lemma judge_member : forall t j, Judge t j -> Member t j.
Proof.
  intros t j J. unfold Judge in J. unfold Member.
  destruct (s_kind t); try (destruct J as (x & y & z & ->); cbn; auto).
  now apply (in_map fst) in J.
Qed.

Lemma tag_some : forall k t j hs, TagRead k t j hs -> exists h, In h hs.
Proof.
  intros k t j hs (J & _ & _ & _ & _ & _ & _ & _ & _ & Ho & _). apply judge_member in J.
  unfold Member in J. destruct hs as [| h hs]; [rewrite <- Ho in J; easy | exists h; now left].
Qed.

Lemma made_exchanges : forall k t j hs e, TagRead k t j hs -> In e (s_exchanges t) ->
  e_to e <> e_from e /\ Member t (e_from e) /\ Member t (e_to e).
Proof.
  intros k t j hs e H He. destruct (tag_some _ _ _ _ H) as (h & Hh).
  destruct H as (_ & _ & _ & _ & _ & _ & _ & _ & _ & _ & Hm). destruct (Hm h Hh) as (_ & _ & Hx & _).
  destruct (exchanges_all _ _ _ _ _ Hx) as (M & _). apply (M e He).
Qed.

Lemma made_follows : forall k t j hs h, TagRead k t j hs -> In h hs -> Follows t h.
Proof.
  intros k t j hs h H Hh. pose proof H as (_ & _ & _ & _ & _ & He & _ & _ & _ & _ & Hm).
  destruct (Hm h Hh) as (Hk & _ & Hx & _). pose proof (exchanges_once _ _ _ He) as Hn.
  destruct (exchanges_all _ _ _ _ _ Hx) as (_ & _ & _ & _ & S1 & S2). cbn [h_owner h_sends h_receives toward] in *.
  unfold Follows. split; [exact Hk |]. split; [| split; [| split]].
  - intros p. rewrite S1. apply wire_nodup. constructor.
  - intros p. rewrite S2. apply wire_nodup. constructor.
  - intros p x. rewrite S1, wire_in; [| exact Hn | easy]. cbn [map In]. tauto.
  - intros p x. rewrite S2, wire_in; [| exact Hn | easy]. cbn [map In]. tauto.
Qed.

Lemma made_agree : forall k t j hs a b, TagRead k t j hs -> In a hs -> In b hs -> Agree a b.
Proof.
  intros k t j hs a b H Ha Hb. pose proof H as (_ & _ & _ & _ & _ & _ & _ & _ & _ & _ & Hm).
  destruct (Hm a Ha) as (_ & _ & Xa & _). destruct (Hm b Hb) as (_ & _ & Xb & _).
  destruct (exchanges_all _ _ _ _ _ Xa) as (_ & _ & _ & _ & S1 & _).
  destruct (exchanges_all _ _ _ _ _ Xb) as (_ & _ & _ & _ & _ & S2).
  cbn [h_owner h_sends h_receives toward] in *.
  unfold Agree. rewrite S1, S2. now apply wire_message.
Qed.

Lemma made_for : forall k t j hs, TagRead k t j hs -> MadeFor t hs.
Proof.
  intros k t j hs H. split; [apply H |]. split.
  - intros h Hh. eapply made_follows; eauto.
  - intros a b Ha Hb _. eapply made_agree; eauto.
Qed.

Lemma made_tidy : forall k t j hs h, TagRead k t j hs -> In h hs -> Tidy h.
Proof.
  intros k t j hs h (_ & _ & _ & _ & _ & _ & _ & _ & _ & _ & Hm) Hh.
  destruct (Hm h Hh) as (_ & _ & Hx & _). eapply tidy_all; [exact Hx |].
  repeat split; cbn; try easy. constructor.
Qed.

Lemma field_message : forall f l, In f (map n_field l) <-> exists i s, In (f, i, s) (map message l).
Proof.
  intros f l. split.
  - intros H. apply in_map_iff in H as (n & <- & Hn). exists (n_initialize n), (n_substeps n).
    apply in_map_iff. exists n. auto.
  - intros (i & s & H). apply in_map_iff in H as (n & E & Hn). apply in_map_iff. exists n.
    unfold message in E. split; [congruence | exact Hn].
Qed.

Lemma sends_exchange : forall t h p f, Follows t h -> In f (map n_field (toward p (h_sends h))) ->
  Exchanges t (h_owner h) p f.
Proof.
  intros t h p f (_ & _ & _ & S & _) H. apply field_message in H as (i & s & H).
  apply S in H as (e & He & E1 & E2 & E3). exists e. repeat split; auto. congruence.
Qed.

Lemma receives_exchange : forall t h p f, Follows t h -> In f (map n_field (toward p (h_receives h))) ->
  Exchanges t p (h_owner h) f.
Proof.
  intros t h p f (_ & _ & _ & _ & S) H. apply field_message in H as (i & s & H).
  apply S in H as (e & He & E1 & E2 & E3). exists e. repeat split; auto. congruence.
Qed.

(** ** From the file *)

Lemma tag_block : forall r d u t, Read r d u -> In t (d_schemes d) ->
  exists j hs, TagRead (u_known u) t j hs /\ (forall h, In h hs -> In h (u_schemes u)) /\
    (forall n, In n (neededBy t j) ->
       exists q, getPart (k_parts (u_known u)) (fst n) = Some q /\ isUsed (q_uses q) (snd n) = true).
Proof.
  intros r d u t (_ & _ & _ & _ & _ & _ & _ & blocks & E & B & N & _) Ht.
  destruct (forall2_left _ _ _ _ _ _ B Ht) as ([j hs] & H1 & H2 & H3). exists j, hs.
  split; [exact H3 |]. split.
  - intros h Hh. rewrite E. apply in_concat. exists hs. split; [| exact Hh].
    apply in_map_iff. exists (j, hs). auto.
  - intros n Hn. exact (N t (j, hs) n H1 Hn).
Qed.

Lemma scheme_tag : forall r d u h, Read r d u -> In h (u_schemes u) ->
  exists t j hs, In t (d_schemes d) /\ TagRead (u_known u) t j hs /\ In h hs.
Proof.
  intros r d u h (_ & _ & _ & _ & _ & _ & _ & blocks & E & B & _) Hh. rewrite E in Hh.
  apply in_concat in Hh as (hs & H1 & H2). apply in_map_iff in H1 as ([j hs'] & E' & H1).
  cbn in E'. subst hs'. destruct (forall2_right _ _ _ _ _ _ B H1) as (t & Ht & HR).
  exists t, j, hs. auto.
Qed.

Lemma getPart_in : forall ps n q, getPart ps n = Some q -> In q ps /\ q_name q = n.
Proof. intros ps n q H. apply find_some in H as [H1 H2]. apply Nat.eqb_eq in H2. auto. Qed.

Lemma member_uses : forall r d u n m q, Read r d u ->
  getPart (k_parts (u_known u)) n = Some q -> isUsed (q_uses q) m = true -> MemberUses d n m.
Proof.
  intros r d u n m q (_ & _ & _ & _ & P & _) Hq Hm. apply getPart_in in Hq as [Hq <-].
  destruct (forall2_right _ _ _ _ _ _ P Hq) as (p & Hp & fl & _ & E). exists p.
  split; [exact Hp |]. subst q. cbn in *. split; [reflexivity |]. now apply isUsed_iff.
Qed.

Lemma mesh_has : forall r d u mesh data, Read r d u ->
  hasData (k_meshes (u_known u)) mesh data = true -> MeshHas d mesh data.
Proof.
  intros r d u mesh data (_ & E & _) H. rewrite E in H. apply hasData_in in H as (m & H). now exists m.
Qed.

Lemma names_of : forall ms r ps qs, Forall2 (partFrom ms r) ps qs -> map q_name qs = map p_name ps.
Proof.
  intros ms r ps qs H. induction H as [| p q ps qs (fl & _ & ->) H IH]; [reflexivity |].
  cbn. now rewrite IH.
Qed.

Lemma getPart_self : forall qs q, NoDup (map q_name qs) -> In q qs -> getPart qs (q_name q) = Some q.
Proof.
  induction qs as [| o qs IH]; intros q Hn Hq; [easy |]. cbn in Hn. inversion Hn as [| x l Hx Hl]; subst.
  unfold getPart. cbn [find]. destruct Hq as [<- | Hq].
  - now rewrite Nat.eqb_refl.
  - destruct (Nat.eqb_spec (q_name o) (q_name q)) as [E | E].
    + exfalso. apply Hx. rewrite E. now apply in_map.
    + apply IH; auto.
Qed.

(** The participant of a tag. *)
Lemma part_of : forall r d u p, Read r d u -> NoDup (map p_name (d_parts d)) -> In p (d_parts d) ->
  exists fl, getPart (k_parts (u_known u)) (p_name p) =
               Some (Participant (p_name p) (p_uses p) (p_writes p) (p_reads p) fl) /\
             PartRead (d_meshes d) r p fl /\
             In (Participant (p_name p) (p_uses p) (p_writes p) (p_reads p) fl) (k_parts (u_known u)).
Proof.
  intros r d u p (_ & _ & _ & _ & P & _) Hn Hp.
  destruct (forall2_left _ _ _ _ _ _ P Hp) as (q & _ & Hq & fl & HP & ->). exists fl.
  split; [| auto]. rewrite <- (names_of _ _ _ _ P) in Hn. exact (getPart_self _ _ Hn Hq).
Qed.

(** ** Who reads does not matter *)

Lemma addPart_same : forall rm ms r r' ps p a b,
  addPart rm ms r ps p = Good a -> addPart rm ms r' ps p = Good b -> a = b.
Proof.
  intros rm ms r r' ps p a b Ha Hb.
  apply addPart_good in Ha as (fl & (_ & _ & _ & _ & _ & E & _) & ->).
  apply addPart_good in Hb as (fl' & (_ & _ & _ & _ & _ & E' & _) & ->). now rewrite E, E'.
Qed.

Lemma parts_same : forall rm ms r r' ps qs a b,
  each (addPart rm ms r) ps qs = Good a -> each (addPart rm ms r') ps qs = Good b -> a = b.
Proof.
  intros rm ms r r' ps. induction ps as [| p ps IH]; intros qs a b Ha Hb; cbn in Ha, Hb.
  - congruence.
  - apply bind_good in Ha as (x & A1 & A2). apply bind_good in Hb as (y & B1 & B2).
    rewrite (addPart_same _ _ _ _ _ _ _ _ A1 B1) in A2. eauto.
Qed.

Lemma readFile_same : forall r r' d u u', readFile r d = Good u -> readFile r' d = Good u' -> u = u'.
Proof.
  intros r r' d u u' H H'. unfold readFile in *.
  apply bind_good in H as (ds & H1 & H). rewrite H1 in H'. cbn [bind] in H'.
  apply bind_good in H as (ms & H2 & H). rewrite H2 in H'. cbn [bind] in H'.
  apply bind_good in H as (cs & H3 & H). rewrite H3 in H'. cbn [bind] in H'.
  apply bind_good in H as (ps & H4 & H). apply bind_good in H' as (ps' & H4' & H').
  rewrite <- (parts_same _ _ _ _ _ _ _ _ H4 H4') in H'. congruence.
Qed.

(** ** One implicit scheme per participant *)

Lemma implicit_once : forall (blocks : list (nat * list scheme)) k ts pre x mid y post n,
  NoDup (owners1 (concat (map snd blocks))) ->
  Forall2 (fun t b => TagRead k t (fst b) (snd b)) ts blocks ->
  ts = pre ++ x :: mid ++ y :: post ->
  isImplicit (s_kind x) = true -> isImplicit (s_kind y) = true -> Member x n -> Member y n -> False.
Proof.
  intros blocks k ts pre x mid y post n Hn H -> Ix Iy Mx My.
  apply Forall2_app_inv_l in H as (b1 & b2 & _ & H & ->).
  inversion H as [| x' bx l1 l2 Hx H' ]; subst. clear H.
  apply Forall2_app_inv_l in H' as (b3 & b4 & _ & H & ->).
  inversion H as [| y' by' l1 l3 Hy H' ]; subst. clear H.
  assert (own : forall z b, TagRead k z (fst b) (snd b) -> isImplicit (s_kind z) = true ->
    Member z n -> In n (owners1 (snd b))).
  { intros z b Hz Iz Mz. pose proof Hz as (_ & _ & _ & _ & _ & _ & _ & _ & _ & Ho & Hm).
    unfold Member in Mz. rewrite <- Ho in Mz. apply in_map_iff in Mz as (h & <- & Hh).
    unfold owners1. apply in_map. apply filter_In. split; [exact Hh |].
    destruct (Hm h Hh) as (-> & _). exact Iz. }
  specialize (own x bx Hx Ix Mx) as O1. specialize (own y by' Hy Iy My) as O2.
  rewrite map_app, concat_app in Hn. cbn [map concat] in Hn. rewrite map_app, concat_app in Hn.
  cbn [map concat] in Hn. unfold owners1 in *.
  repeat rewrite ?filter_app, ?map_app in Hn.
  remember (map h_owner (filter (fun h => isImplicit (h_kind h)) (snd bx))) as A.
  remember (map h_owner (filter (fun h => isImplicit (h_kind h)) (snd by'))) as B.
  apply in_split in O1 as (a1 & a2 & O1). rewrite O1 in Hn.
  rewrite <- app_assoc in Hn. cbn [app] in Hn. rewrite app_assoc in Hn. apply NoDup_remove_2 in Hn.
  apply Hn. rewrite !in_app_iff. auto 8.
Qed.

(** ** Channels *)

Lemma in_out : forall k self us b m, In (b, m) (channelsOut k self us) <->
  In (Provide m) us /\ exists q, In q (k_parts k) /\ q_name q = b /\ exists a, In (Receive m self a) (q_uses q).
Proof.
  intros k self us b m. unfold channelsOut. split.
  - intros H. apply in_flat_map in H as ([x | x f a] & Hu & H); [| easy].
    apply in_flat_map in H as (q & Hq & H). apply in_flat_map in H as ([y | y f a] & Hv & H); [easy |].
    destruct ((f =? self) && (y =? x)) eqn:E; [| easy]. apply andb_true_iff in E as [E1 E2].
    apply Nat.eqb_eq in E1, E2. destruct H as [H | []]. inversion H; subst. split; [exact Hu |].
    exists q. eauto.
  - intros (Hu & q & Hq & <- & a & Hv). apply in_flat_map. exists (Provide m). split; [exact Hu |].
    apply in_flat_map. exists q. split; [exact Hq |]. apply in_flat_map. exists (Receive m self a).
    split; [exact Hv |]. rewrite !Nat.eqb_refl. now left.
Qed.

Lemma in_in : forall us b m, In (b, m) (channelsIn us) <-> exists a, In (Receive m b a) us.
Proof.
  intros us b m. unfold channelsIn. split.
  - intros H. apply in_flat_map in H as ([x | x f a] & Hu & H); [easy |].
    destruct H as [H | []]. inversion H; subst. eauto.
  - intros (a & H). apply in_flat_map. exists (Receive m b a). split; [exact H | now left].
Qed.

Lemma join_good : forall u n cs hs, join u n = Good (cs, hs) ->
  exists q, getPart (k_parts (u_known u)) n = Some q /\
    cs = channelsOut (u_known u) n (q_uses q) ++ channelsIn (q_uses q) /\
    hs = filter (fun h => h_owner h =? n) (u_schemes u) /\ hs <> [] /\
    forall c, In c cs -> isConnected (k_m2ns (u_known u)) n (fst c) = true.
Proof.
  intros u n cs hs H. unfold join in H. destruct (getPart _ n) as [q |]; [| discriminate].
  apply check_good in H as [H1 H]. apply check_good in H as [H2 H]. inversion H; subst.
  exists q. split; [reflexivity |]. split; [reflexivity |]. split; [reflexivity |]. split.
  - intros E. rewrite E in H2. discriminate.
  - rewrite forallb_forall in H1. exact H1.
Qed.

(** The channels of a participant, in words of the tags. *)
Lemma channels_iff : forall r d u p cs hs b m, Read r d u -> NoDup (map p_name (d_parts d)) ->
  In p (d_parts d) -> join u (p_name p) = Good (cs, hs) ->
  (In (b, m) cs <->
   (Provides p m /\ exists q, In q (d_parts d) /\ p_name q = b /\ ReceivesFrom q m (p_name p)) \/
   ReceivesFrom p m b).
Proof.
  intros r d u p cs hs b m HR Hn Hp Hj. destruct (join_good _ _ _ _ Hj) as (q & Hq & -> & _).
  destruct (part_of _ _ _ _ HR Hn Hp) as (fl & Hg & _). rewrite Hg in Hq. inversion Hq; subst q.
  cbn [q_uses]. rewrite in_app_iff, in_out, in_in. unfold ReceivesFrom, Provides.
  pose proof HR as (_ & _ & _ & _ & P & _).
  assert (E : (exists q, In q (k_parts (u_known u)) /\ q_name q = b /\
                 exists a, In (Receive m (p_name p) a) (q_uses q)) <->
              (exists q, In q (d_parts d) /\ p_name q = b /\
                 exists a, In (Receive m (p_name p) a) (p_uses q))).
  { split.
    - intros (q & Iq & Eq & a & Ha). destruct (forall2_right _ _ _ _ _ _ P Iq) as (x & Hx & f & _ & ->).
      cbn in *. exists x. eauto.
    - intros (q & Iq & Eq & a & Ha). destruct (forall2_left _ _ _ _ _ _ P Iq) as (x & _ & Hx & f & _ & ->).
      eexists. split; [exact Hx |]. cbn. eauto. }
  rewrite E. reflexivity.
Qed.

Lemma connected_partner : forall k t j hs h b, TagRead k t j hs -> In h hs ->
  Member t b -> b <> h_owner h -> isConnected (k_m2ns k) (h_owner h) b = true ->
  In b (h_connections h).
Proof.
  intros k t j hs h b (_ & _ & Jb & _ & _ & _ & _ & _ & _ & Ho & Hm) Hh Mb Nb Hc.
  destruct (Hm h Hh) as (_ & Cn & _). unfold connections in Cn. unfold Member in Mb.
  assert (Mh : In (h_owner h) (map fst (s_members t))) by (rewrite <- Ho; now apply in_map).
  destruct (isMulti (s_kind t)).
  - inversion Cn. apply filter_In. auto.
  - destruct (Jb eq_refl) as (x & y & E). rewrite E in *. apply check_good in Cn as [_ Cn].
    inversion Cn. cbn in Mb, Mh. destruct (Nat.eqb_spec (h_owner h) x) as [Ex | Ex]; cbn.
    + left. intuition congruence.
    + left. intuition congruence.
Qed.
