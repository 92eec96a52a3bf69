(** C76: what is true of every configuration file that is accepted. *)

From Coq Require Import List Bool Arith Lia.
From Verif Require Import M_Wiring S_Wiring P_Wiring P_Wiring2 P_Wiring3 P_Wiring4.
Import ListNotations.

(** ** Coupling schemes *)

(** Every exchange has two different participants of its scheme, a mesh that has
    the data and that both use, and, unless the scheme is a multi scheme, a
    connection. *)
Theorem C76_exchanges : forall r d u t e,
  readFile r d = Good u -> In t (d_schemes d) -> In e (s_exchanges t) ->
  e_from e <> e_to e /\ Member t (e_from e) /\ Member t (e_to e) /\
  MeshHas d (e_mesh e) (e_data e) /\
  MemberUses d (e_from e) (e_mesh e) /\ MemberUses d (e_to e) (e_mesh e) /\
  (s_kind t <> Multi -> Connected d (e_from e) (e_to e)).
Proof.
  intros r d u t e H Ht He. apply readFile_good in H.
  destruct (tag_block _ _ _ _ H Ht) as (j & hs & T & Hs & N).
  destruct (made_exchanges _ _ _ _ _ T He) as (M1 & M2 & M3).
  assert (used : forall n, In (n, e_mesh e) (neededBy t j) -> MemberUses d n (e_mesh e)).
  { intros n Hn. destruct (N _ Hn) as (q & Hq & Hu). cbn in *. eapply member_uses; eauto. }
  assert (U : forall n, n = e_from e \/ n = e_to e -> In (n, e_mesh e) (neededBy t j)).
  { intros n Hn. unfold neededBy. apply in_app_iff. left. apply in_flat_map. exists e.
    split; [exact He |]. cbn. destruct Hn as [-> | ->]; auto. }
  split; [auto |]. split; [exact M2 |]. split; [exact M3 |]. split; [| split; [| split]].
  - eapply mesh_has; [exact H |]. eapply exchanges_have; [| exact He]. apply T.
  - apply used, U. auto.
  - apply used, U. auto.
  - intros K. pose proof T as (_ & _ & Jb & _). assert (isMulti (s_kind t) = false) as Hm
      by (destruct (s_kind t); (reflexivity || congruence)). destruct (Jb Hm) as (a & b & E).
    destruct (tag_some _ _ _ _ T) as (h & Hh).
    pose proof T as (_ & _ & _ & _ & _ & _ & _ & _ & _ & _ & Hmade).
    destruct (Hmade h Hh) as (_ & C & _). unfold connections in C. rewrite Hm, E in C.
    apply check_good in C as [C _]. pose proof H as (_ & _ & E2 & _). rewrite E2 in C.
    apply isConnected_iff in C. unfold Member in *. rewrite E in M2, M3. unfold Connected. cbn in M2, M3.
    destruct M2 as [M2 | [M2 | []]], M3 as [M3 | [M3 | []]]; rewrite <- M2, <- M3 in *; tauto.
Qed.
Print Assumptions C76_exchanges.

(** Every participant of a scheme gets its own part of it, all parts follow the
    tag, and what one of them sends another expects, in the same order and with
    the same flags. *)
Theorem C76_agreement : forall r d u, readFile r d = Good u ->
  exists blocks, u_schemes u = concat blocks /\ Forall2 MadeFor (d_schemes d) blocks.
Proof.
  intros r d u H. apply readFile_good in H as (_ & _ & _ & _ & _ & _ & _ & blocks & E & B & _).
  exists (map snd blocks). split; [exact E |]. clear E.
  induction B as [| t b ts bs Htb B IH]; cbn; constructor; [| exact IH]. eapply made_for; eauto.
Qed.
Print Assumptions C76_agreement.

(** The participants read the file for themselves: what they read is the same. *)
Theorem C76_same_for_all : forall r r' d u u',
  readFile r d = Good u -> readFile r' d = Good u' -> u = u'.
Proof. exact readFile_same. Qed.
Print Assumptions C76_same_for_all.

(** In one scheme no data is both sent and received, nor received from two. *)
Theorem C76_one_direction : forall r d u h f,
  readFile r d = Good u -> In h (u_schemes u) ->
  (Sends h f -> forall p, ~ ReceivesFrom1 h p f) /\
  (forall p q, ReceivesFrom1 h p f -> ReceivesFrom1 h q f -> p = q).
Proof.
  intros r d u h f H Hh. apply readFile_good in H.
  destruct (scheme_tag _ _ _ _ H Hh) as (t & j & hs & _ & T & Ih).
  destruct (made_tidy _ _ _ _ _ T Ih) as (T1 & T2 & T3 & T4). split.
  - intros (p & Hp) q Hq. destruct (T1 p f Hp) as (o & Ho & Eo & So).
    destruct (T2 q f Hq) as (o' & Ho' & Eo' & So').
    assert (o = o') by (eapply nodup_eq; [exact T3 | | | congruence]; assumption). congruence.
  - intros p q. apply T4.
Qed.
Print Assumptions C76_one_direction.

(** Data that is measured or accelerated is exchanged by the participant that
    does so, which uses the mesh; in a serial scheme it comes from it. *)
Theorem C76_measured : forall r d u t j f,
  readFile r d = Good u -> In t (d_schemes d) -> Judge t j ->
  In f (s_measures t) \/ In f (accelerated t) ->
  (exists a b, Exchanges t a b f /\ (a = j \/ b = j)) /\
  MemberUses d j (fst f) /\ MeshHas d (fst f) (snd f) /\
  (s_kind t = SerialImplicit -> In f (accelerated t) -> exists b, Exchanges t j b f).
Proof.
  intros r d u t j f H Ht Hj Hf. apply readFile_good in H.
  destruct (tag_block _ _ _ _ H Ht) as (j' & hs & T & Hs & N).
  pose proof T as (J1 & J2 & Jb & _ & _ & He & _ & Hx & _ & Ho & Hm).
  rewrite (J2 j Hj). clear Hj j.
  assert (I : isImplicit (s_kind t) = true).
  { destruct (isImplicit (s_kind t)) eqn:I; [reflexivity |]. exfalso.
    destruct (Hx eq_refl) as (X1 & X2 & _). unfold accelerated in Hf. rewrite X1, X2 in Hf.
    cbn in Hf. tauto. }
  assert (Hh : exists h, In h hs /\ h_owner h = j').
  { pose proof (judge_member _ _ J1) as M. unfold Member in M. rewrite <- Ho in M.
    apply in_map_iff in M as (h & E & Hh). eauto. }
  destruct Hh as (h & Hh & Eh). destruct (Hm h Hh) as (_ & _ & _ & X). specialize (X I) as (_ & _ & X1 & X2).
  assert (ex : isExchanged (s_exchanges t) j' f = true).
  { destruct Hf as [Hf | Hf]; [apply X1; auto |]. unfold accelerated in Hf.
    destruct (s_acceleration t) as [l |]; [| easy]. now apply (X2 l f eq_refl). }
  apply isExchanged_iff in ex as (e & Ie & Fe & Ee).
  split; [| split; [| split]].
  - exists (e_from e), (e_to e). split; [now exists e | exact Fe].
  - destruct (N (j', fst f)) as (q & Hq & Hu).
    + unfold neededBy. rewrite I. apply in_app_iff. right. apply in_map_iff. exists f.
      split; [reflexivity |]. apply in_app_iff. exact Hf.
    + eapply member_uses; eauto.
  - eapply mesh_has; [exact H |]. rewrite <- Ee. cbn. eapply exchanges_have; [exact He | exact Ie].
  - intros K Hf'. unfold accelerated in Hf'. destruct (s_acceleration t) as [l |]; [| easy].
    destruct (X2 l f eq_refl Hf') as [_ X3]. rewrite K in X3. specialize (X3 eq_refl).
    apply comesFromSecond_in in X3 as (x & Ix & Fx & Ex). exists (e_to x), x. auto.
Qed.
Print Assumptions C76_measured.

(** No participant is in two implicit schemes. *)
Theorem C76_one_implicit : forall r d u pre x mid y post n,
  readFile r d = Good u -> d_schemes d = pre ++ x :: mid ++ y :: post ->
  isImplicit (s_kind x) = true -> isImplicit (s_kind y) = true ->
  Member x n -> Member y n -> False.
Proof.
  intros r d u pre x mid y post n H E.
  apply readFile_good in H as (_ & _ & _ & _ & _ & Hn & _ & blocks & Eb & B & _).
  rewrite Eb in Hn. eapply implicit_once; eauto.
Qed.
Print Assumptions C76_one_implicit.

(** Every participant of an implicit scheme sends something, and a scheme
    without convergence measures has a limit for its iterations. *)
Theorem C76_implicit : forall r d u t,
  readFile r d = Good u -> In t (d_schemes d) -> isImplicit (s_kind t) = true ->
  (forall n, Member t n -> exists b f, Exchanges t n b f) /\
  (s_measures t = [] -> s_maxIterations t <> None).
Proof.
  intros r d u t H Ht I. apply readFile_good in H.
  destruct (tag_block _ _ _ _ H Ht) as (j & hs & T & Hs & N).
  pose proof T as (J1 & _ & _ & _ & _ & _ & _ & _ & _ & Ho & Hm). split.
  - intros n Hn. unfold Member in Hn. rewrite <- Ho in Hn. apply in_map_iff in Hn as (h & <- & Hh).
    destruct (Hm h Hh) as (_ & _ & Hx & X). specialize (X I) as (X & _).
    unfold hasAnySendData in X. apply existsb_exists in X as ([p l] & Hp & X). cbn in X.
    destruct l as [| n l]; [discriminate |].
    assert (key : forall es h h', each (addDataToBeExchanged (u_known u) (map fst (s_members t))) es h = Good h' ->
              forall p l, In (p, l) (h_sends h') ->
              (exists l0, In (p, l0) (h_sends h)) \/ exists e, In e es /\ e_from e = h_owner h).
    { clear. induction es as [| e es IH]; intros h h' H p l Hp; cbn in H.
      - inversion H; subst. eauto.
      - apply bind_good in H as (b & H1 & H2).
        destruct (Nat.eq_dec (e_from e) (h_owner h)) as [E | E].
        + right. exists e. split; [now left | exact E].
        + destruct (exchange_step _ _ _ _ _ H1) as (_ & _ & _ & Eo & _).
          destruct (IH _ _ H2 _ _ Hp) as [(l0 & X) | (x & Ix & Ex)].
          * left. assert (h_sends b = h_sends h) as <-; [| eauto].
            unfold addDataToBeExchanged in H1. do 4 apply check_good in H1 as [_ H1].
            destruct (Nat.eqb_spec (e_from e) (h_owner h)); [contradiction |].
            destruct (e_to e =? h_owner h).
            -- apply check_good in H1 as [_ H1]. apply bind_good in H1 as (all & _ & H1).
               apply check_good in H1 as [_ H1]. now inversion H1.
            -- now inversion H1.
          * right. exists x. split; [now right | congruence]. }
    destruct (key _ _ _ Hx _ _ Hp) as [(l0 & []) | (e & He & Ee)].
    cbn in Ee. exists (e_to e), (e_mesh e, e_data e), e. auto.
  - destruct (tag_some _ _ _ _ T) as (h & Hh). destruct (Hm h Hh) as (_ & _ & _ & X).
    specialize (X I) as (_ & X & _). exact X.
Qed.
Print Assumptions C76_implicit.

(** With remeshing all schemes are parallel schemes of two. *)
Theorem C76_remeshing : forall r d u t,
  readFile r d = Good u -> d_remeshing d = true -> In t (d_schemes d) ->
  s_kind t = ParallelExplicit \/ s_kind t = ParallelImplicit.
Proof.
  intros r d u t H Hr Ht. apply readFile_good in H as (_ & _ & _ & _ & _ & _ & _ & blocks & _ & _ & _ & R).
  exact (R Hr t Ht).
Qed.
Print Assumptions C76_remeshing.

(** ** Mappings *)

(** A mapping leads from a mesh that is received to one that is provided, for
    reading, or the other way, for writing; in parallel runs its constraint is
    the one that belongs to the direction. *)
Theorem C76_mappings : forall r d u p m,
  readFile r d = Good u -> In p (d_parts d) -> In m (p_maps p) ->
  match mp_dir m with
  | Reads => (exists a, mp_from m = Some a /\ Gets p a) /\ (forall t, mp_to m = Some t -> Provides p t)
  | Writes => (exists t, mp_to m = Some t /\ Gets p t) /\ (forall a, mp_from m = Some a -> Provides p a)
  end /\
  (r_name r = p_name p -> 1 < r_size r ->
     mp_constraint m = match mp_dir m with Reads => Consistent | Writes => Conservative end).
Proof.
  intros r d u p m H Hp Hm. apply readFile_good in H as (_ & _ & _ & _ & P & _).
  destruct (forall2_left _ _ _ _ _ _ P Hp) as (q & _ & _ & fl & (_ & _ & _ & _ & F & _) & _).
  pose proof (mapFits_dirs _ _ _ _ _ _ _ _ (F m Hm)) as X. split.
  - assert (get : forall x, isReceived (p_uses p) x = true -> Gets p x).
    { intros x Hx. apply isReceived_iff in Hx as (f & a & Hx). exists f, a. exact Hx. }
    destruct (mp_dir m), (mp_from m) as [a |], (mp_to m) as [t |]; try easy;
      repeat match goal with [ H : _ /\ _ |- _ ] => destruct H end; split;
      try (eexists; split; [reflexivity | auto]; fail);
      intros x Ex; inversion Ex; subst; now apply isProvided_iff.
  - intros Hr Hs. destruct (mapFits_scaled _ _ _ _ _ _ _ _ (F m Hm) Hr Hs) as [[-> ->] | [-> ->]]; reflexivity.
Qed.
Print Assumptions C76_mappings.

(** Every mapping between two meshes has data to map, every mapping maps what
    its tag asks for, and no data of a mesh is filled twice. *)
Theorem C76_flows : forall r d u, readFile r d = Good u ->
  Forall2 (fun p q =>
    q_name q = p_name p /\ (forall g, In g (q_flows q) <-> Asked d p g) /\
    NoDup (filled (q_flows q)) /\
    (forall m a t, In m (p_maps p) -> mp_from m = Some a -> mp_to m = Some t ->
       exists x, Asked d p (Flow (mp_dir m) x (Some a) (Some t))))
    (d_parts d) (k_parts (u_known u)).
Proof.
  intros r d u H. apply readFile_good in H as (_ & _ & _ & Hn & P & _).
  assert (asked : forall p g, Asked d p g <->
    exists m, In m (p_maps p) /\ In g (flowsOf (d_meshes d) (p_writes p) (p_reads p) (mp_dir m) m)).
  { intros p g. unfold Asked. split.
    - intros (m & Hm & D & Fm & Tm & X). exists m. split; [exact Hm |].
      destruct g as [gd gx gf gt]. cbn [fl_dir fl_from fl_to fl_data] in *. subst gd gf gt.
      unfold flowsOf. rewrite (proj2 (sameDir_iff (mp_dir m) (mp_dir m)) eq_refl).
      destruct (mp_dir m) eqn:D.
      + destruct (mp_from m) as [a |] eqn:Fm; [| easy]. destruct (mp_to m) as [t |] eqn:Tm.
        * destruct X as [X1 X2]. apply in_flat_map. exists (t, gx). split; [exact X1 |].
          unfold rf. rewrite Fm, Tm. cbn [fst snd]. rewrite Nat.eqb_refl.
          apply (hasData_iff _ _ _ Hn) in X2. rewrite X2. now left.
        * apply in_flat_map. exists (a, gx). split; [exact X |].
          unfold rf. rewrite Fm, Tm. cbn [fst snd]. rewrite Nat.eqb_refl. now left.
      + destruct (mp_to m) as [t |] eqn:Tm; [| destruct (mp_from m); easy].
        destruct (mp_from m) as [a |] eqn:Fm.
        * destruct X as [X1 X2]. apply in_flat_map. exists (a, gx). split; [exact X1 |].
          unfold wf. rewrite Fm, Tm. cbn [fst snd]. rewrite Nat.eqb_refl.
          apply (hasData_iff _ _ _ Hn) in X2. rewrite X2. now left.
        * apply in_flat_map. exists (t, gx). split; [exact X |].
          unfold wf. rewrite Fm, Tm. cbn [fst snd]. rewrite Nat.eqb_refl. now left.
    - intros (m & Hm & Hg). exists m. apply flowsOf_in in Hg as (D & D' & Fg & Tg & X).
      split; [exact Hm |]. split; [congruence |]. split; [congruence |]. split; [congruence |].
      destruct (mp_dir m), (mp_from m), (mp_to m); try easy; destruct X as [X1 X2];
        (split; [exact X1 |]); now apply hasData_in in X2. }
  clear Hn. generalize dependent (k_parts (u_known u)). generalize (d_parts d). intros ps qs P.
  induction P as [| p q ps qs (fl & HP & ->) _ IH]; constructor; [| exact IH]. clear IH. cbn [q_name q_flows].
  pose proof HP as (_ & _ & _ & _ & F & Hfl & Ne).
  split; [reflexivity |]. split; [| split].
  - intros g. rewrite asked, Hfl, in_app_iff, !in_flat_map. split.
    + intros [(m & Hm & Hg) | (m & Hm & Hg)]; exists m; (split; [exact Hm |]);
        pose proof (flowsOf_in _ _ _ _ _ _ Hg) as (D & _); rewrite D; exact Hg.
    + intros (m & Hm & Hg). destruct (mp_dir m); [right | left]; exists m; auto.
  - eapply filled_once; eauto.
  - intros m a t Hm Fm Tm. pose proof (Ne m a t Hm Fm Tm) as X.
    destruct (flowsOf (d_meshes d) (p_writes p) (p_reads p) (mp_dir m) m) as [| g gs] eqn:E; [easy |].
    exists (fl_data g). apply asked. exists m. split; [exact Hm |].
    assert (Hg : In g (flowsOf (d_meshes d) (p_writes p) (p_reads p) (mp_dir m) m)) by (rewrite E; now left).
    pose proof (flowsOf_in _ _ _ _ _ _ Hg) as (_ & D & Fg & Tg & _).
    destruct g as [gd gx gf gt]. cbn in *. rewrite Fm in Fg. rewrite Tm in Tg. subst. exact Hg.
Qed.
Print Assumptions C76_flows.

(** What a participant writes it does not read, and the meshes have the data. *)
Theorem C76_fields : forall r d u p,
  readFile r d = Good u -> In p (d_parts d) ->
  NoDup (p_writes p) /\ NoDup (p_reads p) /\
  (forall f, In f (p_writes p) -> ~ In f (p_reads p)) /\
  (forall f, In f (p_writes p) \/ In f (p_reads p) -> MeshHas d (fst f) (snd f)) /\
  NoDup (map useMesh (p_uses p)) /\ (forall m, ~ ReceivesFrom p m (p_name p)).
Proof.
  intros r d u p H Hp. apply readFile_good in H as (_ & _ & _ & _ & P & _).
  destruct (forall2_left _ _ _ _ _ _ P Hp) as (q & _ & _ & fl & (Hu & Hw & Hr & _) & _).
  split; [eapply fields_once; eauto |]. split; [eapply fields_once; eauto |]. split; [| split; [| split]].
  - intros f Hf Hf'. destruct (each_app_at _ _ _ _ _ (addField_app _ _) Hr Hf') as (pre & post & b & _ & Hb).
    do 2 apply check_good in Hb as [_ Hb]. apply check_good in Hb as [Hb _].
    apply andb_true_iff in Hb as [_ Hb]. now apply negb_true_iff, isIn2_no in Hb.
  - intros f [Hf | Hf]; (eapply hasData_in, fields_have; [| exact Hf]); eauto.
  - eapply uses_once; eauto.
  - intros m (a & Ha). destruct (each_app_at _ _ _ _ _ (addUse_app _ _) Hu Ha) as (pre & post & b & _ & Hb).
    apply check_good in Hb as [_ Hb]. apply check_good in Hb as [Hb _].
    now rewrite Nat.eqb_refl in Hb.
Qed.
Print Assumptions C76_fields.

(** ** Channels *)

(** A scheme that sends data of a mesh that one of the two provides and the
    other receives from there has a channel for it at both ends, in multi
    schemes too. *)
Theorem C76_channels : forall r d u p q csp hsp csq hsq hp hq f,
  readFile r d = Good u -> NoDup (map p_name (d_parts d)) ->
  In p (d_parts d) -> In q (d_parts d) ->
  join u (p_name p) = Good (csp, hsp) -> join u (p_name q) = Good (csq, hsq) ->
  Shared p q (fst f) ->
  (In hp hsp -> In f (map n_field (toward (p_name q) (h_sends hp))) ->
     canSend csp hp (p_name q) (fst f) = true) /\
  (In hq hsq -> ReceivesFrom1 hq (p_name p) f ->
     canSend csq hq (p_name p) (fst f) = true).
Proof.
  intros r d u p q csp hsp csq hsq hp hq f H Hn Hp Hq Jp Jq Sh. apply readFile_good in H.
  assert (gen : forall p q cs hs h, In p (d_parts d) -> In q (d_parts d) ->
    join u (p_name p) = Good (cs, hs) -> Shared p q (fst f) -> In h hs ->
    (forall t j bs, TagRead (u_known u) t j bs -> In h bs -> h_owner h = p_name p ->
       Member t (p_name q) /\ p_name q <> p_name p) ->
    canSend cs h (p_name q) (fst f) = true).
  { clear p q csp hsp csq hsq hp hq Hp Hq Jp Jq Sh. intros p q cs hs h Hp Hq J Sh Hh Ex.
    pose proof (channels_iff _ _ _ _ _ _ (p_name q) (fst f) H Hn Hp J) as C.
    destruct (join_good _ _ _ _ J) as (x & _ & _ & -> & _ & Hc).
    apply filter_In in Hh as [Hh Ho]. apply Nat.eqb_eq in Ho.
    assert (Hin : In (p_name q, fst f) cs).
    { apply C. destruct Sh as [[A B] | [A B]]; [left | now right]. split; [exact A | eauto]. }
    destruct (scheme_tag _ _ _ _ H Hh) as (t & j & bs & Ht & T & Hb).
    destruct (Ex t j bs T Hb Ho) as [M N]. specialize (Hc _ Hin). cbn [fst] in Hc.
    unfold canSend. rewrite (proj2 (isIn2_iff _ _) Hin), andb_true_r. apply isIn_iff.
    eapply connected_partner; eauto; rewrite Ho; assumption. }
  split.
  - intros Hh Hf. apply (gen p q csp hsp hp Hp Hq Jp Sh Hh). intros t j bs T Hb Ho.
    pose proof (sends_exchange _ _ _ _ (made_follows _ _ _ _ _ T Hb) Hf) as (e & He & E1 & E2 & _).
    destruct (made_exchanges _ _ _ _ _ T He) as (M1 & M2 & M3). split; congruence.
  - intros Hh Hf. apply (gen q p csq hsq hq Hq Hp Jq); [unfold Shared in *; tauto | exact Hh |]. intros t j bs T Hb Ho.
    pose proof (receives_exchange _ _ _ _ (made_follows _ _ _ _ _ T Hb) Hf) as (e & He & E1 & E2 & _).
    destruct (made_exchanges _ _ _ _ _ T He) as (M1 & M2 & M3). split; congruence.
Qed.
Print Assumptions C76_channels.

(** If every mesh that is received is provided by the participant named, the
    two ends of a connection have channels for the same meshes. *)
Theorem C76_channel_ends : forall r d u p q csp hsp csq hsq m,
  readFile r d = Good u -> NoDup (map p_name (d_parts d)) -> SourcesProvide d ->
  In p (d_parts d) -> In q (d_parts d) ->
  join u (p_name p) = Good (csp, hsp) -> join u (p_name q) = Good (csq, hsq) ->
  In (p_name q, m) csp -> In (p_name p, m) csq /\ Connected d (p_name p) (p_name q).
Proof.
  intros r d u p q csp hsp csq hsq m H Hn Hs Hp Hq Jp Jq Hin. apply readFile_good in H. split.
  - apply (channels_iff _ _ _ _ _ _ (p_name q) m H Hn Hp Jp) in Hin.
    apply (channels_iff _ _ _ _ _ _ (p_name p) m H Hn Hq Jq).
    assert (same : forall x, In x (d_parts d) -> p_name x = p_name q -> x = q).
    { intros x Hx E. eapply nodup_eq; [exact Hn | | |]; assumption. }
    destruct Hin as [(A & x & Hx & E & B) | B].
    + right. now rewrite <- (same x Hx E).
    + left. destruct (Hs _ _ _ Hp B) as (x & Hx & E & C). rewrite (same x Hx E) in C.
      split; [exact C |]. exists p. auto.
  - destruct (join_good _ _ _ _ Jp) as (x & _ & _ & _ & _ & Hc). specialize (Hc _ Hin). cbn in Hc.
    pose proof H as (_ & _ & E & _). rewrite E in Hc. now apply isConnected_iff in Hc.
Qed.
Print Assumptions C76_channel_ends.

(** ** Assertions *)

(** Reading a file runs into an assertion only if a mesh is defined twice or a
    convergence measure names data its mesh does not have. *)
Theorem C76_never_broken : forall r d, readFile r d = Broken -> RepeatedMesh d \/ UnknownMeasure d.
Proof. exact readFile_broken. Qed.
Print Assumptions C76_never_broken.

(** ** What is not checked *)

(** Two solvers, Fluid (1) and Solid (2), with a mesh each (10, 20); forces (0)
    go from Fluid to Solid and displacements (1) come back. *)
Definition fluid : partTag := PartTag 1 [Provide 10] [(10, 0)] [(10, 1)] [] [10] [(10, 2)].

Definition solid : partTag :=
  PartTag 2 [Provide 20; Receive 10 1 false] [(20, 1)] [(20, 0)]
    [MapTag Reads (Some 10) (Some 20) Consistent false;
     MapTag Writes (Some 20) (Some 10) Conservative false] [] [].

Definition forth (init sub : bool) : exchange := Exchange 0 10 1 2 init sub.
Definition back (init sub : bool) : exchange := Exchange 1 10 2 1 init sub.

Definition implicitTag : schemeTag :=
  SchemeTag SerialImplicit [(1, false); (2, false)] [forth false true; back true true]
    [(10, 1)] (Some [(10, 1)]) (Some 30).

Definition fsi : file :=
  File false [(0, 1); (1, 1)] [MeshTag 10 2 [0; 1]; MeshTag 20 2 [0; 1]] [(1, 2)]
    [fluid; solid] [implicitTag].

Definition good {A} (r : res A) : bool := match r with Good _ => true | _ => false end.
Definition refused {A} (r : res A) : bool := match r with Refused => true | _ => false end.

Example fsi_read : good (readFile (Reader 1 4) fsi) = true /\ good (readFile (Reader 2 4) fsi) = true.
Proof. split; vm_compute; reflexivity. Qed.

Definition joined (d : file) (r : reader) : list (nat * nat) * list scheme :=
  match readFile r d with
  | Good u => match join u (r_name r) with Good x => x | _ => ([], []) end
  | _ => ([], [])
  end.

(** Solid sends the displacements on the mesh of Fluid, which it received. *)
Example fsi_joined :
  fst (joined fsi (Reader 1 1)) = [(2, 10)] /\ fst (joined fsi (Reader 2 1)) = [(1, 10)] /\
  map (fun h => map message (toward 1 (h_sends h))) (snd (joined fsi (Reader 2 1))) = [[((10, 1), true, true)]] /\
  map (fun h => map message (toward 2 (h_receives h))) (snd (joined fsi (Reader 1 1))) = [[((10, 1), true, true)]].
Proof. vm_compute. auto. Qed.

Example fsi_sources : SourcesProvide fsi /\ NoDup (map p_name (d_parts fsi)) /\ Shared fluid solid 10.
Proof.
  split; [| split].
  - intros p m from [<- | [<- | []]] (a & Ha); cbn in Ha.
    + destruct Ha as [E | []]. discriminate.
    + destruct Ha as [E | [E | []]]; [discriminate |]. inversion E; subst. exists fluid. cbn. auto.
  - repeat constructor; cbn; intuition discriminate.
  - left. split; [now left | exists false; cbn; auto].
Qed.

Example fsi_flows :
  match readFile (Reader 1 1) fsi with
  | Good u => map (fun q => filled (q_flows q)) (k_parts (u_known u)) = [[]; [(10, 1); (20, 0)]]
  | _ => False
  end.
Proof. vm_compute. reflexivity. Qed.

(** Exchanges of a multi scheme need no connection. *)
Definition multi (es : list exchange) : schemeTag :=
  SchemeTag Multi [(1, true); (2, false)] es [(10, 1)] None (Some 5).

Theorem C76_multi_connected_refuted : ~ forall r d u t e,
  readFile r d = Good u -> In t (d_schemes d) -> In e (s_exchanges t) ->
  Connected d (e_from e) (e_to e).
Proof.
  intros C.
  pose (d := File false [(0, 1); (1, 1)] [MeshTag 10 2 [0; 1]; MeshTag 20 2 [0; 1]] []
               [fluid; solid] [multi [forth false true; back false true]]).
  destruct (readFile (Reader 1 1) d) as [u | |] eqn:E; [| vm_compute in E; discriminate | vm_compute in E; discriminate].
  destruct (C _ d u _ (forth false true) E (or_introl eq_refl) (or_introl eq_refl)) as [[] | []].
Qed.
Print Assumptions C76_multi_connected_refuted.

(** The mesh of an exchange may belong to a third participant: both ends of the
    scheme lack a channel. *)
Definition guest (n : nat) (ws rs : list (nat * nat)) : partTag :=
  PartTag n [Receive 30 3 true] ws rs [] [] [].

Definition threeFile : file :=
  File false [(0, 1); (1, 1)] [MeshTag 30 2 [0; 1]] [(1, 2); (3, 1); (3, 2)]
    [guest 1 [(30, 0)] []; guest 2 [] [(30, 0)]; PartTag 3 [Provide 30] [] [] [] [] []]
    [SchemeTag ParallelExplicit [(1, false); (2, false)] [Exchange 0 30 1 2 false true] [] None None;
     SchemeTag ParallelExplicit [(3, false); (1, false)] [Exchange 1 30 3 1 false true] [] None None].

Theorem C76_channel_refuted : ~ forall r d u n cs hs h b f,
  readFile r d = Good u -> NoDup (map p_name (d_parts d)) -> SourcesProvide d ->
  join u n = Good (cs, hs) -> In h hs -> In f (map n_field (toward b (h_sends h))) ->
  canSend cs h b (fst f) = true.
Proof.
  intros C. destruct (readFile (Reader 1 1) threeFile) as [u | |] eqn:E;
    [| vm_compute in E; discriminate | vm_compute in E; discriminate].
  destruct (join u 1) as [[cs hs] | |] eqn:J; pose proof E as E2; vm_compute in E2;
    inversion E2; subst u; vm_compute in J; try discriminate J. inversion J; subst cs hs.
  assert (N : NoDup (map p_name (d_parts threeFile))) by (repeat constructor; cbn; intuition discriminate).
  assert (S : SourcesProvide threeFile).
  { intros p m from [<- | [<- | [<- | []]]] (a & Ha); cbn in Ha;
      destruct Ha as [X | []]; inversion X; subst;
      (exists (PartTag 3 [Provide 30] [] [] [] [] []); cbn; auto 6). }
  pose proof (C _ _ _ 1 _ _ _ 2 (30, 0) E N S J (or_introl eq_refl) (or_introl eq_refl)) as C'.
  vm_compute in C'. discriminate C'.
Qed.
Print Assumptions C76_channel_refuted.

(** A mesh may be received from a participant that does not provide it: the
    receiver waits for a mesh that nobody sends. *)
Definition waiting : file :=
  File false [(0, 1); (1, 1)] [MeshTag 10 2 [0; 1]; MeshTag 20 2 [0]] [(1, 2)]
    [fluid; PartTag 2 [Receive 10 1 true; Receive 20 1 false] [(10, 1)] [(10, 0)] [] [] []]
    [SchemeTag ParallelExplicit [(1, false); (2, false)] [forth false true; back false true] [] None None].

Theorem C76_channel_ends_refuted : ~ forall r d u p q csp hsp csq hsq m,
  readFile r d = Good u -> NoDup (map p_name (d_parts d)) ->
  In p (d_parts d) -> In q (d_parts d) ->
  join u (p_name p) = Good (csp, hsp) -> join u (p_name q) = Good (csq, hsq) ->
  In (p_name q, m) csp -> In (p_name p, m) csq.
Proof.
  intros C. destruct (readFile (Reader 1 1) waiting) as [u | |] eqn:E;
    [| vm_compute in E; discriminate | vm_compute in E; discriminate].
  pose proof E as E2; vm_compute in E2; inversion E2; subst u. clear E2.
  assert (N : NoDup (map p_name (d_parts waiting))) by (repeat constructor; cbn; intuition discriminate).
  assert (X : In (2, 20) [(2, 10)]).
  { eapply (C _ _ _ (PartTag 2 [Receive 10 1 true; Receive 20 1 false] [(10, 1)] [(10, 0)] [] [] [])
                fluid _ _ _ _ 20 E N (or_intror (or_introl eq_refl)) (or_introl eq_refl)).
    - vm_compute. reflexivity.
    - vm_compute. reflexivity.
    - cbn. auto. }
  destruct X as [X | []]. discriminate X.
Qed.
Print Assumptions C76_channel_ends_refuted.

(** The same data may come from two participants in two schemes. *)
Definition twoSources : file :=
  File false [(0, 1)] [MeshTag 10 2 [0]] [(1, 2); (1, 3)]
    [PartTag 1 [Provide 10] [] [(10, 0)] [] [] [];
     PartTag 2 [Receive 10 1 true] [(10, 0)] [] [] [] [];
     PartTag 3 [Receive 10 1 true] [(10, 0)] [] [] [] []]
    [SchemeTag ParallelExplicit [(1, false); (2, false)] [Exchange 0 10 2 1 false true] [] None None;
     SchemeTag ParallelExplicit [(1, false); (3, false)] [Exchange 0 10 3 1 false true] [] None None].

Theorem C76_one_source_refuted : ~ forall r d u h k p q f,
  readFile r d = Good u -> In h (u_schemes u) -> In k (u_schemes u) -> h_owner h = h_owner k ->
  ReceivesFrom1 h p f -> ReceivesFrom1 k q f -> p = q.
Proof.
  intros C. destruct (readFile (Reader 1 1) twoSources) as [u | |] eqn:E;
    [| vm_compute in E; discriminate | vm_compute in E; discriminate].
  pose proof E as E2; vm_compute in E2; inversion E2; subst u. clear E2.
  assert (X : 2 = 3); [| discriminate X].
  eapply (C _ _ _ _ _ 2 3 (10, 0) E).
  - left. reflexivity.
  - right. right. left. reflexivity.
  - reflexivity.
  - left. reflexivity.
  - left. reflexivity.
Qed.
Print Assumptions C76_one_source_refuted.

(** A just-in-time mapping need not have data. *)
Theorem C76_just_in_time_refuted : ~ forall r d u p m,
  readFile r d = Good u -> In p (d_parts d) -> In m (p_maps p) ->
  exists x, Asked d p (Flow (mp_dir m) x (mp_from m) (mp_to m)).
Proof.
  intros C.
  pose (m := MapTag Writes None (Some 10) Conservative true).
  pose (p := PartTag 2 [Provide 20; Receive 10 1 true] [(20, 1)] [] [m] [] []).
  pose (d := File false [(0, 1); (1, 1)] [MeshTag 10 2 [0; 1]; MeshTag 20 2 [1]] [(1, 2)] [fluid; p] []).
  destruct (readFile (Reader 2 1) d) as [u | |] eqn:E;
    [| vm_compute in E; discriminate | vm_compute in E; discriminate].
  destruct (C _ d u p m E (or_intror (or_introl eq_refl)) (or_introl eq_refl))
    as (x & n & Hn & _ & _ & _ & X).
  cbn in Hn. destruct Hn as [<- | []]. cbn in X. destruct X as [X | []]. discriminate X.
Qed.
Print Assumptions C76_just_in_time_refuted.

(** Two participants may have the same name. *)
Theorem C76_names_refuted : ~ forall r d u, readFile r d = Good u -> NoDup (map p_name (d_parts d)).
Proof.
  intros C.
  pose (d := File false [] [] [] [PartTag 1 [] [] [] [] [] []; PartTag 1 [] [] [] [] [] []] []).
  destruct (readFile (Reader 1 1) d) as [u | |] eqn:E;
    [| vm_compute in E; discriminate | vm_compute in E; discriminate].
  specialize (C _ d u E). inversion C as [| x l Hx Hl]. apply Hx. now left.
Qed.
Print Assumptions C76_names_refuted.

(** A participant may write data of a mesh it does not use. *)
Theorem C76_written_mesh_refuted : ~ forall r d u p f,
  readFile r d = Good u -> In p (d_parts d) -> In f (p_writes p) -> Uses p (fst f).
Proof.
  intros C. pose (p := PartTag 1 [] [(10, 0)] [] [] [] []).
  pose (d := File false [(0, 1)] [MeshTag 10 2 [0]] [] [p] []).
  destruct (readFile (Reader 1 1) d) as [u | |] eqn:E;
    [| vm_compute in E; discriminate | vm_compute in E; discriminate].
  destruct (C _ d u p (10, 0) E (or_introl eq_refl) (or_introl eq_refl)) as (x & [] & _).
Qed.
Print Assumptions C76_written_mesh_refuted.

(** Data that is read need not come from anywhere. *)
Theorem C76_read_comes_refuted : ~ forall r d u p f,
  readFile r d = Good u -> In p (d_parts d) -> In f (p_reads p) ->
  (exists t a, In t (d_schemes d) /\ Exchanges t a (p_name p) f) \/
  (exists g, Asked d p g /\ fl_to g = Some (fst f) /\ fl_data g = snd f).
Proof.
  intros C. pose (p := PartTag 1 [Provide 10] [] [(10, 0)] [] [] []).
  pose (d := File false [(0, 1)] [MeshTag 10 2 [0]] [] [p] []).
  destruct (readFile (Reader 1 1) d) as [u | |] eqn:E;
    [| vm_compute in E; discriminate | vm_compute in E; discriminate].
  destruct (C _ d u p (10, 0) E (or_introl eq_refl) (or_introl eq_refl))
    as [(t & a & [] & _) | (g & (m & [] & _) & _)].
Qed.
Print Assumptions C76_read_comes_refuted.

(** A file may be accepted by one participant and refused by another. *)
Theorem C76_accepted_by_all_refuted : ~ forall r r' d u,
  readFile r d = Good u -> good (readFile r' d) = true.
Proof.
  intros C.
  pose (p := PartTag 2 [Provide 20; Receive 10 1 false] [] [(20, 0)]
               [MapTag Reads (Some 10) (Some 20) Conservative false] [] []).
  pose (d := File false [(0, 1); (1, 1)] [MeshTag 10 2 [0; 1]; MeshTag 20 2 [0]] [(1, 2)] [fluid; p] []).
  destruct (readFile (Reader 1 1) d) as [u | |] eqn:E;
    [| vm_compute in E; discriminate | vm_compute in E; discriminate].
  specialize (C _ (Reader 2 4) d u E). vm_compute in C. discriminate C.
Qed.
Print Assumptions C76_accepted_by_all_refuted.

(** The two mistakes do run into assertions. *)
Theorem C76_assertions_refuted : ~ forall r d, readFile r d <> Broken.
Proof.
  intros C. apply (C (Reader 1 1) (File false [] [MeshTag 10 2 []; MeshTag 10 3 []] [] [] [])).
  vm_compute. reflexivity.
Qed.
Print Assumptions C76_assertions_refuted.

Example unknown_measure :
  readFile (Reader 1 1)
    (File false [(0, 1); (1, 1); (2, 1)] [MeshTag 10 2 [0; 1]; MeshTag 20 2 [0; 1]] [(1, 2)] [fluid; solid]
       [SchemeTag SerialImplicit [(1, false); (2, false)] [forth false true; back true true]
          [(10, 2)] None (Some 30)]) = Broken.
Proof. vm_compute. reflexivity. Qed.

(** Waveforms of degree two need substeps, which multi schemes do not check. *)
Definition degrees (t : schemeTag) : file :=
  File false [(0, 2); (1, 2)] [MeshTag 10 2 [0; 1]; MeshTag 20 2 [0; 1]] [(1, 2)] [fluid; solid] [t].

Example multi_degrees :
  refused (readFile (Reader 1 1) (degrees (SchemeTag ParallelImplicit [(1, false); (2, false)]
     [forth false true; back false false] [(10, 1)] None (Some 5)))) = true /\
  good (readFile (Reader 1 1) (degrees (multi [forth false false; back false false]))) = true.
Proof. split; vm_compute; reflexivity. Qed.

(** An exchange back of the same data is refused, and so is a second one. *)
Example both_ways :
  refused (readFile (Reader 1 1) (File false [(0, 1); (1, 1)] [MeshTag 10 2 [0; 1]; MeshTag 20 2 [0; 1]]
     [(1, 2)] [fluid; solid]
     [SchemeTag ParallelExplicit [(1, false); (2, false)] [forth false true; Exchange 0 10 2 1 false true]
        [] None None])) = true.
Proof. vm_compute. reflexivity. Qed.
