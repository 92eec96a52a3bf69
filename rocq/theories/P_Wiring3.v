(** Reading of configuration files: whole schemes and whole files. *)

From Coq Require Import List Bool Arith Lia.
From Verif Require Import M_Wiring S_Wiring P_Wiring P_Wiring2.
Import ListNotations.

Lemma isExchanged_iff : forall es who f, isExchanged es who f = true <->
  exists e, In e es /\ (e_from e = who \/ e_to e = who) /\ (e_mesh e, e_data e) = f.
Proof.
  intros es who f. unfold isExchanged. rewrite existsb_exists. split.
  - intros (e & He & H). apply andb_true_iff in H as [H1 H2]. apply same2_iff in H2.
    apply orb_true_iff in H1. rewrite !Nat.eqb_eq in H1. eauto.
  - intros (e & He & H1 & H2). exists e. split; [exact He |].
    apply andb_true_iff. rewrite same2_iff, orb_true_iff, !Nat.eqb_eq. auto.
Qed.

Lemma comesFromSecond_in : forall es n f, comesFromSecond es n f = true ->
  exists e, In e es /\ e_from e = n /\ (e_mesh e, e_data e) = f.
Proof.
  intros es n f H. unfold comesFromSecond in H. destruct (find _ es) as [e |] eqn:E; [| discriminate].
  apply find_some in E as [E1 E2]. apply same2_iff in E2. apply Nat.eqb_eq in H. eauto.
Qed.

Definition Made (k : known) (kind : schemeKind) (members : list nat) (judge : nat)
    (es : list exchange) (ms : list (nat * nat)) (acc : option (list (nat * nat)))
    (mi : option nat) (h : scheme) : Prop :=
  h_kind h = kind /\
  connections k (isMulti kind) members (h_owner h) = Good (h_connections h) /\
  each (addDataToBeExchanged k members) es (Scheme (h_owner h) kind [] [] [] (h_connections h)) = Good h /\
  (isImplicit kind = true ->
     hasAnySendData h = true /\ (ms = [] -> mi <> None) /\
     (isMulti kind = false \/ h_owner h = judge ->
        forall f, In f ms -> isExchanged es judge f = true) /\
     (forall fs f, acc = Some fs -> In f fs -> isExchanged es judge f = true /\
        (isSerial kind = true -> comesFromSecond es judge f = true))).

Lemma createScheme_good : forall k kind members judge es ms acc mi owner h,
  createScheme k kind members judge es ms acc mi owner = Good h ->
  h_owner h = owner /\ Made k kind members judge es ms acc mi h.
Proof.
  intros k kind members judge es ms acc mi owner h H. unfold createScheme in H.
  apply bind_good in H as (cs & Hc & H). apply bind_good in H as (h' & Hh & H).
  pose proof (exchanges_all _ _ _ _ _ Hh) as (_ & E1 & E2 & E3 & _).
  cbn [h_owner h_kind h_connections] in E1, E2, E3.
  destruct (isImplicit kind) eqn:I.
  - apply check_good in H as [H1 H]. apply check_good in H as [H2 H].
    apply bind_good in H as (u & H3 & H). apply check_good in H as [H4 H].
    inversion H; subst h'. split; [exact E1 |]. rewrite <- E1, <- E3 in *.
    split; [exact E2 |]. split; [exact Hc |]. split; [exact Hh |]. intros _.
    split; [exact H1 |]. split; [| split].
    + intros -> ->. cbn in H2. discriminate H2.
    + intros Hm f Hf. assert (Hb : isMulti kind && negb (h_owner h =? judge) = false).
      { destruct Hm as [-> | ->]; [reflexivity |]. rewrite Nat.eqb_refl. apply andb_false_r. }
      rewrite Hb in H3. destruct u.
      pose proof (each_unit _ (fun f => check (isExchanged es judge f)
                     (ensure (holds f (h_all h)) (Good tt))) _ _ _ H3 Hf) as G.
      now apply check_good in G as [G _].
    + intros fs f -> Hf. apply andb_true_iff in H4 as [H4 H5].
      rewrite forallb_forall in H4. split; [auto |]. intros Hs. rewrite Hs in H5. cbn in H5.
      rewrite forallb_forall in H5. auto.
  - inversion H; subst h'. split; [exact E1 |]. rewrite <- E1, <- E3 in *.
    split; [exact E2 |]. split; [exact Hc |]. split; [exact Hh |]. intros J. congruence.
Qed.

Lemma createScheme_broken : forall k kind members judge es ms acc mi owner,
  createScheme k kind members judge es ms acc mi owner = Broken ->
  In owner members -> (isMulti kind = false -> exists a b, members = [a; b]) -> False.
Proof.
  intros k kind members judge es ms acc mi owner H Hin Hbi. unfold createScheme in H.
  apply bind_broken in H as [H | (cs & _ & H)].
  - unfold connections in H. destruct (isMulti kind); [discriminate |].
    destruct (Hbi eq_refl) as (a & b & ->). apply check_broken in H as [_ H]. discriminate.
  - apply bind_broken in H as [H | (h & Hh & H)].
    + apply each_broken in H as (pre & x & post & a & _ & _ & H). now apply addData_not_broken in H.
    + destruct (isImplicit kind); [| discriminate]. apply check_broken in H as [_ H].
      apply check_broken in H as [_ H]. apply bind_broken in H as [H | (u & _ & H)].
      2:{ apply check_broken in H as [_ H]. discriminate. }
      destruct (isMulti kind && negb (owner =? judge)) eqn:E; [discriminate |].
      apply each_broken in H as (pre & f & post & u & _ & _ & H).
      apply check_broken in H as [H1 H]. apply isExchanged_iff in H1 as (e & He & Hf & <-).
      destruct (exchanges_all _ _ _ _ _ Hh) as (Hm & _). destruct (Hm e He) as (M1 & M2 & M3).
      rewrite (known_all _ _ _ _ _ e Hh He) in H; [discriminate |]. cbn [h_owner].
      apply andb_false_iff in E as [E | E].
      * destruct (Hbi E) as (a & b & ->). cbn in *. intuition congruence.
      * apply negb_false_iff, Nat.eqb_eq in E. subst. exact Hf.
Qed.

Definition neededBy (t : schemeTag) (judge : nat) : list (nat * nat) :=
  flat_map (fun e => [(e_from e, e_mesh e); (e_to e, e_mesh e)]) (s_exchanges t)
  ++ (if isImplicit (s_kind t) then map (fun f => (judge, fst f)) (s_measures t ++ accelerated t) else []).

Definition TagRead (k : known) (t : schemeTag) (judge : nat) (hs : list scheme) : Prop :=
  Judge t judge /\ (forall j, Judge t j -> j = judge) /\
  (isMulti (s_kind t) = false -> exists a b, map fst (s_members t) = [a; b]) /\
  NoDup (map fst (s_members t)) /\
  (forall n, In n (map fst (s_members t)) -> hasPart (k_parts k) n = true) /\
  each (addExchange (k_meshes k)) (s_exchanges t) [] = Good (s_exchanges t) /\
  each (addMeasure (k_meshes k)) (s_measures t) [] = Good (s_measures t) /\
  (isImplicit (s_kind t) = false -> s_measures t = [] /\ s_acceleration t = None /\ s_maxIterations t = None) /\
  (forall fs, s_acceleration t = Some fs -> each (addAcceleration (k_meshes k)) fs [] = Good fs) /\
  map h_owner hs = map fst (s_members t) /\
  (forall h, In h hs -> Made k (s_kind t) (map fst (s_members t)) judge (s_exchanges t)
                           (s_measures t) (s_acceleration t) (s_maxIterations t) h).

Lemma addScheme_app : forall rm a h b, addScheme rm a h = Good b -> b = a ++ [h].
Proof. intros rm a h b H. do 2 apply check_good in H as [_ H]. now inversion H. Qed.

Lemma schemes_made : forall rm (create : nat -> res scheme) (P : scheme -> Prop),
  (forall o h, create o = Good h -> h_owner h = o /\ P h) ->
  forall owners hs hs',
  each (fun hs owner => bind (create owner) (addScheme rm hs)) owners hs = Good hs' ->
  exists new, hs' = hs ++ new /\ map h_owner new = owners /\ forall h, In h new -> P h.
Proof.
  intros rm create P Hc owners. induction owners as [| o owners IH]; intros hs hs' H; cbn in H.
  - inversion H. exists []. rewrite app_nil_r. repeat split; easy.
  - apply bind_good in H as (b & H1 & H2). apply bind_good in H1 as (h & H1 & H3).
    apply addScheme_app in H3 as ->. destruct (Hc _ _ H1) as [<- Hp].
    destruct (IH _ _ H2) as (new & -> & <- & Hn). exists (h :: new).
    rewrite <- app_assoc. repeat split. intros x [<- | Hx]; auto.
Qed.

(** What a scheme tag turns into before its schemes are made. *)
Lemma tag_members : forall k t mc,
  each (addMember (k_parts k) (isMulti (s_kind t))) (s_members t) ([], None) = Good mc ->
  forall judge, (if isMulti (s_kind t)
        then match snd mc with Some j => Good j | None => Refused end
        else match fst mc with [_; b] => Good b | _ => Refused end) = Good judge ->
  Judge t judge /\ In judge (map fst (s_members t)) /\
  (isMulti (s_kind t) = false -> exists a b, map fst (s_members t) = [a; b]) /\
  (forall j, Judge t j -> j = judge).
Proof.
  intros k t mc H judge Hj. destruct (members_all _ _ _ _ H) as (A & B & C & D & F).
  unfold Judge. destruct (s_kind t) eqn:K; cbn [isMulti] in *.
  5:{ destruct (snd mc) as [j |]; [| discriminate]. inversion Hj; subst.
      destruct (D _ eq_refl) as [_ D']. split; [exact D' |].
      split; [now apply (in_map fst) in D' |]. split; [discriminate |].
      intros j Hj'. specialize (F j eq_refl Hj'). congruence. }
  all: rewrite A in Hj; destruct (s_members t) as [| [a x] [| [b y] [| ? ?]]]; try discriminate;
       cbn in Hj; inversion Hj; subst; cbn; split; [now exists a, x, y | split; [auto | split; [eauto |]]];
       intros j (a' & x' & y' & E); congruence.
Qed.

Lemma addSchemeTag_good : forall rm k c t c', addSchemeTag rm k c t = Good c' ->
  exists judge hs, TagRead k t judge hs /\ In judge (map fst (s_members t)) /\
    c_schemes c' = c_schemes c ++ hs /\ c_needed c' = c_needed c ++ neededBy t judge /\
    each (fun hs owner =>
            bind (createScheme k (s_kind t) (map fst (s_members t)) judge (s_exchanges t)
                    (s_measures t) (s_acceleration t) (s_maxIterations t) owner) (addScheme rm hs))
      (map fst (s_members t)) (c_schemes c) = Good (c_schemes c') /\
    (rm = true -> isMulti (s_kind t) = false /\ isSerial (s_kind t) = false).
Proof.
  intros rm k c t c' H. unfold addSchemeTag in H.
  apply check_good in H as [H0 H]. apply bind_good in H as (mc & H1 & H).
  apply bind_good in H as (es & H2 & H). apply bind_good in H as (ms & H3 & H).
  apply bind_good in H as (acc & H4 & H). apply check_good in H as [H5 H].
  apply bind_good in H as (judge & H6 & H). apply bind_good in H as (hs & H7 & H).
  destruct (tag_members _ _ _ H1 _ H6) as (J1 & J2 & J3 & J4).
  destruct (members_all _ _ _ _ H1) as (A & B & C & D & F).
  assert (es = s_exchanges t) as ->
    by (apply (each_app _ _ _ _ _ (addExchange_app (k_meshes k))) in H2; exact H2).
  assert (ms = s_measures t) as ->
    by (apply (each_app _ _ _ _ _ (addMeasure_app (k_meshes k))) in H3; exact H3).
  assert (G : acc = s_acceleration t /\
              (forall fs, s_acceleration t = Some fs -> each (addAcceleration (k_meshes k)) fs [] = Good fs)).
  { destruct (s_acceleration t) as [fs |].
    - apply bind_good in H4 as (l & H4 & H4'). inversion H4'; subst.
      assert (l = fs) as -> by (apply (each_app _ _ _ _ _ (addAcceleration_app (k_meshes k))) in H4; exact H4).
      split; [reflexivity |]. intros gs E. inversion E; subst. exact H4.
    - inversion H4. split; [reflexivity | discriminate]. }
  destruct G as [-> G]. rewrite A in H7.
  destruct (schemes_made _ _ (Made k (s_kind t) (map fst (s_members t)) judge (s_exchanges t)
              (s_measures t) (s_acceleration t) (s_maxIterations t))
              (fun o h => createScheme_good _ _ _ _ _ _ _ _ o h) _ _ _ H7) as (new & N1 & N2 & N3).
  inversion H; subst c'. cbn [c_schemes c_needed]. exists judge, new.
  split; [| split; [exact J2 | split; [exact N1 | split; [| split; [exact H7 |]]]]].
  - unfold TagRead. repeat (split; [assumption |]).
    split; [| split; [exact G | split; [exact N2 | exact N3]]].
    intros I. rewrite I in H0. cbn in H0.
    destruct (s_measures t), (s_acceleration t), (s_maxIterations t); try discriminate. auto.
  - unfold neededBy, accelerated. reflexivity.
  - intros ->. destruct (isMulti (s_kind t)), (isSerial (s_kind t)); cbn in H5; try discriminate. auto.
Qed.

Lemma addSchemeTag_broken : forall rm k c t, addSchemeTag rm k c t = Broken ->
  exists f, In f (s_measures t) /\ hasMesh (k_meshes k) (fst f) = true /\
            hasData (k_meshes k) (fst f) (snd f) = false.
Proof.
  intros rm k c t H. unfold addSchemeTag in H.
  apply check_broken in H as [H0 H]. apply bind_broken in H as [H | (mc & H1 & H)].
  { apply each_broken in H as (pre & x & post & a & _ & _ & H). unfold addMember in H.
    do 2 apply check_broken in H as [_ H]. destruct (_ && _); [| discriminate].
    apply check_broken in H as [_ H]. discriminate. }
  apply bind_broken in H as [H | (es & H2 & H)].
  { apply each_broken in H as (pre & x & post & a & _ & _ & H).
    do 2 apply check_broken in H as [_ H]. discriminate. }
  apply bind_broken in H as [H | (ms & H3 & H)].
  { apply each_broken in H as (pre & x & post & a & E & _ & H). exists x.
    split; [rewrite E; apply in_elt |]. apply check_broken in H as [Hm H].
    split; [exact Hm |]. apply ensure_broken in H as [H | [_ H]]; [exact H | discriminate]. }
  exfalso. apply bind_broken in H as [H | (acc & H4 & H)].
  { destruct (s_acceleration t); [| discriminate]. apply bind_broken in H as [H | (ll & _ & H)]; [| discriminate].
    apply each_broken in H as (pre & x & post & a & _ & _ & H).
    do 2 apply check_broken in H as [_ H]. discriminate. }
  apply check_broken in H as [H5 H]. apply bind_broken in H as [H | (judge & H6 & H)].
  { destruct (isMulti (s_kind t)).
    - destruct (snd mc); discriminate.
    - destruct (fst mc) as [| ? [| ? [| ? ?]]]; discriminate. }
  destruct (tag_members _ _ _ H1 _ H6) as (J1 & J2 & J3 & J4).
  destruct (members_all _ _ _ _ H1) as (A & B & C & D & F).
  apply bind_broken in H as [H | (hs & _ & H)]; [| discriminate].
  apply each_broken in H as (pre & o & post & hs & E & _ & H).
  apply bind_broken in H as [H | (h & _ & H)].
  - eapply createScheme_broken; [exact H | | rewrite A; exact J3]. rewrite E. apply in_elt.
  - do 2 apply check_broken in H as [_ H]. discriminate.
Qed.

(** ** One implicit scheme *)

Definition owners1 (hs : list scheme) : list nat :=
  map h_owner (filter (fun h => isImplicit (h_kind h)) hs).

Lemma addScheme_implicit : forall rm a h b, addScheme rm a h = Good b ->
  NoDup (owners1 a) -> NoDup (owners1 b).
Proof.
  intros rm a h b H Hn. pose proof (addScheme_app _ _ _ _ H) as ->. unfold owners1 in *.
  rewrite filter_app, map_app. cbn [filter]. destruct (isImplicit (h_kind h)) eqn:I; cbn [map].
  - apply nodup_snoc; [exact Hn |]. apply check_good in H as [_ H]. apply check_good in H as [H _].
    rewrite I in H. cbn in H. apply negb_true_iff in H. intros C. apply in_map_iff in C as (o & E & Ho).
    apply filter_In in Ho as [H1 H2].
    assert (X : existsb (fun o => isImplicit (h_kind o)) (filter (fun o => h_owner o =? h_owner h) a) = true);
      [| congruence].
    apply existsb_exists. exists o. split; [| exact H2]. apply filter_In. split; [exact H1 |].
    now apply Nat.eqb_eq.
  - now rewrite app_nil_r.
Qed.

Lemma tag_implicit : forall rm k c t c', addSchemeTag rm k c t = Good c' ->
  NoDup (owners1 (c_schemes c)) -> NoDup (owners1 (c_schemes c')).
Proof.
  intros rm k c t c' H Hn.
  destruct (addSchemeTag_good _ _ _ _ _ H) as (judge & hs & _ & _ & _ & _ & H7 & _).
  refine (each_inv _ _ (fun hs => NoDup (owners1 hs)) _ _ _ _ _ Hn H7).
  intros a x b _ Ha Hb. apply bind_good in Hb as (h & _ & Hb). eapply addScheme_implicit; eauto.
Qed.

(** ** Files *)

Definition partFrom (ms : list meshTag) (r : reader) (p : partTag) (q : participant) : Prop :=
  exists fl, PartRead ms r p fl /\ q = Participant (p_name p) (p_uses p) (p_writes p) (p_reads p) fl.

Lemma parts_read : forall rm ms r ps qs qs', each (addPart rm ms r) ps qs = Good qs' ->
  exists new, qs' = qs ++ new /\ Forall2 (partFrom ms r) ps new.
Proof.
  intros rm ms r ps. induction ps as [| p ps IH]; intros qs qs' H; cbn in H.
  - inversion H. exists []. rewrite app_nil_r. split; [reflexivity | constructor].
  - apply bind_good in H as (b & H1 & H2). apply addPart_good in H1 as (fl & Hp & ->).
    destruct (IH _ _ H2) as (new & -> & Hn). eexists (_ :: new). rewrite <- app_assoc.
    split; [reflexivity |]. constructor; [| exact Hn]. now exists fl.
Qed.

Definition Read (r : reader) (d : file) (u : setup) : Prop :=
  k_data (u_known u) = d_data d /\ k_meshes (u_known u) = d_meshes d /\ k_m2ns (u_known u) = d_m2ns d /\
  NoDup (map m_name (d_meshes d)) /\
  Forall2 (partFrom (d_meshes d) r) (d_parts d) (k_parts (u_known u)) /\
  NoDup (owners1 (u_schemes u)) /\
  (forall a b, In (a, b) (d_m2ns d) -> hasPart (k_parts (u_known u)) a = true /\ hasPart (k_parts (u_known u)) b = true) /\
  exists blocks, u_schemes u = concat (map snd blocks) /\
    Forall2 (fun t b => TagRead (u_known u) t (fst b) (snd b)) (d_schemes d) blocks /\
    (forall t b n, In (t, b) (combine (d_schemes d) blocks) -> In n (neededBy t (fst b)) ->
       exists q, getPart (k_parts (u_known u)) (fst n) = Some q /\ isUsed (q_uses q) (snd n) = true) /\
    (d_remeshing d = true -> forall t, In t (d_schemes d) -> s_kind t = ParallelExplicit \/ s_kind t = ParallelImplicit).

Lemma tags_read : forall rm k ts c c', each (addSchemeTag rm k) ts c = Good c' ->
  exists blocks, c_schemes c' = c_schemes c ++ concat (map snd blocks) /\
    Forall2 (fun t b => TagRead k t (fst b) (snd b)) ts blocks /\
    c_needed c' = c_needed c ++ flat_map (fun tb => neededBy (fst tb) (fst (snd tb))) (combine ts blocks) /\
    (rm = true -> forall t, In t ts -> s_kind t = ParallelExplicit \/ s_kind t = ParallelImplicit).
Proof.
  intros rm k ts. induction ts as [| t ts IH]; intros c c' H; cbn in H.
  - inversion H. exists []. cbn. rewrite !app_nil_r. repeat split; auto. easy.
  - apply bind_good in H as (b & H1 & H2).
    destruct (addSchemeTag_good _ _ _ _ _ H1) as (judge & hs & A & _ & B & C & _ & R).
    destruct (IH _ _ H2) as (blocks & D & E & F & G). exists ((judge, hs) :: blocks). cbn.
    rewrite D, B, F, C, !app_assoc. repeat split; auto.
    intros Hr x [<- | Hx]; [| auto]. destruct (R Hr) as [R1 R2].
    destruct (s_kind t); cbn in *; try discriminate; auto.
Qed.

Lemma readFile_good : forall r d u, readFile r d = Good u -> Read r d u.
Proof.
  intros r d u H. unfold readFile in H.
  apply bind_good in H as (ds & H1 & H). apply bind_good in H as (ms & H2 & H).
  apply bind_good in H as (cs & H3 & H). apply bind_good in H as (parts & H4 & H).
  apply bind_good in H as (c & H5 & H). apply bind_good in H as (v & H6 & H).
  apply check_good in H as [H7 H]. inversion H; subst u. clear H.
  assert (ds = d_data d) as -> by (apply (each_app _ _ _ _ _ addData_app) in H1; exact H1).
  assert (Hn : NoDup (map m_name ms)) by (eapply addMesh_nodup; eauto).
  assert (ms = d_meshes d) as -> by (apply (each_app _ _ _ _ _ (addMesh_app (d_data d))) in H2; exact H2).
  assert (cs = d_m2ns d) as -> by (apply (each_app _ _ _ _ _ addM2N_app) in H3; exact H3).
  destruct (parts_read _ _ _ _ _ _ H4) as (new & E & Hp). cbn in E. subst new.
  destruct (tags_read _ _ _ _ _ H5) as (blocks & A & B & C & D). cbn in A, C.
  unfold Read. cbn [u_known u_schemes k_data k_meshes k_m2ns k_parts].
  repeat (split; [reflexivity || assumption |]).
  split; [| split].
  - refine (each_inv _ _ (fun c => NoDup (owners1 (c_schemes c))) _ _ _ _ _ _ H5); [| constructor].
    intros a x b _ Ha Hb. eapply tag_implicit; eauto.
  - intros a b Hab. rewrite forallb_forall in H7. specialize (H7 _ Hab). cbn in H7.
    now apply andb_true_iff in H7.
  - exists blocks. split; [exact A |]. split; [exact B |]. split; [| exact D].
    intros t b n Htb Hin. destruct v.
    assert (Hc : In n (c_needed c)).
    { rewrite C. apply in_flat_map. exists (t, b). auto. }
    pose proof (each_unit _ (fun n => match getPart parts (fst n) with
                  | None => Broken
                  | Some q => check (isUsed (q_uses q) (snd n)) (Good tt) end) _ _ _ H6 Hc) as G.
    cbn in G. destruct (getPart parts (fst n)) as [q |]; [| discriminate].
    apply check_good in G as [G _]. eauto.
Qed.

(** ** Assertions *)

Lemma each_not_broken : forall X S (f : S -> X -> res S) xs s,
  (forall a x, In x xs -> f a x <> Broken) -> each f xs s <> Broken.
Proof.
  intros X S f xs s Hf H. apply each_broken in H as (pre & x & post & a & E & _ & H).
  apply (Hf a x); [| exact H]. rewrite E. apply in_elt.
Qed.

Lemma addPart_not_broken : forall rm ms r parts p, addPart rm ms r parts p <> Broken.
Proof.
  intros rm ms r parts p H. unfold addPart in H.
  apply bind_broken in H as [H | (us & Hu & H)].
  { revert H. apply each_not_broken. intros a x _ H. do 3 apply check_broken in H as [_ H]. discriminate. }
  assert (us = p_uses p) as ->
    by (apply (each_app _ _ _ _ _ (addUse_app ms (p_name p))) in Hu; exact Hu).
  apply bind_broken in H as [H | (ws & Hw & H)].
  { revert H. apply each_not_broken. intros a x _ H. do 3 apply check_broken in H as [_ H]. discriminate. }
  assert (ws = p_writes p) as ->
    by (apply (each_app _ _ _ _ _ (addField_app ms [])) in Hw; exact Hw).
  apply bind_broken in H as [H | (rs & Hr & H)].
  { revert H. apply each_not_broken. intros a x _ H. do 3 apply check_broken in H as [_ H]. discriminate. }
  assert (rs = p_reads p) as ->
    by (apply (each_app _ _ _ _ _ (addField_app ms (p_writes p))) in Hr; exact Hr).
  apply bind_broken in H as [H | (maps & Hm & H)].
  { revert H. apply each_not_broken. intros a x _ H. unfold addMap in H.
    destruct (mp_from x), (mp_to x); try discriminate; do 4 apply check_broken in H as [_ H]; discriminate. }
  assert (maps = p_maps p) as ->
    by (apply (each_app _ _ _ _ _ (addMap_app ms)) in Hm; exact Hm).
  apply bind_broken in H as [H | (u & Hf & H)].
  { revert H. apply each_not_broken. intros a x _ H. unfold mapFits in H.
    do 4 apply check_broken in H as [_ H]. discriminate. }
  destruct u.
  assert (Hfit : forall m, In m (p_maps p) ->
    mapFits ms r (p_name p) (p_uses p) (p_writes p) (p_reads p) (p_maps p) m = Good tt).
  { intros m Hi. exact (each_unit _ (fun m => mapFits ms r (p_name p) (p_uses p) (p_writes p)
                                               (p_reads p) (p_maps p) m) _ _ _ Hf Hi). }
  apply bind_broken in H as [H | (fw & Hfw & H)].
  { revert H. apply each_not_broken. intros a m Hi H. unfold mapFlows in H.
    destruct (sameDir (mp_dir m) Writes) eqn:Ed; [| discriminate]. apply sameDir_iff in Ed.
    pose proof (mapFits_dirs _ _ _ _ _ _ _ _ (Hfit _ Hi)) as X. rewrite Ed in X.
    apply bind_broken in H as [H | (s & _ & H)].
    - revert H. apply each_not_broken. intros s f _ H. unfold writeFlow in H.
      destruct (mp_from m) as [x |], (mp_to m) as [t |]; try easy.
      + destruct X as [X1 X2]. destruct (_ =? _); [| discriminate].
        rewrite (received_used _ _ X2) in H. cbn in H. destruct (hasData _ _ _); [| discriminate].
        apply check_broken in H as [_ H]. discriminate.
      + destruct (_ =? _); [| discriminate]. rewrite (received_used _ _ X) in H. discriminate.
    - apply check_broken in H as [_ H]. discriminate. }
  apply mapFlows_all in Hfw. cbn in Hfw. subst fw.
  apply bind_broken in H as [H | (fl & Hfl & H)].
  2:{ do 3 apply check_broken in H as [_ H]. discriminate. }
  apply each_broken in H as (pre & m & post & fl & E & Hpre & H). apply mapFlows_all in Hpre. subst fl.
  assert (Hi : In m (p_maps p)) by (rewrite E; apply in_elt).
  unfold mapFlows in H.
  destruct (sameDir (mp_dir m) Reads) eqn:Ed; [| discriminate]. apply sameDir_iff in Ed.
  pose proof (mapFits_dirs _ _ _ _ _ _ _ _ (Hfit _ Hi)) as X. rewrite Ed in X.
  apply bind_broken in H as [H | (s & _ & H)]; [| apply check_broken in H as [_ H]; discriminate].
  revert H. apply each_not_broken. intros s f Hi2 H. unfold readFlow in H.
  destruct (mp_from m) as [x |] eqn:Em; [| easy]. destruct (mp_to m) as [t |] eqn:Et.
  2:{ destruct (_ =? _); [| discriminate]. rewrite (received_used _ _ X) in H. discriminate. }
  destruct X as [X1 X2]. destruct (Nat.eqb_spec t (fst f)) as [Etf | Etf]; [| discriminate].
  rewrite (received_used _ _ X1) in H. cbn [ensure] in H.
  destruct (hasData ms x (snd f)) eqn:Hd; [| discriminate].
  apply check_broken in H as [Hp H]. apply ensure_broken in H as [H | [_ H]]; [| discriminate].
  apply negb_false_iff, existsb_exists in H as (g & Hg & H).
  apply andb_true_iff in H as [H H3]. apply andb_true_iff in H as [H1 H2].
  apply sameDir_iff in H1. apply Nat.eqb_eq in H2. apply sameName_iff in H3.
  apply in_app_iff in Hg as [Hg | Hg]; apply in_flat_map in Hg as (y & Iy & Hg).
  - apply flowsOf_in in Hg as (_ & D & _). congruence.
  - apply in_split in Iy as (p1 & p2 & ->).
    assert (Hh : In (Flow Reads (snd f) (Some x) (Some t)) (flowsOf ms (p_writes p) (p_reads p) Reads m)).
    { unfold flowsOf. rewrite Ed. cbn [sameDir]. apply in_flat_map. exists f. split; [exact Hi2 |].
      unfold rf. rewrite Em, Et, <- Etf, Nat.eqb_refl, Hd. now left. }
    eapply (flows_clash ms r p Reads y m p1 p2 post); eauto.
    + rewrite E, <- app_assoc. reflexivity.
    + rewrite H3. discriminate.
Qed.

Lemma hasData_no : forall ms mesh data, NoDup (map m_name ms) -> hasData ms mesh data = false ->
  ~ exists m, In m ms /\ m_name m = mesh /\ In data (m_data m).
Proof. intros ms mesh data Hn H C. apply (hasData_iff _ _ _ Hn) in C. congruence. Qed.

Lemma readFile_broken : forall r d, readFile r d = Broken -> RepeatedMesh d \/ UnknownMeasure d.
Proof.
  intros r d H. unfold readFile in H.
  apply bind_broken in H as [H | (ds & H1 & H)].
  { exfalso. revert H. apply each_not_broken. intros a x _ H. apply check_broken in H as [_ H]. discriminate. }
  assert (ds = d_data d) as -> by (apply (each_app _ _ _ _ _ addData_app) in H1; exact H1).
  apply bind_broken in H as [H | (ms & H2 & H)].
  { left. apply each_broken in H as (pre & m & post & old & E & Hpre & H).
    apply (each_app _ _ _ _ _ (addMesh_app (d_data d))) in Hpre. cbn in Hpre. subst old.
    unfold RepeatedMesh. rewrite E, map_app. cbn [map]. intros N.
    unfold addMesh in H. apply ensure_broken in H as [H | [_ H]].
    - apply negb_false_iff, hasMesh_iff in H. apply NoDup_remove_2 in N. apply N, in_app_iff. auto.
    - exfalso. apply bind_broken in H as [H | (l & _ & H)]; [| discriminate].
      revert H. apply each_not_broken. intros a x _ H. do 2 apply check_broken in H as [_ H]. discriminate. }
  assert (Hn : NoDup (map m_name ms)) by (eapply addMesh_nodup; eauto).
  assert (ms = d_meshes d) as -> by (apply (each_app _ _ _ _ _ (addMesh_app (d_data d))) in H2; exact H2).
  apply bind_broken in H as [H | (cs & H3 & H)].
  { exfalso. revert H. apply each_not_broken. intros a x _ H. apply check_broken in H as [_ H]. discriminate. }
  apply bind_broken in H as [H | (parts & H4 & H)].
  { exfalso. revert H. apply each_not_broken. intros a x _. apply addPart_not_broken. }
  apply bind_broken in H as [H | (c & H5 & H)].
  { right. apply each_broken in H as (pre & t & post & a & E & _ & H).
    apply addSchemeTag_broken in H as (f & Hf & Hm & Hd). cbn [k_meshes] in Hm, Hd.
    exists t, f. split; [rewrite E; apply in_elt |]. split; [exact Hf |]. split.
    - apply hasMesh_iff, in_map_iff in Hm as (m & Em & Im). eauto.
    - now apply hasData_no. }
  exfalso. apply bind_broken in H as [H | (v & H6 & H)].
  2:{ apply check_broken in H as [_ H]. discriminate. }
  destruct (tags_read _ _ _ _ _ H5) as (blocks & _ & B & C & _). cbn in C.
  apply each_broken in H as (pre & n & post & a & E & _ & H).
  assert (Hin : In n (c_needed c)) by (rewrite E; apply in_elt).
  rewrite C in Hin. apply in_flat_map in Hin as ([t [judge hs]] & Htb & Hin). cbn [fst snd] in Hin.
  assert (TR : TagRead (Known (d_data d) (d_meshes d) cs parts) t judge hs).
  { clear - B Htb. revert blocks B Htb. generalize (d_schemes d). intros ts.
    induction ts as [| x ts IH]; intros bs B Htb; [easy |]. inversion B; subst.
    destruct Htb as [Htb | Htb]; [| eapply IH; eauto]. inversion Htb; subst. assumption. }
  destruct TR as (J & _ & Jb & Hnd & Hp & He & Hms & _ & _ & Ho & Hmade).
  assert (Hj : In judge (map fst (s_members t))).
  { unfold Judge in J. destruct (s_kind t); try (destruct J as (x & y & z & ->); cbn; auto).
    now apply (in_map fst) in J. }
  assert (Hfst : In (fst n) (map fst (s_members t))).
  { unfold neededBy in Hin. apply in_app_iff in Hin as [Hin | Hin].
    - apply in_flat_map in Hin as (e & Ie & Hin).
      destruct hs as [| h hs].
      + cbn in Ho. rewrite <- Ho in Hj. easy.
      + destruct (Hmade h (or_introl eq_refl)) as (_ & _ & Hh & _).
        destruct (exchanges_all _ _ _ _ _ Hh) as (M & _). destruct (M e Ie) as (_ & M1 & M2).
        destruct Hin as [<- | [<- | []]]; assumption.
    - destruct (isImplicit (s_kind t)); [| easy]. apply in_map_iff in Hin as (f & <- & _). exact Hj. }
  specialize (Hp _ Hfst). cbn [k_parts] in Hp. unfold hasPart in Hp.
  destruct (getPart parts (fst n)); [| discriminate]. apply check_broken in H as [_ H]. discriminate.
Qed.
