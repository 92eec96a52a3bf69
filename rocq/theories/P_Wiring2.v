(** Reading of configuration files: coupling schemes. *)

From Coq Require Import List Bool Arith Lia.
From Verif Require Import M_Wiring S_Wiring P_Wiring.
Import ListNotations.

Lemma nodup_snoc : forall X (l : list X) x, NoDup l -> ~ In x l -> NoDup (l ++ [x]).
Proof.
  intros X l x Hn Hx. rewrite <- (rev_involutive (l ++ [x])). apply NoDup_rev.
  rewrite rev_app_distr. cbn. constructor; [now rewrite <- in_rev | now apply NoDup_rev].
Qed.

(** ** Members *)

Lemma addMember_step : forall parts multi s m s', addMember parts multi s m = Good s' ->
  fst s' = fst s ++ [fst m] /\ hasPart parts (fst m) = true /\ ~ In (fst m) (fst s) /\
  ((snd s' = snd s /\ (multi = true -> snd m = false)) \/
   (multi = true /\ snd m = true /\ snd s = None /\ snd s' = Some (fst m))).
Proof.
  intros parts multi [l c] [n b] s' H. unfold addMember in H. cbn [fst snd] in *.
  apply check_good in H as [H1 H]. apply check_good in H as [H2 H].
  apply negb_true_iff, isIn_no in H2.
  destruct (multi && b) eqn:E.
  - apply andb_true_iff in E as [-> ->]. apply check_good in H as [H3 H]. apply isNone_iff in H3.
    inversion H. cbn.
    split; [reflexivity | split; [exact H1 | split; [exact H2 | now right]]].
  - inversion H. cbn. split; [reflexivity | split; [exact H1 | split; [exact H2 | left]]].
    split; [reflexivity |]. intros ->. exact E.
Qed.

Lemma members_all : forall parts multi ms s', each (addMember parts multi) ms ([], None) = Good s' ->
  fst s' = map fst ms /\ NoDup (map fst ms) /\
  (forall n, In n (map fst ms) -> hasPart parts n = true) /\
  (forall j, snd s' = Some j -> multi = true /\ In (j, true) ms) /\
  (forall j, multi = true -> In (j, true) ms -> snd s' = Some j).
Proof.
  intros parts multi ms s' H.
  assert (G : forall xs s t, each (addMember parts multi) xs s = Good t ->
    NoDup (fst s) ->
    fst t = fst s ++ map fst xs /\ NoDup (fst t) /\
    (forall n, In n (map fst xs) -> hasPart parts n = true) /\
    (forall j, snd t = Some j -> snd s = Some j \/ (multi = true /\ In (j, true) xs)) /\
    (forall j, snd s = Some j -> snd t = Some j) /\
    (forall j, multi = true -> In (j, true) xs -> snd t = Some j)).
  { induction xs as [| x xs IH]; intros s t Ht Hn; cbn in Ht.
    - inversion Ht; subst. cbn. rewrite app_nil_r. repeat split; auto; easy.
    - apply bind_good in Ht as (b & H1 & H2).
      destruct (addMember_step _ _ _ _ _ H1) as (A & B & C & D).
      destruct (IH _ _ H2) as (E & F & G & I & K & L); [rewrite A; now apply nodup_snoc |].
      repeat split; auto.
      + rewrite E, A, <- app_assoc. reflexivity.
      + intros n [<- | Hn']; auto.
      + intros j Hj. destruct (I j Hj) as [M | (M1 & M2)].
        * destruct D as [(D & _) | (D1 & D2 & D0 & D3)]; [left; congruence |].
          right. split; [exact D1 |]. left. destruct x as [xn xb]. cbn in *. congruence.
        * right. split; [exact M1 | now right].
      + intros j Hj. apply K. destruct D as [(D & _) | (D1 & D2 & D0 & D3)]; congruence.
      + intros j Hm [-> | Hj]; [| auto]. apply K. cbn in D.
        destruct D as [(_ & D) | (_ & _ & _ & D)]; [| exact D]. specialize (D Hm). discriminate. }
  destruct (G _ _ _ H (NoDup_nil _)) as (A & B & C & D & E & F). cbn in *. rewrite A in B.
  split; [exact A | split; [exact B | split; [exact C | split; [| exact F]]]].
  intros j Hj. destruct (D j Hj) as [K | K]; [discriminate | exact K].
Qed.

(** ** Exchanges, measures, acceleration *)

Lemma addExchange_app : forall ms a x b, addExchange ms a x = Good b -> b = a ++ [x].
Proof. intros ms a x b H. do 2 apply check_good in H as [_ H]. now inversion H. Qed.

Lemma addMeasure_app : forall ms a x b, addMeasure ms a x = Good b -> b = a ++ [x].
Proof.
  intros ms a x b H. apply check_good in H as [_ H]. apply ensure_good in H as [_ H].
  now inversion H.
Qed.

Lemma addAcceleration_app : forall ms a x b, addAcceleration ms a x = Good b -> b = a ++ [x].
Proof. intros ms a x b H. do 2 apply check_good in H as [_ H]. now inversion H. Qed.

Definition exKey (e : exchange) : nat * nat * (nat * nat) :=
  (e_from e, e_to e, (e_mesh e, e_data e)).

Lemma sameExchange_iff : forall a b, sameExchange a b = true <-> exKey a = exKey b.
Proof.
  intros a b. unfold sameExchange, exKey. rewrite !andb_true_iff, !Nat.eqb_eq. split.
  - intros [[[-> ->] ->] ->]. reflexivity.
  - intros H. inversion H. auto.
Qed.

Lemma exchanges_once : forall ms es s, each (addExchange ms) es [] = Good s -> NoDup (map exKey es).
Proof.
  intros ms es s H.
  assert (Hs : s = es) by (apply (each_app _ _ _ _ _ (addExchange_app ms)) in H; exact H).
  rewrite <- Hs. eapply (each_inv _ _ (fun s => NoDup (map exKey s))); [| | exact H].
  - intros a x b _ Ha Hb. pose proof (addExchange_app _ _ _ _ Hb) as ->.
    apply check_good in Hb as [_ Hb]. apply check_good in Hb as [Hb _]. apply negb_true_iff in Hb.
    rewrite map_app. apply nodup_snoc; [exact Ha |]. intros C. apply in_map_iff in C as (y & Hy & Iy).
    assert (existsb (sameExchange x) a = true); [| congruence].
    apply existsb_exists. exists y. split; [exact Iy |]. apply sameExchange_iff. auto.
  - constructor.
Qed.

Lemma exchanges_have : forall ms es s e, each (addExchange ms) es [] = Good s -> In e es ->
  hasData ms (e_mesh e) (e_data e) = true.
Proof.
  intros ms es s e H He.
  destruct (each_app_at _ _ _ _ _ (addExchange_app ms) H He) as (pre & post & b & _ & Hb).
  now apply check_good in Hb as [Hb _].
Qed.

(** ** What a scheme sends and receives *)

Lemma toward_store : forall ids p q n maps,
  toward p (store ids q n maps) = if q =? p then emplace ids n (toward p maps) else toward p maps.
Proof.
  intros ids p q n maps. induction maps as [| [k l] maps IH]; cbn.
  - destruct (q =? p); reflexivity.
  - destruct (Nat.eqb_spec k q) as [-> | Hk]; cbn.
    + destruct (Nat.eqb_spec q p); reflexivity.
    + destruct (Nat.eqb_spec k p) as [-> | Hkp].
      * destruct (Nat.eqb_spec q p); [congruence | reflexivity].
      * exact IH.
Qed.

Lemma holds_iff : forall f l, holds f l = true <-> In f (map n_field l).
Proof.
  intros f l. unfold holds. rewrite existsb_exists, in_map_iff. split.
  - intros (o & Ho & E). apply same2_iff in E. eauto.
  - intros (o & E & Ho). exists o. split; [exact Ho | now apply same2_iff].
Qed.

Lemma holds_no : forall f l, holds f l = false <-> ~ In f (map n_field l).
Proof. intros f l. rewrite <- holds_iff. destruct (holds f l); intuition congruence. Qed.

Lemma insert_in : forall ids n l x, In x (insert ids n l) <-> x = n \/ In x l.
Proof.
  intros ids n l x. induction l as [| o l IH]; cbn [insert In].
  - split; intros [H | []]; auto.
  - destruct (position (n_field n) ids <? position (n_field o) ids); cbn [In].
    + split; intros [H | H]; auto.
    + rewrite IH. tauto.
Qed.

Lemma insert_nodup : forall ids n l, ~ In (n_field n) (map n_field l) ->
  NoDup (map n_field l) -> NoDup (map n_field (insert ids n l)).
Proof.
  intros ids n l. induction l as [| o l IH]; intros Hn H; cbn [insert].
  - repeat constructor. easy.
  - destruct (position (n_field n) ids <? position (n_field o) ids); cbn [map]; [now constructor |]. cbn [map In] in *. inversion H as [| a k Ha Hk]; subst.
    constructor; [| apply IH; auto].
    intros C. apply in_map_iff in C as (x & Ex & Ix). apply insert_in in Ix as [-> | Ix].
    + apply Hn. now left.
    + apply Ha. rewrite <- Ex. now apply in_map.
Qed.

Lemma emplace_nodup : forall ids n l, NoDup (map n_field l) -> NoDup (map n_field (emplace ids n l)).
Proof.
  intros ids n l H. unfold emplace. destruct (holds (n_field n) l) eqn:E; [exact H |].
  apply holds_no in E. now apply insert_nodup.
Qed.

Lemma emplace_field : forall ids n l f,
  In f (map n_field (emplace ids n l)) <-> f = n_field n \/ In f (map n_field l).
Proof.
  intros ids n l f. unfold emplace. destruct (holds (n_field n) l) eqn:E.
  - apply holds_iff in E. split; [auto |]. intros [-> | H]; auto.
  - rewrite !in_map_iff. split.
    + intros (x & <- & Hx). apply insert_in in Hx as [-> | Hx]; eauto.
    + intros [-> | (x & <- & Hx)]; [exists n | exists x]; rewrite insert_in; auto.
Qed.

(** Messages do not depend on the direction. *)
Lemma insert_message : forall ids n n' l l', message n = message n' ->
  map message l = map message l' ->
  map message (insert ids n l) = map message (insert ids n' l').
Proof.
  intros ids n n' l. induction l as [| o l IH]; intros [| o' l'] Hn H; cbn [insert map] in *; try discriminate.
  - now rewrite Hn.
  - assert (Ho : message o = message o') by congruence.
    assert (Hl : map message l = map message l') by congruence.
    assert (En : n_field n = n_field n') by (unfold message in Hn; congruence).
    assert (Eo : n_field o = n_field o') by (unfold message in Ho; congruence).
    rewrite En, Eo. destruct (position (n_field n') ids <? position (n_field o') ids); cbn [map].
    + now rewrite Hn, Ho, Hl.
    + rewrite Ho. f_equal. now apply IH.
Qed.

Lemma holds_message : forall f l l', map message l = map message l' -> holds f l = holds f l'.
Proof.
  intros f l. induction l as [| o l IH]; intros [| o' l'] H; cbn [map holds existsb] in *; try discriminate; [reflexivity |].
  assert (Ho : message o = message o') by congruence.
  assert (Hl : map message l = map message l') by congruence.
  assert (Eo : n_field o = n_field o') by (unfold message in Ho; congruence).
  unfold holds in *. cbn [existsb]. rewrite Eo. f_equal. now apply IH.
Qed.

Lemma emplace_message : forall ids n n' l l', message n = message n' ->
  map message l = map message l' ->
  map message (emplace ids n l) = map message (emplace ids n' l').
Proof.
  intros ids n n' l l' Hn H. unfold emplace.
  assert (n_field n = n_field n') as <- by (unfold message in Hn; congruence).
  rewrite <- (holds_message _ _ _ H). destruct (holds (n_field n) l); [exact H |].
  now apply insert_message.
Qed.

Definition entryOf (s : bool) (e : exchange) : entry :=
  Entry (e_mesh e, e_data e) s (e_initialize e) (e_substeps e).

(** The entries of the exchanges from [a] to [b]. *)
Definition wire (ids : list (nat * nat)) (s : bool) (a b : nat) (l : list entry) (e : exchange)
  : list entry :=
  if (e_from e =? a) && (e_to e =? b) then emplace ids (entryOf s e) l else l.

Lemma wire_message : forall ids a b es l l', map message l = map message l' ->
  map message (fold_left (wire ids true a b) es l) = map message (fold_left (wire ids false a b) es l').
Proof.
  intros ids a b es. induction es as [| e es IH]; intros l l' H; cbn; [exact H |].
  apply IH. unfold wire. destruct (_ && _); [| exact H]. now apply emplace_message.
Qed.

Lemma wire_nodup : forall ids s a b es l, NoDup (map n_field l) ->
  NoDup (map n_field (fold_left (wire ids s a b) es l)).
Proof.
  intros ids s a b es. induction es as [| e es IH]; intros l H; cbn; [exact H |].
  apply IH. unfold wire. destruct (_ && _); [now apply emplace_nodup | exact H].
Qed.

Lemma wire_in : forall ids s a b es l x, NoDup (map exKey es) ->
  (forall e, In e es -> e_from e = a -> e_to e = b -> ~ In (e_mesh e, e_data e) (map n_field l)) ->
  (In x (map message (fold_left (wire ids s a b) es l)) <->
   In x (map message l) \/
   exists e, In e es /\ e_from e = a /\ e_to e = b /\
             x = (e_mesh e, e_data e, e_initialize e, e_substeps e)).
Proof.
  intros ids s a b es. induction es as [| e es IH]; intros l x Hn Hl; cbn [fold_left].
  - split; [auto |]. intros [H | (e & [] & _)]. exact H.
  - cbn in Hn. inversion Hn as [| y k Hy Hk]; subst.
    assert (step : forall l', (forall y, In y (map n_field l') <->
                     In y (map n_field l) \/ (e_from e = a /\ e_to e = b /\ y = (e_mesh e, e_data e))) ->
        forall e', In e' es -> e_from e' = a -> e_to e' = b -> ~ In (e_mesh e', e_data e') (map n_field l')).
    { intros l' Hl' e' He' Ha Hb C. apply Hl' in C as [C | (C1 & C2 & C3)].
      - revert C. apply Hl; auto. now right.
      - apply Hy. apply in_map_iff. exists e'. split; [| exact He']. unfold exKey. congruence. }
    assert (W : wire ids s a b l e = if (e_from e =? a) && (e_to e =? b)
                  then emplace ids (entryOf s e) l else l) by reflexivity.
    rewrite W. clear W. destruct ((e_from e =? a) && (e_to e =? b)) eqn:E.
    + apply andb_true_iff in E as [E1 E2]. apply Nat.eqb_eq in E1, E2.
      assert (Hf : ~ In (e_mesh e, e_data e) (map n_field l)) by (apply Hl; auto; now left).
      rewrite IH; [| exact Hk |].
      2:{ apply step. intros y. rewrite emplace_field. cbn [n_field entryOf]. intuition congruence. }
      unfold emplace. change (n_field (entryOf s e)) with (e_mesh e, e_data e). rewrite (proj2 (holds_no _ _) Hf).
      assert (In x (map message (insert ids (entryOf s e) l)) <->
              x = message (entryOf s e) \/ In x (map message l)) as ->.
      { rewrite !in_map_iff. split.
        - intros (o & <- & Ho). apply insert_in in Ho as [-> | Ho]; eauto.
        - intros [-> | (o & <- & Ho)]; [exists (entryOf s e) | exists o]; rewrite insert_in; auto. }
      unfold message. cbn. split.
      * intros [[H | H] | (e' & He' & H)]; [| now left |].
        -- right. exists e. auto.
        -- right. exists e'. auto.
      * intros [H | (e' & [<- | He'] & H)]; [auto | left; left; apply H |]. right. exists e'. auto.
    + rewrite IH; [| exact Hk |].
      2:{ apply step. intros y. split; [auto |]. intros [H | (H1 & H2 & _)]; [exact H |].
          rewrite H1, H2, !Nat.eqb_refl in E. discriminate. }
      cbn [In]. split.
      * intros [H | (e' & He' & H)]; [auto |]. right. exists e'. auto.
      * intros [H | (e' & [<- | He'] & H)]; [auto | |].
        -- destruct H as (H1 & H2 & _). rewrite H1, H2, !Nat.eqb_refl in E. discriminate.
        -- right. exists e'. auto.
Qed.

(** One exchange. *)
Lemma exchange_step : forall k mem h e h', addDataToBeExchanged k mem h e = Good h' ->
  e_to e <> e_from e /\ In (e_from e) mem /\ In (e_to e) mem /\
  h_owner h' = h_owner h /\ h_kind h' = h_kind h /\ h_connections h' = h_connections h /\
  (forall p, toward p (h_sends h') = wire (fieldsOf (k_meshes k)) true (h_owner h) p (toward p (h_sends h)) e) /\
  (forall p, toward p (h_receives h') = wire (fieldsOf (k_meshes k)) false p (h_owner h) (toward p (h_receives h)) e) /\
  ((e_from e = h_owner h /\ addEntry (h_all h) (entryOf true e) = Good (h_all h')) \/
   (e_to e = h_owner h /\ addEntry (h_all h) (entryOf false e) = Good (h_all h')) \/
   (e_from e <> h_owner h /\ e_to e <> h_owner h /\ h_all h' = h_all h)).
Proof.
  intros k mem h e h' H. unfold addDataToBeExchanged in H.
  apply check_good in H as [H1 H]. apply negb_true_iff, Nat.eqb_neq in H1.
  apply check_good in H as [H2 H]. apply isIn_iff in H2.
  apply check_good in H as [H3 H]. apply isIn_iff in H3.
  apply check_good in H as [_ H].
  destruct (Nat.eqb_spec (e_from e) (h_owner h)) as [E | E].
  - apply bind_good in H as (all & Ha & H). apply check_good in H as [_ H]. inversion H; subst h'.
    cbn [h_owner h_kind h_connections h_sends h_receives h_all].
    repeat (split; [assumption || reflexivity |]). split; [| split].
    + intros p. rewrite toward_store. unfold wire. rewrite <- E, Nat.eqb_refl. reflexivity.
    + intros p. unfold wire. destruct (Nat.eqb_spec (e_to e) (h_owner h)) as [F | F]; [congruence |].
      now rewrite andb_false_r.
    + left. auto.
  - destruct (Nat.eqb_spec (e_to e) (h_owner h)) as [F | F].
    + apply check_good in H as [_ H]. apply bind_good in H as (all & Ha & H).
      apply check_good in H as [_ H]. inversion H; subst h'.
      cbn [h_owner h_kind h_connections h_sends h_receives h_all].
      repeat (split; [assumption || reflexivity |]). split; [| split].
      * intros p. unfold wire. destruct (Nat.eqb_spec (e_from e) (h_owner h)) as [G | G]; [congruence |].
        reflexivity.
      * intros p. rewrite toward_store. unfold wire. rewrite F, Nat.eqb_refl, andb_true_r. reflexivity.
      * right; left. auto.
    + inversion H; subst h'. repeat (split; [assumption || reflexivity |]). split; [| split].
      * intros p. unfold wire. destruct (Nat.eqb_spec (e_from e) (h_owner h)) as [G | G]; [congruence |].
        reflexivity.
      * intros p. unfold wire. destruct (Nat.eqb_spec (e_to e) (h_owner h)) as [G | G]; [congruence |].
        now rewrite andb_false_r.
      * right; right. auto.
Qed.

Lemma exchanges_all : forall k mem es h h', each (addDataToBeExchanged k mem) es h = Good h' ->
  (forall e, In e es -> e_to e <> e_from e /\ In (e_from e) mem /\ In (e_to e) mem) /\
  h_owner h' = h_owner h /\ h_kind h' = h_kind h /\ h_connections h' = h_connections h /\
  (forall p, toward p (h_sends h') =
     fold_left (wire (fieldsOf (k_meshes k)) true (h_owner h) p) es (toward p (h_sends h))) /\
  (forall p, toward p (h_receives h') =
     fold_left (wire (fieldsOf (k_meshes k)) false p (h_owner h)) es (toward p (h_receives h))).
Proof.
  intros k mem es. induction es as [| e es IH]; intros h h' H; cbn in H.
  - inversion H; subst. repeat split; auto; easy.
  - apply bind_good in H as (b & H1 & H2).
    destruct (exchange_step _ _ _ _ _ H1) as (A1 & A2 & A3 & B1 & B2 & B3 & C1 & C2 & _).
    destruct (IH _ _ H2) as (I1 & J1 & J2 & J3 & K1 & K2).
    split; [| repeat split; try congruence].
    + intros x [<- | Hx]; auto.
    + intros p. rewrite K1, C1, B1. reflexivity.
    + intros p. rewrite K2, C2, B1. reflexivity.
Qed.

(** ** No data goes both ways or comes from two *)

Definition Tidy (h : scheme) : Prop :=
  (forall p f, In f (map n_field (toward p (h_sends h))) ->
     exists o, In o (h_all h) /\ n_field o = f /\ n_sends o = true) /\
  (forall p f, In f (map n_field (toward p (h_receives h))) ->
     exists o, In o (h_all h) /\ n_field o = f /\ n_sends o = false) /\
  NoDup (map n_field (h_all h)) /\
  (forall p q f, In f (map n_field (toward p (h_receives h))) ->
     In f (map n_field (toward q (h_receives h))) -> p = q).

Lemma addEntry_good : forall all n all', addEntry all n = Good all' ->
  (~ In (n_field n) (map n_field all) /\ all' = all ++ [n]) \/
  (all' = all /\ n_sends n = true /\ exists o, In o all /\ n_field o = n_field n /\ n_sends o = true).
Proof.
  intros all n all' H. unfold addEntry in H.
  destruct (find (fun o => same2 (n_field o) (n_field n)) all) as [o |] eqn:E.
  - right. apply find_some in E as [E1 E2]. apply same2_iff in E2.
    apply check_good in H as [H1 H]. apply check_good in H as [H2 H].
    do 2 apply check_good in H as [_ H]. inversion H; subst all'. apply eqb_prop in H1.
    split; [reflexivity | split; [exact H2 |]]. exists o. split; [exact E1 | split; [exact E2 | congruence]].
  - left. inversion H. split; [| reflexivity]. intros C. apply in_map_iff in C as (o & Eo & Io).
    pose proof (find_none _ _ E _ Io) as N. cbn in N. apply same2_no in N. easy.
Qed.

Lemma wire_field : forall ids s a b l e f,
  In f (map n_field (wire ids s a b l e)) <->
  In f (map n_field l) \/ (e_from e = a /\ e_to e = b /\ f = (e_mesh e, e_data e)).
Proof.
  intros ids s a b l e f. unfold wire. destruct ((e_from e =? a) && (e_to e =? b)) eqn:E.
  - apply andb_true_iff in E as [E1 E2]. apply Nat.eqb_eq in E1, E2.
    rewrite emplace_field. cbn. intuition congruence.
  - split; [auto |]. intros [H | (H1 & H2 & _)]; [exact H |].
    rewrite H1, H2, !Nat.eqb_refl in E. discriminate.
Qed.

Lemma tidy_step : forall k mem h e h', addDataToBeExchanged k mem h e = Good h' -> Tidy h -> Tidy h'.
Proof.
  intros k mem h e h' H (T1 & T2 & T3 & T4).
  destruct (exchange_step _ _ _ _ _ H) as (A1 & A2 & A3 & B1 & B2 & B3 & C1 & C2 & D).
  assert (same : forall o o', In o (h_all h) -> In o' (h_all h) -> n_field o = n_field o' -> o = o').
  { intros o o'. apply nodup_eq. exact T3. }
  destruct D as [(D1 & D2) | [(D1 & D2) | (D1 & D2 & D3)]].
  - assert (all : NoDup (map n_field (h_all h'))).
    { apply addEntry_good in D2 as [(N & ->) | (-> & _)]; [| exact T3].
      rewrite map_app. now apply nodup_snoc. }
    assert (old : forall o, In o (h_all h) -> In o (h_all h')).
    { intros o Ho. apply addEntry_good in D2 as [(N & ->) | (-> & _)]; auto. apply in_app_iff. auto. }
    assert (new : exists o, In o (h_all h') /\ n_field o = (e_mesh e, e_data e) /\ n_sends o = true).
    { apply addEntry_good in D2 as [(N & ->) | (-> & _ & o & Ho & Eo & So)].
      - exists (entryOf true e). split; [apply in_elt | auto].
      - exists o. auto. }
    split; [| split; [| split; [exact all |]]].
    + intros p f Hf. rewrite C1 in Hf. apply wire_field in Hf as [Hf | (_ & _ & ->)]; [| exact new].
      destruct (T1 p f Hf) as (o & Ho & X). exists o. auto.
    + intros p f Hf. rewrite C2 in Hf. apply wire_field in Hf as [Hf | (_ & F & _)]; [| congruence].
      destruct (T2 p f Hf) as (o & Ho & X). exists o. auto.
    + intros p q f Hp Hq. rewrite C2 in Hp, Hq.
      apply wire_field in Hp as [Hp | (_ & F & _)]; [| congruence].
      apply wire_field in Hq as [Hq | (_ & F & _)]; [| congruence]. eauto.
  - apply addEntry_good in D2 as [(N & E) | (_ & C & _)]; [| discriminate].
    cbn [n_field entryOf] in N.
    assert (N' : forall p, ~ In (e_mesh e, e_data e) (map n_field (toward p (h_receives h)))).
    { intros p C. destruct (T2 p _ C) as (o & Ho & Eo & _). apply N. rewrite <- Eo. now apply in_map. }
    split; [| split; [| split]].
    + intros p f Hf. rewrite C1 in Hf. apply wire_field in Hf as [Hf | (F & _)]; [| congruence].
      destruct (T1 p f Hf) as (o & Ho & X). exists o. rewrite E, in_app_iff. auto.
    + intros p f Hf. rewrite C2 in Hf. apply wire_field in Hf as [Hf | (_ & _ & ->)].
      * destruct (T2 p f Hf) as (o & Ho & X). exists o. rewrite E, in_app_iff. auto.
      * exists (entryOf false e). rewrite E. split; [apply in_elt | auto].
    + rewrite E, map_app. now apply nodup_snoc.
    + intros p q f Hp Hq. rewrite C2 in Hp, Hq.
      apply wire_field in Hp as [Hp | (P1 & P2 & P3)];
        apply wire_field in Hq as [Hq | (Q1 & Q2 & Q3)]; subst; eauto.
      * exfalso. eapply N', Hp.
      * exfalso. eapply N', Hq.
  - split; [| split; [| split]].
    + intros p f Hf. rewrite C1 in Hf. apply wire_field in Hf as [Hf | (F & _)]; [| congruence].
      rewrite D3. eauto.
    + intros p f Hf. rewrite C2 in Hf. apply wire_field in Hf as [Hf | (_ & F & _)]; [| congruence].
      rewrite D3. eauto.
    + now rewrite D3.
    + intros p q f Hp Hq. rewrite C2 in Hp, Hq.
      apply wire_field in Hp as [Hp | (_ & F & _)]; [| congruence].
      apply wire_field in Hq as [Hq | (_ & F & _)]; [| congruence]. eauto.
Qed.

Lemma tidy_all : forall k mem es h h', each (addDataToBeExchanged k mem) es h = Good h' ->
  Tidy h -> Tidy h'.
Proof.
  intros k mem es h h' H Hh. eapply (each_inv _ _ Tidy); [| exact Hh | exact H].
  intros a x b _ Ha Hb. eapply tidy_step; eauto.
Qed.

(** What the owner takes part in is among its data. *)
Lemma known_all : forall k mem es h h' e, each (addDataToBeExchanged k mem) es h = Good h' ->
  In e es -> e_from e = h_owner h \/ e_to e = h_owner h ->
  holds (e_mesh e, e_data e) (h_all h') = true.
Proof.
  intros k mem es. induction es as [| x es IH]; intros h h' e H He Ho; [easy |]. cbn in H.
  apply bind_good in H as (b & H1 & H2).
  destruct (exchange_step _ _ _ _ _ H1) as (A1 & A2 & A3 & B1 & B2 & B3 & C1 & C2 & D).
  destruct He as [<- | He]; [| eapply IH; eauto; congruence].
  assert (Hb : In (e_mesh x, e_data x) (map n_field (h_all b))).
  { destruct D as [(D1 & D2) | [(D1 & D2) | (D1 & D2 & D3)]].
    - apply addEntry_good in D2 as [(N & ->) | (-> & _ & o & Io & Eo & _)].
      + rewrite map_app, in_app_iff. right. now left.
      + apply in_map_iff. eauto.
    - apply addEntry_good in D2 as [(N & ->) | (-> & _ & o & Io & Eo & _)].
      + rewrite map_app, in_app_iff. right. now left.
      + apply in_map_iff. eauto.
    - destruct Ho; contradiction. }
  apply holds_iff.
  refine (each_inv _ _ (fun s => In (e_mesh x, e_data x) (map n_field (h_all s))) _ _ _ _ _ Hb H2).
  intros s y s' _ Hs Hy.
  destruct (exchange_step _ _ _ _ _ Hy) as (_ & _ & _ & _ & _ & _ & _ & _ & D').
  destruct D' as [(D1 & D2) | [(D1 & D2) | (D1 & D2 & D3)]].
  - apply addEntry_good in D2 as [(N & ->) | (-> & _)]; auto. rewrite map_app, in_app_iff. auto.
  - apply addEntry_good in D2 as [(N & ->) | (-> & _)]; auto. rewrite map_app, in_app_iff. auto.
  - now rewrite D3.
Qed.

Lemma addData_not_broken : forall k mem h e, addDataToBeExchanged k mem h e <> Broken.
Proof.
  intros k mem h e H. unfold addDataToBeExchanged in H.
  do 4 apply check_broken in H as [_ H].
  assert (NB : forall all n, addEntry all n <> Broken).
  { intros all n N. unfold addEntry in N. destruct (find _ _); [| discriminate].
    do 4 apply check_broken in N as [_ N]. discriminate. }
  destruct (e_from e =? h_owner h).
  - apply bind_broken in H as [H | (a & _ & H)]; [now apply NB in H |].
    apply check_broken in H as [_ H]. discriminate.
  - destruct (e_to e =? h_owner h); [| discriminate]. apply check_broken in H as [_ H].
    apply bind_broken in H as [H | (a & _ & H)]; [now apply NB in H |].
    apply check_broken in H as [_ H]. discriminate.
Qed.
