From Coq Require Import Bool List String Arith Lia.
From Verif Require Import M_Xml S_Xml.
Import ListNotations.
Open Scope nat_scope.
Open Scope list_scope.

Lemma elem_induction (P : elem -> Prop) : (forall n a cs, Forall P cs -> P (Elem n a cs)) -> forall e, P e.
Proof.
  intros H. fix IH 1. intros [n a cs]. apply H. induction cs as [|c cs IHcs]; constructor; [apply IH|exact IHcs].
Qed.

Lemma NoDup_app_one {A} (l : list A) x : NoDup l -> ~ In x l -> NoDup (l ++ [x]).
Proof. intros N H. apply NoDup_Add with (a := x) (l := l); [|split; assumption]. rewrite <- (app_nil_r l) at 1. apply Add_app. Qed.

(** * The tree *)
Lemma build_elem : forall e r o up, build (sax_of e ++ r) (o :: up) = build r (Elem (el_name o) (el_attrs o) (e :: el_children o) :: up).
Proof.
  induction e as [n a cs IH] using elem_induction. intros r o up. cbn [sax_of el_name el_attrs el_children app build]. rewrite <- app_assoc. cbn [app].
  assert (G : forall l acc, Forall (fun e => forall r o up, build (sax_of e ++ r) (o :: up) = build r (Elem (el_name o) (el_attrs o) (e :: el_children o) :: up)) l ->
     build (flat_map sax_of l ++ SClose :: r) (Elem n a acc :: o :: up) = build r (Elem (el_name o) (el_attrs o) (Elem n a (rev acc ++ l) :: el_children o) :: up)).
  { clear. induction l as [|c l IHl]; intros acc F; cbn [flat_map app].
    - cbn [build el_name el_attrs el_children]. rewrite app_nil_r. reflexivity.
    - inversion F as [|? ? F1 F2]; subst. rewrite <- app_assoc, F1. cbn [el_name el_attrs el_children]. rewrite IHl by exact F2. cbn [rev]. rewrite <- app_assoc. reflexivity. }
  rewrite (G cs [] IH). reflexivity.
Qed.
Lemma build_root e : build (sax_of e) [] = Some e.
Proof.
  destruct e as [n a cs]. cbn [sax_of el_name el_attrs el_children build].
  assert (G : forall l acc, build (flat_map sax_of l ++ [SClose]) [Elem n a acc] = Some (Elem n a (rev acc ++ l))).
  { clear. induction l as [|c l IHl]; intros acc; cbn [flat_map app].
    - cbn. rewrite app_nil_r. reflexivity.
    - rewrite <- app_assoc, build_elem. cbn [el_name el_attrs el_children]. rewrite IHl. cbn [rev]. rewrite <- app_assoc. reflexivity. }
  apply (G cs []).
Qed.

(** the events that led to the open elements *)
Definition prefix (open : list elem) : list sax := flat_map (fun o => SOpen (el_name o) (el_attrs o) :: flat_map sax_of (rev (el_children o))) (rev open).
Lemma prefix_cons o open : prefix (o :: open) = prefix open ++ SOpen (el_name o) (el_attrs o) :: flat_map sax_of (rev (el_children o)).
Proof. unfold prefix. cbn [rev]. rewrite flat_map_app. cbn [flat_map]. rewrite app_nil_r. reflexivity. Qed.
Lemma build_sound : forall evs open e, build evs open = Some e -> prefix open ++ filter not_text evs = sax_of e /\ exists evs0, evs = evs0 ++ [SClose].
Proof.
  induction evs as [|s evs IH]; intros open e H; [discriminate H|]. destruct s as [n a| |x].
  - cbn [build] in H. apply IH in H as [H (l & ->)]. split; [|exists (SOpen n a :: l); reflexivity]. rewrite prefix_cons in H. cbn [el_name el_attrs el_children rev flat_map] in H. rewrite <- app_assoc in H. exact H.
  - destruct open as [|o [|p up]]; cbn [build] in H; [discriminate H| |].
    + destruct evs; [|discriminate H]. injection H as <-. split; [|exists []; reflexivity]. unfold prefix. cbn. rewrite app_nil_r. reflexivity.
    + apply IH in H as [H (l & ->)]. split; [|exists (SClose :: l); reflexivity]. rewrite <- H, !prefix_cons. cbn [el_name el_attrs el_children rev filter not_text]. rewrite flat_map_app. cbn [flat_map sax_of el_name el_attrs el_children]. rewrite app_nil_r. rewrite <- !app_assoc. cbn [app]. rewrite <- !app_assoc. cbn [app]. rewrite <- !app_assoc. reflexivity.
  - cbn [build] in H. apply IH in H as [H (l & ->)]. split; [exact H|exists (SText x :: l); reflexivity].
Qed.
Lemma build_text : forall evs open, (exists l, evs = l ++ [SClose]) -> build evs open = build (filter not_text evs) open.
Proof.
  induction evs as [|s evs IH]; intros open (l & E); [destruct l; discriminate E|]. destruct l as [|x l]; cbn [app] in E; injection E as -> E.
  - subst. reflexivity.
  - assert (G : exists l, evs = l ++ [SClose]) by (exists l; exact E). destruct x as [n a| |t]; cbn [filter not_text build].
    + apply IH, G.
    + destruct open as [|o [|p up]]; [reflexivity| |apply IH, G].
      assert (K : filter not_text evs <> []) by (destruct G as (l' & ->); rewrite filter_app; cbn; destruct (filter not_text l'); discriminate).
      destruct evs as [|y evs]; [destruct l; discriminate E|]. destruct (filter not_text (y :: evs)); [congruence|reflexivity].
    + apply IH, G.
Qed.

Section P.
Context {V : Type}.
Variable veqb : V -> V -> bool.
Hypothesis veqb_ok : forall x y, veqb x y = true <-> x = y.
Variable fine : string -> Prop.
Notation tag := (tag (V:=V)).
Notation attribute := (attribute (V:=V)).
Notation event := (event (V:=V)).
Notation same := (same_definition (V:=V)).
Notation defined := (defined (V:=V) fine).
Notation texts := (texts fine).

Lemma tag_induction (P : tag -> Prop) : (forall n s o a c f subs, Forall P subs -> P (Tag n s o a c f subs)) -> forall t, P t.
Proof. intros H. fix IH 1. intros [n s o a c f subs]. apply H. induction subs as [|d subs IHs]; constructor; [apply IH|exact IHs]. Qed.

(** * The same definition *)
Lemma F2_refl {A} (R : A -> A -> Prop) l : (forall x, In x l -> R x x) -> Forall2 R l l.
Proof. induction l; intros H; constructor; [apply H; left; reflexivity|apply IHl; intros; apply H; right; assumption]. Qed.
Lemma same_attr_refl (a : attribute) : same_attribute a a. Proof. repeat split. Qed.
Lemma same_refl t : same t t.
Proof. induction t as [n s o a c f subs IH] using tag_induction. constructor; try reflexivity; cbn; [apply F2_refl; intros; apply same_attr_refl|]. apply F2_refl. rewrite Forall_forall in IH. exact IH. Qed.
Lemma same_sym : forall t u, same t u -> same u t.
Proof.
  induction t as [n s o a c f subs IH] using tag_induction. intros u H. inversion H as [? ? H1 H2 H3 H4 H5]; subst. constructor; auto.
  - clear -H4. induction H4 as [|x y l r (A & B & C & D) H4 IHr]; constructor; [repeat split; congruence|exact IHr].
  - cbn [tg_subtags] in H5. clear -H5 IH. induction H5 as [|x y l r H5 H IHr]; constructor; inversion IH; subst; auto.
Qed.
Lemma F2_trans {A} (R : A -> A -> Prop) : forall a b c, (forall x y z, In x a -> R x y -> R y z -> R x z) -> Forall2 R a b -> Forall2 R b c -> Forall2 R a c.
Proof.
  intros a b c H H1. revert c H. induction H1 as [|x y l r Hxy H1 IH]; intros c H H2; inversion H2 as [|? z ? c' Hyz H2']; subst; constructor.
  - eapply H; [left; reflexivity|exact Hxy|exact Hyz].
  - apply IH; [intros; eapply H; eauto; right; assumption|exact H2'].
Qed.
Lemma same_trans : forall t u v, same t u -> same u v -> same t v.
Proof.
  induction t as [n s o a c f subs IH] using tag_induction. intros u v H1 H2. inversion H1 as [? ? A1 A2 A3 A4 A5]; inversion H2 as [? ? B1 B2 B3 B4 B5]; subst. constructor; try congruence.
  - eapply F2_trans; [|exact A4|exact B4]. intros x y z _ (C1 & C2 & C3 & C4) (D1 & D2 & D3 & D4). repeat split; congruence.
  - eapply F2_trans; [|exact A5|exact B5]. rewrite Forall_forall in IH. intros x y z Hx Hy Hz. eapply IH; eauto.
Qed.
Lemma F2_in_l {A B} (R : A -> B -> Prop) l r x : Forall2 R l r -> In x l -> exists y, In y r /\ R x y.
Proof. induction 1 as [|a b l r H F IH]; [intros []|]. intros [<-|Hx]; [exists b; split; [left; reflexivity|exact H]|]. destruct (IH Hx) as (y & Hy & Hr). exists y. split; [right; exact Hy|exact Hr]. Qed.
Lemma F2_in_r {A B} (R : A -> B -> Prop) l r y : Forall2 R l r -> In y r -> exists x, In x l /\ R x y.
Proof. induction 1 as [|a b l r H F IH]; [intros []|]. intros [<-|Hx]; [exists a; split; [left; reflexivity|exact H]|]. destruct (IH Hx) as (z & Hz & Hr). exists z. split; [right; exact Hz|exact Hr]. Qed.
Lemma F2_map {A B C} (f : A -> C) (g : B -> C) l r : Forall2 (fun x y => f x = g y) l r -> map f l = map g r.
Proof. induction 1; cbn; congruence. Qed.
Lemma F2_imp {A B} (R S : A -> B -> Prop) l r : (forall x y, In x l -> In y r -> R x y -> S x y) -> Forall2 R l r -> Forall2 S l r.
Proof. intros H F. induction F as [|x y l r Hxy F IH]; constructor; [apply H; [left; reflexivity|left; reflexivity|exact Hxy]|]. apply IH. intros a b Ha Hb. apply H; right; assumption. Qed.

Lemma same_name t u : same t u -> tg_name t = tg_name u. Proof. inversion 1; congruence. Qed.
Lemma same_names l r : Forall2 same l r -> map tg_name l = map tg_name r.
Proof. intros F. apply F2_map. eapply F2_imp; [|exact F]. intros; apply same_name; assumption. Qed.

(** fits only depends on the definition *)
Lemma fits_same : forall e t u tr, same t u -> fits t e tr -> fits u e tr.
Proof.
  induction e as [n a cs IH] using elem_induction. intros t u tr S H. inversion H as [? ? values trs H1 H2 H3 H4 H5 H6]; subst. inversion S as [? ? S1 S2 S3 S4 S5]; subst.
  assert (Na : map at_name (tg_attrs t) = map at_name (tg_attrs u)) by (apply F2_map; eapply F2_imp; [|exact S4]; intros ? ? _ _ (A & _); exact A).
  rewrite S1, Na. apply fits_intro.
  - congruence.
  - exact H2.
  - intros k raw Hk. destruct (H3 k raw Hk) as (x & Hx & E). destruct (F2_in_l _ _ _ _ S4 Hx) as (y & Hy & (A & _)). exists y. split; [exact Hy|congruence].
  - clear -H4 S4. revert values H4. induction S4 as [|x y l r (A & B & C & D) S4 IHr]; intros values H4; inversion H4 as [|? v ? vs Hv Hvs]; subst; constructor; [|apply IHr; exact Hvs].
    unfold gets in *. rewrite <- A, <- B, <- C, <- D. exact Hv.
  - cbn [el_children] in *. eapply F2_imp; [|exact H5]. intros c tr Hc _ (d & Hd & Fd). destruct (F2_in_l _ _ _ _ S5 Hd) as (d' & Hd' & Sd). exists d'. split; [exact Hd'|]. rewrite Forall_forall in IH. exact (IH c Hc d d' tr Sd Fd).
  - intros d' Hd'. destruct (F2_in_r _ _ _ _ S5 Hd') as (d & Hd & Sd). specialize (H6 d Hd). inversion Sd as [? ? E1 _ E3 _ _]; subst. rewrite <- E1, <- E3. exact H6.
Qed.

(** * Resetting *)
Lemma reset_same t : same t (resetAttributes t).
Proof.
  induction t as [n s o a c f subs IH] using tag_induction. constructor; try reflexivity; cbn; [apply F2_refl; intros; apply same_attr_refl|].
  induction subs as [|d subs IHs]; cbn; constructor; inversion IH; subst; auto.
Qed.
Lemma reset_keys (f : list (string * bool)) : map fst (map (fun p => (fst p, false)) f) = map fst f.
Proof. induction f as [|[k b] f IH]; cbn; [reflexivity|]. rewrite IH. reflexivity. Qed.
Lemma reset_defined t : defined t -> defined (resetAttributes t).
Proof.
  induction t as [n s o a c f subs IH] using tag_induction. intros H. inversion H as [? H1 H2 H3 H4 H5]; subst. cbn [tg_attrs tg_subtags tg_nsflags tg_ns] in *.
  assert (N : map tg_name (map resetAttributes subs) = map tg_name subs) by (rewrite map_map; apply map_ext; intros []; reflexivity).
  constructor; cbn [resetAttributes tg_attrs tg_subtags tg_nsflags tg_ns].
  - exact H1.
  - rewrite N. exact H2.
  - intros d Hd Nd. apply in_map_iff in Hd as (d0 & <- & Hd). rewrite reset_keys. destruct d0 as [n0 s0 o0 a0 c0 f0 u0]; cbn [resetAttributes tg_ns] in Nd |- *. apply H3 in Hd; [exact Hd|exact Nd].
  - intros d Hd R Nd. apply in_map_iff in Hd as (d0 & <- & Hd). apply H4 in Hd; destruct d0 as [n0 s0 o0 a0 c0 f0 u0]; assumption.
  - intros d Hd. apply in_map_iff in Hd as (d0 & <- & Hd). rewrite Forall_forall in IH. apply IH; [exact Hd|]. apply H5, Hd.
Qed.

(** * Attributes *)
Lemma traverse_ok {A B} (f : A -> outcome B) : forall l, match traverse f l with Ok bs => Forall2 (fun a b => f a = Ok b) l bs | Err _ => exists a e, In a l /\ f a = Err e end.
Proof.
  induction l as [|a l IH]; cbn [traverse]; [constructor|]. destruct (f a) as [b|e] eqn:Fa; cbn [andThen]; [|exists a, e; split; [left; reflexivity|exact Fa]].
  destruct (traverse f l) as [bs|e']; cbn [andThen]; [constructor; assumption|]. destruct IH as (x & e & Hx & E). exists x, e. split; [right; exact Hx|exact E].
Qed.
Lemma lookup_in {B} k (l : list (string * B)) b : lookup k l = Some b -> In (k, b) l.
Proof. induction l as [|[k' b'] l IH]; cbn; [discriminate|]. destruct (String.eqb_spec k' k) as [->|]; [intros H; injection H as ->; left; reflexivity|intros H; right; apply IH, H]. Qed.
Lemma lookup_some {B} k (l : list (string * B)) : In k (map fst l) -> exists b, lookup k l = Some b.
Proof. induction l as [|[k' b'] l IH]; cbn; [intros []|]. destruct (String.eqb_spec k' k); [eauto|]. intros [->|H]; [congruence|apply IH, H]. Qed.
Lemma readValue_ok given a : (forall n raw, In (n, raw) given -> fine raw) -> (forall raw old old', fine raw -> at_read a raw old = at_read a raw old') ->
  match readValue veqb given a with Ok a' => same_attribute a a' /\ gets given a (at_value a') | Err _ => forall v, ~ gets given a v end.
Proof.
  intros Fi St. unfold readValue, gets. destruct (lookup (at_name a) given) as [raw|] eqn:L.
  - apply lookup_in, Fi in L. destruct (at_read a raw (at_value a)) as [v|] eqn:Rd.
    + assert (Rv : forall old, at_read a raw old = Some v) by (intros old; rewrite (St raw old (at_value a) L); exact Rd).
      destruct (at_options a) as [os|] eqn:Op.
      * destruct (existsb (fun o => veqb o v) os) eqn:Ex.
        -- split; [repeat split|]. split; [exact Rv|]. apply existsb_exists in Ex as (o & Ho & E). apply veqb_ok in E. subst o. exact Ho.
        -- intros v' [Rv' Ho]. specialize (Rv' (at_value a)). rewrite Rd in Rv'. injection Rv' as <-. rewrite <- not_true_iff_false in Ex. apply Ex, existsb_exists. exists v. split; [exact Ho|apply veqb_ok; reflexivity].
      * split; [repeat split|]. split; [exact Rv|exact I].
    + intros v [Rv _]. rewrite Rv in Rd. discriminate Rd.
  - destruct (at_default a) as [v|]; [split; [repeat split|reflexivity]|]. intros v H. discriminate H.
Qed.
Lemma readAttributes_ok given t : (forall n raw, In (n, raw) given -> fine raw) -> (forall a raw old old', In a (tg_attrs t) -> fine raw -> at_read a raw old = at_read a raw old') ->
  match readAttributes veqb given t with
  | Ok t' => (forall n raw, In (n, raw) given -> exists a, In a (tg_attrs t) /\ at_name a = n) /\ Forall2 same_attribute (tg_attrs t) (tg_attrs t') /\ Forall2 (gets given) (tg_attrs t) (map at_value (tg_attrs t')) /\
      t' = Tag (tg_name t) (tg_ns t) (tg_occ t) (tg_attrs t') (tg_configured t) (tg_nsflags t) (tg_subtags t)
  | Err _ => ~ ((forall n raw, In (n, raw) given -> exists a, In a (tg_attrs t) /\ at_name a = n) /\ exists values, Forall2 (gets given) (tg_attrs t) values)
  end.
Proof.
  intros Fi St. unfold readAttributes. destruct (forallb (fun g => existsb (fun a => (at_name a =? fst g)%string) (tg_attrs t)) given) eqn:K.
  - pose proof (traverse_ok (readValue veqb given) (tg_attrs t)) as Tr. destruct (traverse (readValue veqb given) (tg_attrs t)) as [bs|e]; cbn [andThen].
    + split; [|split; [|split; [|reflexivity]]].
      * intros n raw H. rewrite forallb_forall in K. specialize (K _ H). apply existsb_exists in K as (a & Ha & E). apply String.eqb_eq in E. exists a. split; [exact Ha|exact E].
      * cbn [tg_attrs]. eapply F2_imp; [|exact Tr]. intros a b Ha _ E. pose proof (readValue_ok given a Fi (fun raw old old' => St a raw old old' Ha)) as R. rewrite E in R. apply R.
      * cbn [tg_attrs]. clear K. induction Tr as [|a b l r E Tr IH]; cbn; constructor.
        -- pose proof (readValue_ok given a Fi (fun raw old old' => St a raw old old' (or_introl eq_refl))) as R. rewrite E in R. apply R.
        -- apply IH. intros; apply St; [right|]; assumption.
    + destruct Tr as (a & e' & Ha & E). intros (_ & values & F). destruct (F2_in_l _ _ _ _ F Ha) as (v & _ & G). pose proof (readValue_ok given a Fi (fun raw old old' => St a raw old old' Ha)) as R. rewrite E in R. exact (R v G).
  - intros (H & _). rewrite <- not_true_iff_false in K. apply K. apply forallb_forall. intros [n raw] Hg. destruct (H n raw Hg) as (a & Ha & E). apply existsb_exists. exists a. split; [exact Ha|]. apply String.eqb_eq. exact E.
Qed.

(** * Required subtags *)
Lemma setFlag_keys k b (l : list (string * bool)) x : In x (map fst l) -> In x (map fst (setFlag k b l)).
Proof. induction l as [|[k' b'] l IH]; cbn; [intros []|]. destruct (String.eqb_spec k' k); cbn; tauto. Qed.
Lemma lookup_setFlag k k' b (l : list (string * bool)) : k' <> k -> lookup k' (setFlag k b l) = lookup k' l.
Proof.
  intros N. induction l as [|[x y] l IH]; cbn; [destruct (String.eqb_spec k k'); congruence|]. destruct (String.eqb_spec x k) as [->|]; cbn; [|rewrite IH; reflexivity].
  destruct (String.eqb_spec k k'); [congruence|reflexivity].
Qed.
Lemma lookup_reset k (l : list (string * bool)) b : lookup k (map (fun p => (fst p, false)) l) = Some b -> b = false.
Proof. induction l as [|[x y] l IH]; cbn; [discriminate|]. destruct (x =? k)%string; [congruence|exact IH]. Qed.
Lemma allConfigured_ok flags ns (subs : list tag) : (forall d, In d subs -> tg_ns d <> ""%string -> In (tg_ns d) (map fst flags)) ->
  (forall d, In d subs -> required d = true -> tg_ns d <> ""%string -> tg_ns d <> ns) ->
  (forall k b, k <> ns -> lookup k flags = Some b -> b = false) ->
  match allConfigured flags subs with Ok _ => forall d, In d subs -> required d = true -> tg_configured d = true | Err _ => exists d, In d subs /\ required d = true /\ tg_configured d = false end.
Proof.
  intros H1 H2 H3. induction subs as [|d subs IH]; cbn [allConfigured]; [intros d []|].
  assert (IH' := IH (fun x Hx => H1 x (or_intror Hx)) (fun x Hx => H2 x (or_intror Hx))). clear IH.
  assert (G : exists c, (if (tg_ns d =? "")%string then Ok (tg_configured d) else match lookup (tg_ns d) flags with Some b => Ok (tg_configured d || b) | None => Err Assertion end) = Ok c /\ (required d = true -> c = tg_configured d)).
  { destruct (String.eqb_spec (tg_ns d) "") as [E|E]; [eexists; split; [reflexivity|reflexivity]|]. destruct (lookup_some _ _ (H1 d (or_introl eq_refl) E)) as (b & L). rewrite L. eexists. split; [reflexivity|]. intros R.
    rewrite (H3 _ _ (H2 d (or_introl eq_refl) R E) L). apply orb_false_r. }
  destruct G as (c & -> & Hc). cbn [andThen]. destruct (required d) eqn:R.
  - rewrite Hc by reflexivity. destruct (tg_configured d) eqn:Cf; cbn [negb andb].
    + destruct (allConfigured flags subs); [intros x [<-|Hx] Rx; [exact Cf|apply IH'; assumption]|]. destruct IH' as (x & Hx & Rx). exists x. split; [right; exact Hx|exact Rx].
    + exists d. split; [left; reflexivity|auto].
  - rewrite andb_false_r. destruct (allConfigured flags subs); [intros x [<-|Hx] Rx; [congruence|apply IH'; assumption]|]. destruct IH' as (x & Hx & Rx). exists x. split; [right; exact Hx|exact Rx].
Qed.

(** * Finding a definition *)
Lemma findTag_ok n (defs : list tag) : match findTag n defs with
  | Some (a, d, b) => defs = a ++ d :: b /\ tg_name d = n
  | None => forall d, In d defs -> tg_name d <> n end.
Proof.
  induction defs as [|d defs IH]; cbn [findTag]; [intros d []|]. destruct (String.eqb_spec (tg_name d) n) as [E|E]; [split; [reflexivity|exact E]|].
  destruct (findTag n defs) as [[[a x] b]|]; [destruct IH as [-> E2]; split; [reflexivity|exact E2]|]. intros y [<-|Hy]; [exact E|apply IH, Hy].
Qed.
Lemma name_unique (defs : list tag) a d b x : NoDup (map tg_name defs) -> defs = a ++ d :: b -> In x defs -> tg_name x = tg_name d -> x = d.
Proof.
  intros N -> Hx E. rewrite map_app in N. cbn [map] in N. apply NoDup_remove_2 in N. apply in_app_iff in Hx as [Hx|[Hx|Hx]]; [|congruence|]; exfalso; apply N; rewrite <- E; apply in_app_iff; [left|right]; apply in_map, Hx.
Qed.

(** * The main induction *)
Definition good (defs : list tag) : Prop := NoDup (map tg_name defs) /\ forall d, In d defs -> defined d.
Definition allowed (defs : list tag) (used : list string) (es : list elem) : Prop :=
  forall d, In d defs -> limited d = true -> named (tg_name d) es + (if existsb (fun u => (u =? tg_name d)%string) used then 1 else 0) <= 1.
Definition after (es : list elem) (d d' : tag) : Prop := same d d' /\ tg_configured d' = tg_configured d || (0 <? named (tg_name d) es).
Definition one_ok (e : elem) : Prop := forall defs used, good defs -> texts e ->
  match connectTag veqb defs used e with
  | Ok (defs', used', tr) => exists a d d' b, defs = a ++ d :: b /\ defs' = a ++ d' :: b /\ tg_name d = el_name e /\ same d d' /\ defined d' /\ tg_configured d' = true /\ fits d e tr /\
      (limited d = true -> existsb (fun u => (u =? tg_name d)%string) used = false) /\ used' = (if limited d then tg_name d :: used else used)
  | Err _ => forall d tr, In d defs -> fits d e tr -> limited d = true /\ existsb (fun u => (u =? tg_name d)%string) used = true
  end.
Lemma connectTag_eq defs used e : connectTag veqb defs used e =
  if (el_name e =? "solver-interface")%string then Err OldVersion
  else
    match findTag (el_name e) defs with
    | None => Err UnknownTag
    | Some (before, d0, behind) =>
        let d1 := resetAttributes d0 in
        if limited d1 && existsb (fun u => (u =? tg_name d1)%string) used then Err Multiple
        else
          let used' := if limited d1 then tg_name d1 :: used else used in
          let d2 := Tag (tg_name d1) (tg_ns d1) (tg_occ d1) (tg_attrs d1) (tg_configured d1) (setFlag (tg_ns d1) true (tg_nsflags d1)) (tg_subtags d1) in
          andThen (readAttributes veqb (el_attrs e) d2) (fun d3 =>
          andThen (connectTags veqb (tg_subtags d3) [] (el_children e)) (fun '(subs, tr) =>
          let d4 := Tag (tg_name d3) (tg_ns d3) (tg_occ d3) (tg_attrs d3) true (tg_nsflags d3) subs in
          andThen (allConfigured (tg_nsflags d4) subs) (fun _ =>
          Ok ((before ++ d4 :: behind)%list, used', Started (tg_name d3) (valuesOf d3) :: (tr ++ [Ended (tg_name d4)])%list))))
    end.
Proof. destruct e. reflexivity. Qed.

Lemma same_limited t u : same t u -> limited t = limited u. Proof. inversion 1 as [? ? _ _ E]; subst. unfold limited. rewrite E. reflexivity. Qed.
Lemma same_required t u : same t u -> required t = required u. Proof. inversion 1 as [? ? _ _ E]; subst. unfold required. rewrite E. reflexivity. Qed.
Lemma replaced (a b : list tag) d d' : same d d' -> Forall2 same (a ++ d :: b) (a ++ d' :: b).
Proof. intros S. apply Forall2_app; [apply F2_refl; intros; apply same_refl|]. constructor; [exact S|apply F2_refl; intros; apply same_refl]. Qed.

Lemma all_ok : forall es, Forall one_ok es -> forall defs used, good defs -> Forall texts es ->
  match connectTags veqb defs used es with
  | Ok (defs', tr) => Forall2 (after es) defs defs' /\ good defs' /\ allowed defs used es /\ exists trs, tr = List.concat trs /\ Forall2 (fun c tr => exists d, In d defs /\ fits d c tr) es trs
  | Err _ => ~ (allowed defs used es /\ exists trs, Forall2 (fun c tr => exists d, In d defs /\ fits d c tr) es trs)
  end.
Proof.
  induction es as [|e es IH]; intros F defs used G Tx; cbn [connectTags].
  - split; [apply F2_refl; intros d _; split; [apply same_refl|cbn; rewrite orb_false_r; reflexivity]|]. split; [exact G|]. split; [intros d _ _; cbn; destruct (existsb _ used); lia|]. exists []. split; [reflexivity|constructor].
  - inversion F as [|? ? F1 F2]; subst. inversion Tx as [|? ? T1 T2]; subst. specialize (F1 defs used G T1). destruct (connectTag veqb defs used e) as [[[defs1 used1] tr1]|err]; cbn [andThen].
    + destruct F1 as (a & d & d' & b & E1 & E2 & En & Sd & Dd & Cd & Fd & Li & Us).
      assert (S1 : Forall2 same defs defs1) by (subst; apply replaced, Sd).
      assert (N1 : NoDup (map tg_name defs1)) by (rewrite <- (same_names _ _ S1); apply G).
      assert (G1 : good defs1). { split; [exact N1|]. intros x Hx. subst defs1. destruct G as [_ G]. apply in_app_iff in Hx as [Hx|[<-|Hx]]; [| exact Dd|]; apply G; subst defs; apply in_app_iff; [left; exact Hx|right; right; exact Hx]. }
      specialize (IH F2 defs1 used1 G1 T2).
      (* the counts *)
      assert (Al : allowed defs used (e :: es) <-> allowed defs1 used1 es).
      { assert (Step : forall x y, In x defs -> same x y -> limited x = true ->
          named (tg_name x) (e :: es) + (if existsb (fun u => (u =? tg_name x)%string) used then 1 else 0) = named (tg_name y) es + (if existsb (fun u => (u =? tg_name y)%string) used1 then 1 else 0)).
        { intros x y Hx Sx Lx. rewrite <- (same_name _ _ Sx). unfold named. cbn [filter]. destruct (String.eqb_spec (el_name e) (tg_name x)) as [Ex|Ex].
          - assert (x = d) as -> by (eapply name_unique; [apply G|exact E1|exact Hx|congruence]). rewrite Us, Lx, (Li Lx). cbn [List.length existsb]. rewrite String.eqb_refl. cbn [orb]. lia.
          - rewrite Us. destruct (limited d); [|reflexivity]. cbn [existsb]. destruct (String.eqb_spec (tg_name d) (tg_name x)); [congruence|]. reflexivity. }
        split; intros H x Hx Lx.
        - destruct (F2_in_r _ _ _ _ S1 Hx) as (y & Hy & Sy). rewrite <- (same_limited _ _ Sy) in Lx. rewrite <- (Step y x Hy Sy Lx). exact (H y Hy Lx).
        - destruct (F2_in_l _ _ _ _ S1 Hx) as (y & Hy & Sy). rewrite (Step x y Hx Sy Lx). rewrite (same_limited _ _ Sy) in Lx. exact (H y Hy Lx). }
      assert (Fs : forall es trs, Forall2 (fun c tr => exists d, In d defs1 /\ fits d c tr) es trs <-> Forall2 (fun c tr => exists d, In d defs /\ fits d c tr) es trs).
      { intros es0 trs. split; apply F2_imp; intros c tr _ _ (x & Hx & Fx).
        - destruct (F2_in_r _ _ _ _ S1 Hx) as (y & Hy & Sy). exists y. split; [exact Hy|]. eapply fits_same; [apply same_sym, Sy|exact Fx].
        - destruct (F2_in_l _ _ _ _ S1 Hx) as (y & Hy & Sy). exists y. split; [exact Hy|]. eapply fits_same; [exact Sy|exact Fx]. }
      destruct (connectTags veqb defs1 used1 es) as [[defs2 tr2]|err]; cbn [andThen].
      * destruct IH as (I1 & I2 & I3 & trs & I4 & I5). split; [|split; [exact I2|split; [apply Al, I3|]]].
        -- assert (A1 : Forall2 (fun x y => same x y /\ tg_configured y = tg_configured x || (0 <? named (tg_name x) [e])) defs defs1).
           { subst defs defs1. assert (Nm := proj1 G). rewrite map_app in Nm. cbn [map] in Nm. apply NoDup_remove_2 in Nm.
             assert (Other : forall x, In x a \/ In x b -> same x x /\ tg_configured x = tg_configured x || (0 <? named (tg_name x) [e])).
             { intros x Hx. split; [apply same_refl|]. unfold named. cbn [filter]. destruct (String.eqb_spec (el_name e) (tg_name x)) as [Ex|Ex]; [|cbn; rewrite orb_false_r; reflexivity].
               exfalso. apply Nm. rewrite En, Ex. apply in_app_iff. destruct Hx; [left|right]; apply in_map; assumption. }
             apply Forall2_app; [apply F2_refl; intros; apply Other; left; assumption|]. constructor; [|apply F2_refl; intros; apply Other; right; assumption].
             split; [exact Sd|]. unfold named. cbn [filter]. rewrite <- En, String.eqb_refl. cbn. rewrite Cd, orb_true_r. reflexivity. }
           clear -A1 I1. revert defs2 I1. induction A1 as [|x y l r [Sx Cx] A1 IHr]; intros defs2 I1; inversion I1 as [|? z ? r' [Sy Cy] I1']; subst; constructor; [|apply IHr; exact I1'].
           split; [eapply same_trans; eassumption|]. rewrite Cy, Cx, <- (same_name _ _ Sx), <- orb_assoc. f_equal. unfold named. cbn [filter]. destruct (el_name e =? tg_name x)%string; reflexivity.
        -- exists (tr1 :: trs). cbn [List.concat]. rewrite I4. split; [reflexivity|]. constructor; [exists d; split; [subst defs; apply in_elt|exact Fd]|]. apply Fs, I5.
      * intros (A & trs & T). apply IH. split; [apply Al, A|]. inversion T as [|? ? ? trs' _ T']; subst. exists trs'. apply Fs, T'.
    + intros (A & trs & T). inversion T as [|? tr ? ? (d & Hd & Fd) _]; subst. destruct (F1 d tr Hd Fd) as (L & U). specialize (A d Hd L). rewrite U in A. inversion Fd as [? ? ? ? En]; subst. unfold named in A. cbn [filter] in A. rewrite En, String.eqb_refl in A. cbn in A. lia.
Qed.
Lemma defined_parts n s o a c f subs : defined (Tag n s o a c f subs) -> good subs.
Proof. inversion 1; subst. split; assumption. Qed.
Lemma after_configured es d d' : after es d d' -> tg_configured d = false -> (tg_configured d' = true <-> 1 <= named (tg_name d) es).
Proof. intros [_ ->] ->. cbn [orb]. rewrite Nat.ltb_lt. lia. Qed.

Lemma every_one : forall e, one_ok e.
Proof.
  induction e as [n at_ cs IH] using elem_induction. intros defs used G Tx. rewrite connectTag_eq. cbn [el_name el_attrs el_children]. inversion Tx as [? Tx1 Tx2]; subst. cbn [el_attrs el_children] in Tx1, Tx2.
  assert (Tcs : Forall texts cs) by (apply Forall_forall; exact Tx2).
  destruct (String.eqb_spec n "solver-interface") as [->|Nv]; [intros d tr _ Fd; inversion Fd; subst; cbn in *; congruence|].
  pose proof (findTag_ok n defs) as Fi. destruct (findTag n defs) as [[[a d] b]|]; [|intros d tr Hd Fd; inversion Fd as [? ? ? ? En]; subst; exfalso; exact (Fi d Hd (eq_sym En))].
  destruct Fi as [E En]. cbn zeta.
  assert (Hd : In d defs) by (subst defs; apply in_elt).
  assert (Uni : forall x tr, In x defs -> fits x (Elem n at_ cs) tr -> x = d). { intros x tr Hx Fx. inversion Fx as [? ? ? ? Ex]; subst. eapply name_unique; [apply G|reflexivity|exact Hx|]. cbn in Ex. congruence. }
  assert (Dd : defined d) by (apply G, Hd). pose proof (reset_defined d Dd) as Dr. pose proof (reset_same d) as Sr.
  set (d1 := resetAttributes d) in *.
  assert (Cf1 : forall x, In x (tg_subtags d1) -> tg_configured x = false). { unfold d1. destruct d as [? ? ? ? ? ? subs]. cbn. intros x Hx. apply in_map_iff in Hx as (y & <- & _). destruct y; reflexivity. }
  assert (Fl1 : forall k b', k <> tg_ns d1 -> lookup k (setFlag (tg_ns d1) true (tg_nsflags d1)) = Some b' -> b' = false). { intros k b' Nk. rewrite lookup_setFlag by exact Nk. unfold d1. destruct d as [n0 s0 o0 a0 c0 f0 u0]. cbn. apply lookup_reset. }
  assert (N1 : tg_name d1 = tg_name d) by (symmetry; apply same_name, Sr). assert (L1 : limited d1 = limited d) by (symmetry; apply same_limited, Sr).
  inversion Dr as [? Dr1 Dr2 Dr3 Dr4 Dr5]; subst t.
  destruct (limited d1 && existsb (fun u => (u =? tg_name d1)%string) used) eqn:Mu.
  { intros x tr Hx Fx. rewrite (Uni x tr Hx Fx). apply andb_true_iff in Mu. rewrite L1, N1 in Mu. exact Mu. }
  set (d2 := Tag (tg_name d1) (tg_ns d1) (tg_occ d1) (tg_attrs d1) (tg_configured d1) (setFlag (tg_ns d1) true (tg_nsflags d1)) (tg_subtags d1)).
  pose proof (readAttributes_ok at_ d2 Tx1 Dr1) as RA. destruct (readAttributes veqb at_ d2) as [d3|err]; cbn [andThen].
  2:{ intros x tr Hx Fx. exfalso. rewrite (Uni x tr Hx Fx) in Fx. apply (fits_same _ _ _ _ Sr) in Fx. inversion Fx as [? ? values trs F1 F2 F3 F4 F5 F6]; subst. apply RA. split; [exact F3|exists values; exact F4]. }
  destruct RA as (RA1 & RA2 & RA3 & RA4). cbn [d2 tg_name tg_ns tg_occ tg_configured tg_nsflags tg_subtags tg_attrs] in RA1, RA2, RA3, RA4.
  assert (Sub3 : tg_subtags d3 = tg_subtags d1) by (rewrite RA4; reflexivity). assert (Fl3 : tg_nsflags d3 = setFlag (tg_ns d1) true (tg_nsflags d1)) by (rewrite RA4; reflexivity).
  assert (Gs : good (tg_subtags d3)) by (rewrite Sub3; split; assumption).
  pose proof (all_ok cs IH (tg_subtags d3) [] Gs Tcs) as AO. destruct (connectTags veqb (tg_subtags d3) [] cs) as [[subs tr]|err]; cbn [andThen].
  2:{ intros x tr Hx Fx. exfalso. rewrite (Uni x tr Hx Fx) in Fx. apply (fits_same _ _ _ _ Sr) in Fx. inversion Fx as [? ? values trs F1 F2 F3 F4 F5 F6]; subst. apply AO. rewrite Sub3. split; [|exists trs; exact F5].
      intros y Hy Ly. specialize (F6 y Hy). cbn [el_children existsb] in *. rewrite Nat.add_0_r. unfold occurs_right, limited in *. destruct (tg_occ y); try discriminate Ly; lia. }
  destruct AO as (A1 & A2 & A3 & trs & A4 & A5). rewrite Sub3 in A1, A3, A5. cbn [tg_nsflags tg_name tg_ns].
  assert (Ss : Forall2 same (tg_subtags d1) subs) by (eapply F2_imp; [|exact A1]; intros ? ? _ _ [S _]; exact S).
  pose proof (allConfigured_ok (tg_nsflags d3) (tg_ns d1) subs) as AC. rewrite Fl3 in *.
  assert (H1 : forall y, In y subs -> tg_ns y <> ""%string -> In (tg_ns y) (map fst (setFlag (tg_ns d1) true (tg_nsflags d1)))).
  { intros y Hy Ny. destruct (F2_in_r _ _ _ _ Ss Hy) as (x & Hx & Sx). inversion Sx as [? ? _ Ns]; subst. rewrite <- Ns in *. apply setFlag_keys. apply (Dr3 x Hx Ny). }
  assert (H2 : forall y, In y subs -> required y = true -> tg_ns y <> ""%string -> tg_ns y <> tg_ns d1).
  { intros y Hy Ry Ny. destruct (F2_in_r _ _ _ _ Ss Hy) as (x & Hx & Sx). rewrite <- (same_required _ _ Sx) in Ry. inversion Sx as [? ? _ Ns]; subst. rewrite <- Ns in *. apply (Dr4 x Hx Ry Ny). }
  specialize (AC H1 H2 Fl1). destruct (allConfigured (setFlag (tg_ns d1) true (tg_nsflags d1)) subs) as [u|err]; cbn [andThen].
  2:{ intros x tr' Hx Fx. exfalso. rewrite (Uni x tr' Hx Fx) in Fx. apply (fits_same _ _ _ _ Sr) in Fx. inversion Fx as [? ? values trs' F1 F2 F3 F4 F5 F6]; subst. destruct AC as (y & Hy & Ry & Cy).
      destruct (F2_in_r _ _ _ _ A1 Hy) as (z & Hz & Az). specialize (F6 z Hz). cbn [el_children] in F6. pose proof (after_configured _ _ _ Az (Cf1 z Hz)) as AZ. rewrite Cy in AZ. rewrite <- (same_required _ _ (proj1 Az)) in Ry.
      unfold required, occurs_right in *. destruct (tg_occ z); try discriminate Ry; assert (false = true) by (apply AZ; lia); discriminate. }
  set (d4 := Tag (tg_name d3) (tg_ns d3) (tg_occ d3) (tg_attrs d3) true (setFlag (tg_ns d1) true (tg_nsflags d1)) subs).
  assert (E3 : tg_name d3 = tg_name d1 /\ tg_ns d3 = tg_ns d1 /\ tg_occ d3 = tg_occ d1) by (rewrite RA4; auto). destruct E3 as (E3 & E3' & E3'').
  exists a, d, d4, b. split; [exact E|]. split; [reflexivity|]. split; [exact En|].
  assert (S4 : same d d4). { eapply same_trans; [exact Sr|]. constructor; cbn [d4 tg_name tg_ns tg_occ tg_attrs tg_subtags]; auto. }
  split; [exact S4|]. split.
  { constructor; cbn [d4 tg_name tg_ns tg_occ tg_attrs tg_subtags tg_nsflags].
    - intros x raw old old' Hx Fx. destruct (F2_in_r _ _ _ _ RA2 Hx) as (y & Hy & (_ & Rd & _)). rewrite <- Rd. apply Dr1; assumption.
    - apply A2.
    - exact H1.
    - rewrite E3'. exact H2.
    - apply A2. }
  split; [reflexivity|]. split.
  { eapply fits_same; [apply same_sym, Sr|]. rewrite E3, A4. replace (valuesOf d3) with (combine (map at_name (tg_attrs d1)) (map at_value (tg_attrs d3))).
    - apply fits_intro; cbn [el_name el_attrs el_children]; [congruence|exact Nv|exact RA1|exact RA3|exact A5|].
      intros x Hx. destruct (F2_in_l _ _ _ _ A1 Hx) as (y & Hy & Ay). pose proof (after_configured _ _ _ Ay (Cf1 x Hx)) as AY. specialize (AC y Hy). rewrite <- (same_required _ _ (proj1 Ay)) in AC. specialize (A3 x Hx). cbn [existsb] in A3.
      unfold occurs_right, required, limited in *. destruct (tg_occ x); auto.
      + apply AY in AC; [|reflexivity]. specialize (A3 eq_refl). lia.
      + specialize (A3 eq_refl). lia.
      + apply AY, AC. reflexivity.
    - unfold valuesOf. clear -RA2. induction RA2 as [|x y l r (Nm & _) RA2 IHr]; cbn; [reflexivity|]. rewrite Nm, IHr. reflexivity. }
  split.
  - intros Ld. rewrite L1, Ld, N1 in Mu. exact Mu.
  - rewrite L1, N1. reflexivity.
Qed.

Theorem configure_ok root doc : defined root -> texts doc ->
  match configure veqb root doc with
  | Ok (defs, tr) => exists root', defs = [root'] /\ same root root' /\ defined root' /\ fits root doc tr
  | Err _ => forall tr, ~ fits root doc tr
  end.
Proof.
  intros D T. unfold configure. cbn [connectTags]. assert (G : good [root]) by (split; [repeat constructor; intros []|intros d [<-|[]]; exact D]).
  pose proof (every_one doc [root] [] G T) as H. destruct (connectTag veqb [root] [] doc) as [[[defs used] tr]|e]; cbn [andThen].
  - destruct H as (a & d & d' & b & E1 & E2 & _ & S & Df & _ & F & _). rewrite app_nil_r. destruct a as [|x a]; [|destruct a; discriminate E1]. injection E1 as <- <-. exists d'. auto.
  - intros tr F. destruct (H root tr (or_introl eq_refl) F) as [_ U]. discriminate U.
Qed.

Lemma newTag_defined n ns o attrs : (forall a raw old old', In a attrs -> fine raw -> at_read a raw old = at_read a raw old') -> defined (newTag n ns o attrs).
Proof using. intros H. constructor; cbn; [exact H|constructor|intros d []|intros d []|intros d []]. Qed.
Lemma setFlag_key k b (l : list (string * bool)) : In k (map fst (setFlag k b l)).
Proof using. induction l as [|[k' b'] l IH]; cbn; [left; reflexivity|]. destruct (String.eqb_spec k' k); cbn; auto. Qed.
Lemma addSubtag_defined t d : defined t -> defined d -> ~ In (tg_name d) (map tg_name (tg_subtags t)) -> (required d = true -> tg_ns d <> ""%string -> tg_ns d <> tg_ns t) -> defined (addSubtag t d).
Proof using.
  clear veqb_ok veqb. intros Dt Dd Nn Ns. inversion Dt as [? H1 H2 H3 H4 H5]; subst. constructor; cbn [addSubtag tg_attrs tg_subtags tg_nsflags tg_ns].
  - exact H1.
  - rewrite map_app. cbn [map]. apply NoDup_app_one; assumption.
  - intros x Hx Nx. apply in_app_iff in Hx as [Hx|[<-|[]]].
    + destruct (tg_ns d =? "")%string; [|apply setFlag_keys]; apply H3; assumption.
    + destruct (String.eqb_spec (tg_ns d) ""); [contradiction|]. apply setFlag_key.
  - intros x Hx R Nx. apply in_app_iff in Hx as [Hx|[<-|[]]]; [apply H4; assumption|apply Ns; assumption].
  - intros x Hx. apply in_app_iff in Hx as [Hx|[<-|[]]]; [apply H5, Hx|exact Dd].
Qed.
End P.
