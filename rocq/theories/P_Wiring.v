(** Reading of configuration files: lists of tags, meshes and participants. *)

From Coq Require Import List Bool Arith Lia.
From Verif Require Import M_Wiring S_Wiring.
Import ListNotations.

(** ** Outcomes *)

Lemma bind_good : forall A B (r : res A) (k : A -> res B) b,
  bind r k = Good b -> exists a, r = Good a /\ k a = Good b.
Proof. intros A B [a | |] k b H; cbn in H; try discriminate. now exists a. Qed.

Lemma bind_broken : forall A B (r : res A) (k : A -> res B),
  bind r k = Broken -> r = Broken \/ exists a, r = Good a /\ k a = Broken.
Proof. intros A B [a | |] k H; cbn in H; try discriminate; eauto. Qed.

Lemma check_good : forall A b (r : res A) a, check b r = Good a -> b = true /\ r = Good a.
Proof. intros A [|] r a H; cbn in H; [easy | discriminate]. Qed.

Lemma check_broken : forall A b (r : res A), check b r = Broken -> b = true /\ r = Broken.
Proof. intros A [|] r H; cbn in H; [easy | discriminate]. Qed.

Lemma ensure_good : forall A b (r : res A) a, ensure b r = Good a -> b = true /\ r = Good a.
Proof. intros A [|] r a H; cbn in H; [easy | discriminate]. Qed.

Lemma ensure_broken : forall A b (r : res A), ensure b r = Broken ->
  b = false \/ (b = true /\ r = Broken).
Proof. intros A [|] r H; cbn in H; auto. Qed.

Lemma each_cut : forall X S (f : S -> X -> res S) xs s s' pre x post,
  each f xs s = Good s' -> xs = pre ++ x :: post ->
  exists a b, each f pre s = Good a /\ f a x = Good b /\ each f post b = Good s'.
Proof.
  intros X S f xs s s' pre x post H ->. revert s H.
  induction pre as [| y pre IH]; intros s H; cbn in *.
  - apply bind_good in H as (b & H1 & H2). eauto.
  - apply bind_good in H as (c & H1 & H2). destruct (IH _ H2) as (a & b & Ha & Hb & Hc).
    exists a, b. rewrite H1. cbn. auto.
Qed.

Lemma each_broken : forall X S (f : S -> X -> res S) xs s,
  each f xs s = Broken ->
  exists pre x post a, xs = pre ++ x :: post /\ each f pre s = Good a /\ f a x = Broken.
Proof.
  induction xs as [| x xs IH]; intros s H; cbn in H; [discriminate |].
  apply bind_broken in H as [H | (b & H1 & H2)].
  - exists [], x, xs, s. auto.
  - destruct (IH _ H2) as (pre & y & post & a & -> & Ha & Hb).
    exists (x :: pre), y, post, a. cbn. rewrite H1. auto.
Qed.

Lemma each_inv : forall X S (P : S -> Prop) (f : S -> X -> res S) xs s s',
  (forall a x b, In x xs -> P a -> f a x = Good b -> P b) ->
  P s -> each f xs s = Good s' -> P s'.
Proof.
  intros X S P f xs. induction xs as [| x xs IH]; intros s s' Hf Hs H; cbn in H.
  - now inversion H; subst.
  - apply bind_good in H as (b & H1 & H2). apply (IH b s'); [| | exact H2].
    + intros a y c Hy. apply Hf. now right.
    + eapply Hf; eauto. now left.
Qed.

(** Folds that append what they are given. *)
Lemma each_app : forall X (f : list X -> X -> res (list X)) xs s s',
  (forall a x b, f a x = Good b -> b = a ++ [x]) ->
  each f xs s = Good s' -> s' = s ++ xs.
Proof.
  intros X f xs. induction xs as [| x xs IH]; intros s s' Hf H; cbn in H.
  - inversion H. now rewrite app_nil_r.
  - apply bind_good in H as (b & H1 & H2). apply Hf in H1 as ->.
    rewrite (IH _ _ Hf H2), <- app_assoc. reflexivity.
Qed.

Lemma each_app_at : forall X (f : list X -> X -> res (list X)) xs s' x,
  (forall a x b, f a x = Good b -> b = a ++ [x]) ->
  each f xs [] = Good s' -> In x xs ->
  exists pre post b, xs = pre ++ x :: post /\ f pre x = Good b.
Proof.
  intros X f xs s' x Hf H Hx. apply in_split in Hx as (pre & post & Hx).
  destruct (each_cut _ _ _ _ _ _ _ _ _ H Hx) as (a & b & Ha & Hb & _).
  rewrite (each_app _ _ _ _ _ Hf Ha) in Hb. cbn in Hb. eauto.
Qed.

(** ** Comparisons *)

Lemma isIn_iff : forall x xs, isIn x xs = true <-> In x xs.
Proof.
  intros x xs. unfold isIn. rewrite existsb_exists. split.
  - intros (y & H1 & H2). apply Nat.eqb_eq in H2. now subst.
  - intros H. exists x. now rewrite Nat.eqb_refl.
Qed.

Lemma isIn_no : forall x xs, isIn x xs = false <-> ~ In x xs.
Proof. intros x xs. rewrite <- isIn_iff. destruct (isIn x xs); intuition congruence. Qed.

Lemma same2_iff : forall a b, same2 a b = true <-> a = b.
Proof.
  intros [a1 a2] [b1 b2]. unfold same2. cbn [fst snd]. rewrite andb_true_iff, !Nat.eqb_eq.
  split; [intros [-> ->]; reflexivity | intros H; inversion H; auto].
Qed.

Lemma same2_no : forall a b, same2 a b = false <-> a <> b.
Proof. intros a b. rewrite <- same2_iff. destruct (same2 a b); intuition congruence. Qed.

Lemma isIn2_iff : forall x xs, isIn2 x xs = true <-> In x xs.
Proof.
  intros x xs. unfold isIn2. rewrite existsb_exists. split.
  - intros (y & H1 & H2). apply same2_iff in H2. now subst.
  - intros H. exists x. now rewrite (proj2 (same2_iff x x) eq_refl).
Qed.

Lemma isIn2_no : forall x xs, isIn2 x xs = false <-> ~ In x xs.
Proof. intros x xs. rewrite <- isIn2_iff. destruct (isIn2 x xs); intuition congruence. Qed.

Lemma sameName_iff : forall a b, sameName a b = true <-> a = b.
Proof.
  intros [a |] [b |]; cbn; try (split; [discriminate | intros H; discriminate]); [| easy].
  rewrite Nat.eqb_eq. split; [intros ->; reflexivity | intros H; now inversion H].
Qed.

Lemma sameDir_iff : forall a b, sameDir a b = true <-> a = b.
Proof. intros [|] [|]; cbn; split; intros H; try discriminate; reflexivity. Qed.

Lemma isNone_iff : forall a, isNone a = true <-> a = None.
Proof. intros [a |]; cbn; split; intros H; try discriminate; reflexivity. Qed.

Lemma isConnected_iff : forall l a b,
  isConnected l a b = true <-> In (a, b) l \/ In (b, a) l.
Proof.
  intros l a b. unfold isConnected. rewrite existsb_exists. split.
  - intros (c & Hc & H). unfold linked in H. apply orb_true_iff in H as [H | H];
      apply same2_iff in H; subst; auto.
  - intros [H | H]; [exists (a, b) | exists (b, a)]; split; auto; unfold linked;
      rewrite (proj2 (same2_iff _ _) eq_refl); auto with bool.
Qed.

(** ** Meshes *)

Lemma getMesh_in : forall ms n m, getMesh ms n = Some m -> In m ms /\ m_name m = n.
Proof.
  intros ms n m H. apply find_some in H as [H1 H2]. apply Nat.eqb_eq in H2. auto.
Qed.

Lemma hasMesh_iff : forall ms n, hasMesh ms n = true <-> In n (map m_name ms).
Proof.
  intros ms n. unfold hasMesh. destruct (getMesh ms n) as [m |] eqn:E; split; intros H;
    try discriminate; try reflexivity.
  - apply getMesh_in in E as [H1 <-]. now apply in_map.
  - apply in_map_iff in H as (m & Hm & H).
    pose proof (find_none _ _ E _ H) as Hn. cbn in Hn. apply Nat.eqb_neq in Hn. easy.
Qed.

Lemma hasData_in : forall ms mesh data, hasData ms mesh data = true ->
  exists m, In m ms /\ m_name m = mesh /\ In data (m_data m).
Proof.
  intros ms mesh data H. unfold hasData in H. destruct (getMesh ms mesh) as [m |] eqn:E;
    [| discriminate].
  apply getMesh_in in E as [H1 H2]. apply isIn_iff in H. eauto.
Qed.

Lemma getMesh_unique : forall ms m, NoDup (map m_name ms) -> In m ms ->
  getMesh ms (m_name m) = Some m.
Proof.
  induction ms as [| o ms IH]; intros m Hn Hm; [easy |]. cbn [map] in Hn.
  inversion Hn as [| x l Hx Hl]; subst. unfold getMesh. cbn [find].
  destruct Hm as [-> | Hm]; [now rewrite Nat.eqb_refl |].
  destruct (Nat.eqb_spec (m_name o) (m_name m)) as [E | E].
  - exfalso. apply Hx. rewrite E. now apply in_map.
  - now apply IH.
Qed.

Lemma hasData_iff : forall ms mesh data, NoDup (map m_name ms) ->
  (hasData ms mesh data = true <->
   exists m, In m ms /\ m_name m = mesh /\ In data (m_data m)).
Proof.
  intros ms mesh data Hn. split; [apply hasData_in |].
  intros (m & Hm & <- & Hd). unfold hasData. rewrite (getMesh_unique _ _ Hn Hm).
  now apply isIn_iff.
Qed.

Lemma addData_app : forall a x b, addData a x = Good b -> b = a ++ [x].
Proof. intros a x b H. apply check_good in H as [_ H]. now inversion H. Qed.

Lemma useData_app : forall k a x b, useData k a x = Good b -> b = a ++ [x].
Proof.
  intros k a x b H. apply check_good in H as [_ H]. apply check_good in H as [_ H].
  now inversion H.
Qed.

Lemma addMesh_app : forall k a x b, addMesh k a x = Good b -> b = a ++ [x].
Proof.
  intros k a [n dm ds] b H. apply ensure_good in H as [_ H]. apply bind_good in H as (l & H1 & H).
  apply (each_app _ _ _ _ _ (useData_app k)) in H1. cbn in H1. subst l. now inversion H.
Qed.

Lemma addMesh_nodup : forall k ms s', each (addMesh k) ms [] = Good s' -> NoDup (map m_name s').
Proof.
  intros k ms s' H. eapply (each_inv _ _ (fun s => NoDup (map m_name s))); [| | exact H].
  - intros a x b _ Ha Hb. pose proof (addMesh_app _ _ _ _ Hb) as ->.
    apply ensure_good in Hb as [Hb _]. apply negb_true_iff in Hb.
    rewrite map_app. cbn.
    apply NoDup_rev in Ha. rewrite <- (rev_involutive (map m_name a ++ [m_name x])).
    apply NoDup_rev. rewrite rev_app_distr. cbn. constructor; [| exact Ha].
    rewrite <- in_rev. intros Hin. apply hasMesh_iff in Hin. congruence.
  - constructor.
Qed.

Lemma addM2N_app : forall a x b, addM2N a x = Good b -> b = a ++ [x].
Proof. intros a x b H. apply check_good in H as [_ H]. now inversion H. Qed.

(** ** Participants *)

Lemma addUse_app : forall ms n a x b, addUse ms n a x = Good b -> b = a ++ [x].
Proof.
  intros ms n a x b H. do 3 apply check_good in H as [_ H]. now inversion H.
Qed.

Lemma addField_app : forall ms o a x b, addField ms o a x = Good b -> b = a ++ [x].
Proof.
  intros ms o a x b H. do 3 apply check_good in H as [_ H]. now inversion H.
Qed.

Lemma addMap_app : forall ms a x b, addMap ms a x = Good b -> b = a ++ [x].
Proof.
  intros ms a x b H. unfold addMap in H.
  destruct (mp_from x), (mp_to x); try discriminate;
    do 4 apply check_good in H as [_ H]; now inversion H.
Qed.

Lemma isUsed_iff : forall us m, isUsed us m = true <-> exists u, In u us /\ useMesh u = m.
Proof.
  intros us m. unfold isUsed. rewrite isIn_iff, in_map_iff. split; intros (u & H1 & H2); eauto.
Qed.

Lemma isProvided_iff : forall us m, isProvided us m = true <-> In (Provide m) us.
Proof.
  intros us m. unfold isProvided. rewrite existsb_exists. split.
  - intros ([x | x y a] & H1 & H2); [| discriminate]. apply Nat.eqb_eq in H2. now subst.
  - intros H. exists (Provide m). now rewrite Nat.eqb_refl.
Qed.

Lemma isReceived_iff : forall us m,
  isReceived us m = true <-> exists from a, In (Receive m from a) us.
Proof.
  intros us m. unfold isReceived. rewrite existsb_exists. split.
  - intros ([x | x y a] & H1 & H2); [discriminate |]. apply Nat.eqb_eq in H2. subst. eauto.
  - intros (f & a & H). exists (Receive m f a). now rewrite Nat.eqb_refl.
Qed.

Lemma provided_used : forall us m, isProvided us m = true -> isUsed us m = true.
Proof. intros us m H. apply isProvided_iff in H. apply isUsed_iff. eauto. Qed.

Lemma received_used : forall us m, isReceived us m = true -> isUsed us m = true.
Proof. intros us m H. apply isReceived_iff in H as (f & a & H). apply isUsed_iff. eauto. Qed.

Lemma uses_once : forall ms n us s, each (addUse ms n) us [] = Good s -> NoDup (map useMesh us).
Proof.
  intros ms n us s H.
  assert (Hs : s = us) by (apply (each_app _ _ _ _ _ (addUse_app ms n)) in H; exact H).
  rewrite <- Hs. eapply (each_inv _ _ (fun s => NoDup (map useMesh s))); [| | exact H].
  - intros a x b _ Ha Hb. pose proof (addUse_app _ _ _ _ _ Hb) as ->.
    do 2 apply check_good in Hb as [_ Hb]. apply check_good in Hb as [Hb _].
    apply negb_true_iff in Hb. rewrite map_app. cbn.
    apply NoDup_rev in Ha. rewrite <- (rev_involutive (map useMesh a ++ [useMesh x])).
    apply NoDup_rev. rewrite rev_app_distr. cbn. constructor; [| exact Ha].
    rewrite <- in_rev. apply isIn_no. exact Hb.
  - constructor.
Qed.

Lemma nodup_eq : forall X Y (g : X -> Y) l a b, NoDup (map g l) -> In a l -> In b l ->
  g a = g b -> a = b.
Proof.
  intros X Y g l. induction l as [| x l IH]; intros a b Hn Ha Hb E; [easy |].
  cbn in Hn. inversion Hn as [| y k Hx Hl]; subst.
  destruct Ha as [<- | Ha], Hb as [<- | Hb].
  - reflexivity.
  - exfalso. apply Hx. rewrite E. now apply in_map.
  - exfalso. apply Hx. rewrite <- E. now apply in_map.
  - eauto.
Qed.

Lemma not_both : forall us m, NoDup (map useMesh us) ->
  isProvided us m = true -> isReceived us m = true -> False.
Proof.
  intros us m Hn Hp Hr. apply isProvided_iff in Hp. apply isReceived_iff in Hr as (f & a & Hr).
  pose proof (nodup_eq _ _ _ _ _ _ Hn Hp Hr eq_refl) as E. discriminate.
Qed.

Lemma fields_once : forall ms o fs s, each (addField ms o) fs [] = Good s -> NoDup fs.
Proof.
  intros ms o fs s H.
  assert (Hs : s = fs) by (apply (each_app _ _ _ _ _ (addField_app ms o)) in H; exact H).
  rewrite <- Hs. eapply (each_inv _ _ (fun s => NoDup s)); [| | exact H].
  - intros a x b _ Ha Hb. pose proof (addField_app _ _ _ _ _ Hb) as ->.
    do 2 apply check_good in Hb as [_ Hb]. apply check_good in Hb as [Hb _].
    apply andb_true_iff in Hb as [Hb _]. apply negb_true_iff in Hb.
    apply NoDup_rev in Ha. rewrite <- (rev_involutive (a ++ [x])).
    apply NoDup_rev. rewrite rev_app_distr. cbn. constructor; [| exact Ha].
    rewrite <- in_rev. apply isIn2_no. exact Hb.
  - constructor.
Qed.

Lemma fields_have : forall ms o fs s f, each (addField ms o) fs [] = Good s -> In f fs ->
  hasData ms (fst f) (snd f) = true.
Proof.
  intros ms o fs s f H Hf.
  destruct (each_app_at _ _ _ _ _ (addField_app ms o) H Hf) as (pre & post & b & _ & Hb).
  apply check_good in Hb as [_ Hb]. apply check_good in Hb as [Hb _]. exact Hb.
Qed.

(** ** Mappings *)

Lemma nodup_flat : forall X Y (g : X -> list Y) l,
  (forall x, In x l -> NoDup (g x)) ->
  (forall pre x mid y post, l = pre ++ x :: mid ++ y :: post ->
     forall z, In z (g x) -> In z (g y) -> False) ->
  NoDup (flat_map g l).
Proof.
  intros X Y g l. induction l as [| x l IH]; intros H1 H2; cbn; [constructor |].
  assert (Hl : NoDup (flat_map g l)).
  { apply IH; [intros y Hy; apply H1; now right |].
    intros pre y mid z post ->. apply (H2 (x :: pre) y mid z post). reflexivity. }
  assert (Hx : NoDup (g x)) by (apply H1; now left).
  assert (Hd : forall z, In z (g x) -> ~ In z (flat_map g l)).
  { intros z Hz Hc. apply in_flat_map in Hc as (y & Hy & Hyz).
    apply in_split in Hy as (mid & post & ->).
    exact (H2 [] x mid y post eq_refl z Hz Hyz). }
  clear - Hl Hx Hd. induction (g x) as [| z zs IHz]; cbn; [exact Hl |].
  inversion Hx as [| a k Ha Hk]; subst. constructor.
  - rewrite in_app_iff. intros [Hc | Hc]; [easy |]. apply (Hd z); [now left | exact Hc].
  - apply IHz; [exact Hk |]. intros a Ha1. apply Hd. now right.
Qed.

Lemma newMap_apart : forall ms maps s x y pre mid post,
  each (addMap ms) maps [] = Good s -> maps = pre ++ x :: mid ++ y :: post ->
  mp_to x = mp_to y -> mp_from x = mp_from y -> False.
Proof.
  intros ms maps s x y pre mid post H E Ht Hf.
  assert (E' : maps = (pre ++ x :: mid) ++ y :: post) by (rewrite E, <- app_assoc; reflexivity).
  destruct (each_cut _ _ _ _ _ _ _ _ _ H E') as (a & b & Ha & Hb & _).
  apply (each_app _ _ _ _ _ (addMap_app ms)) in Ha. cbn in Ha. subst a.
  assert (Hn : newMap (pre ++ x :: mid) y = true).
  { unfold addMap in Hb. destruct (mp_from y), (mp_to y); try discriminate;
      do 3 apply check_good in Hb as [_ Hb]; apply check_good in Hb as [Hb _]; exact Hb. }
  apply andb_true_iff in Hn as [Hn _]. rewrite forallb_forall in Hn.
  specialize (Hn x (in_elt _ _ _)). rewrite Ht, Hf in Hn.
  rewrite !(proj2 (sameName_iff _ _) eq_refl) in Hn. discriminate.
Qed.

Lemma newMap_mixed : forall ms maps s x y pre mid post,
  each (addMap ms) maps [] = Good s -> maps = pre ++ x :: mid ++ y :: post ->
  mp_to x = mp_to y -> mp_dir x = Writes -> mp_dir y = Writes ->
  mp_from x = None \/ mp_from y = None -> False.
Proof.
  intros ms maps s x y pre mid post H E Ht Hx Hy Hf.
  assert (E' : maps = (pre ++ x :: mid) ++ y :: post) by (rewrite E, <- app_assoc; reflexivity).
  destruct (each_cut _ _ _ _ _ _ _ _ _ H E') as (a & b & Ha & Hb & _).
  apply (each_app _ _ _ _ _ (addMap_app ms)) in Ha. cbn in Ha. subst a.
  assert (Hn : newMap (pre ++ x :: mid) y = true).
  { unfold addMap in Hb. destruct (mp_from y), (mp_to y); try discriminate;
      do 3 apply check_good in Hb as [_ Hb]; apply check_good in Hb as [Hb _]; exact Hb. }
  apply andb_true_iff in Hn as [_ Hn]. rewrite forallb_forall in Hn.
  specialize (Hn x (in_elt _ _ _)). rewrite Ht, Hx, Hy in Hn.
  rewrite (proj2 (sameName_iff _ _) eq_refl) in Hn. cbn in Hn.
  destruct Hf as [Hf | Hf]; rewrite Hf in Hn; cbn in Hn; [rewrite orb_true_r in Hn |]; discriminate.
Qed.

Lemma wellDefined_at : forall ms used y pre x mid t a b,
  wellDefined ms used y (pre ++ x :: mid) = true ->
  (forall o, In o pre -> mp_to o = mp_to y -> mp_from o = mp_from y -> False) ->
  mp_to x = Some t -> mp_to y = Some t -> mp_from x = Some a -> mp_from y = Some b -> a <> b ->
  clashFree used (dataOf ms b) (dataOf ms a) = true.
Proof.
  intros ms used y pre x mid t a b. induction pre as [| o pre IH]; intros H Hp Htx Hty Hfx Hfy Hab;
    cbn in H.
  - rewrite Htx, Hty, Hfx, Hfy in H. cbn in H. rewrite Nat.eqb_refl in H. cbn in H.
    destruct (Nat.eqb_spec b a) as [E | E]; [congruence |]. cbn in H.
    now apply andb_true_iff in H as [H _].
  - destruct ((sameName (mp_to y) (mp_to o) && negb (isNone (mp_to y))) &&
              (sameName (mp_from y) (mp_from o) && negb (isNone (mp_from y)))) eqn:E.
    + exfalso. apply andb_true_iff in E as [E1 E2].
      apply andb_true_iff in E1 as [E1 _]. apply andb_true_iff in E2 as [E2 _].
      apply sameName_iff in E1, E2. apply (Hp o); [now left | |]; congruence.
    + apply andb_true_iff in H as [_ H]. apply IH; auto. intros q Hq. apply Hp. now right.
Qed.

Lemma dataOf_in : forall ms a d, hasData ms a d = true -> In d (dataOf ms a).
Proof.
  intros ms a d H. unfold hasData in H. unfold dataOf. destruct (getMesh ms a); [| discriminate].
  now apply isIn_iff.
Qed.

(** Two mappings of one direction to one mesh have no data in common that is
    used in that direction. *)
Lemma two_maps : forall ms maps s used x y pre mid post t a b d,
  each (addMap ms) maps [] = Good s -> maps = pre ++ x :: mid ++ y :: post ->
  wellDefined ms used y maps = true ->
  mp_to x = Some t -> mp_to y = Some t -> mp_from x = Some a -> mp_from y = Some b ->
  hasData ms a d = true -> hasData ms b d = true -> In d used -> False.
Proof.
  intros ms maps s used x y pre mid post t a b d H E Hw Htx Hty Hfx Hfy Ha Hb Hd.
  destruct (Nat.eq_dec a b) as [<- | Hab].
  - eapply newMap_apart; [exact H | exact E | |]; congruence.
  - rewrite E in Hw.
    assert (Hc : clashFree used (dataOf ms b) (dataOf ms a) = true).
    { eapply wellDefined_at; [exact Hw | | exact Htx | exact Hty | exact Hfx | exact Hfy | exact Hab].
      intros o Ho E1 E2. apply in_split in Ho as (p1 & p2 & ->).
      apply (newMap_apart ms maps s o y p1 (p2 ++ x :: mid) post H); auto.
      rewrite E, <- app_assoc. cbn. now rewrite <- app_assoc. }
    unfold clashFree in Hc. rewrite forallb_forall in Hc. specialize (Hc d (dataOf_in _ _ _ Hb)).
    apply negb_true_iff, andb_false_iff in Hc as [Hc | Hc]; apply isIn_no in Hc; apply Hc; auto.
    now apply dataOf_in.
Qed.

(** What the data of a participant add for a mapping. *)
Definition wf (ms : list meshTag) (m : mapTag) (f : nat * nat) : list flow :=
  match mp_from m, mp_to m with
  | Some a, Some t =>
      if (a =? fst f) && hasData ms t (snd f) then [Flow Writes (snd f) (Some a) (Some t)] else []
  | None, Some t => if t =? fst f then [Flow Writes (snd f) None (Some t)] else []
  | _, None => []
  end.

Definition rf (ms : list meshTag) (m : mapTag) (f : nat * nat) : list flow :=
  match mp_from m, mp_to m with
  | Some a, Some t =>
      if (t =? fst f) && hasData ms a (snd f) then [Flow Reads (snd f) (Some a) (Some t)] else []
  | Some a, None => if a =? fst f then [Flow Reads (snd f) (Some a) None] else []
  | None, _ => []
  end.

Lemma writeFlow_step : forall ms us m s f s', writeFlow ms us m s f = Good s' ->
  snd s' = snd s ++ wf ms m f /\
  (forall a, mp_from m = Some a -> fst s' = true -> fst s = true \/ wf ms m f <> []).
Proof.
  intros ms us m [fd l] f s' H. unfold writeFlow in H. unfold wf.
  destruct (mp_from m) as [a |], (mp_to m) as [t |]; try discriminate; cbn [fst snd] in *.
  - destruct (Nat.eqb_spec a (fst f)) as [E | E]; cbn [andb].
    + apply ensure_good in H as [_ H]. destruct (hasData ms t (snd f)).
      * apply check_good in H as [_ H]. inversion H. cbn. split; [reflexivity |].
        intros. right. discriminate.
      * inversion H. cbn. rewrite app_nil_r. split; [reflexivity |]. intros; now left.
    + inversion H. cbn. rewrite app_nil_r. split; [reflexivity |]. intros; now left.
  - destruct (Nat.eqb_spec t (fst f)) as [E | E].
    + apply ensure_good in H as [_ H]. inversion H. cbn. split; [reflexivity |]. discriminate.
    + inversion H. cbn. rewrite app_nil_r. split; [reflexivity |]. discriminate.
Qed.

Lemma readFlow_step : forall ms us fl m s f s', readFlow ms us fl m s f = Good s' ->
  snd s' = snd s ++ rf ms m f /\
  (forall a, mp_to m = Some a -> fst s' = true -> fst s = true \/ rf ms m f <> []).
Proof.
  intros ms us fl m [fd l] f s' H. unfold readFlow in H. unfold rf.
  destruct (mp_from m) as [a |], (mp_to m) as [t |]; try discriminate; cbn [fst snd] in *.
  - destruct (Nat.eqb_spec t (fst f)) as [E | E]; cbn [andb].
    + apply ensure_good in H as [_ H]. destruct (hasData ms a (snd f)).
      * apply check_good in H as [_ H]. apply ensure_good in H as [_ H]. inversion H. cbn.
        split; [reflexivity |]. intros. right. discriminate.
      * inversion H. cbn. rewrite app_nil_r. split; [reflexivity |]. intros; now left.
    + inversion H. cbn. rewrite app_nil_r. split; [reflexivity |]. intros; now left.
  - destruct (Nat.eqb_spec a (fst f)) as [E | E].
    + apply ensure_good in H as [_ H]. inversion H. cbn. split; [reflexivity |]. discriminate.
    + inversion H. cbn. rewrite app_nil_r. split; [reflexivity |]. discriminate.
Qed.

Lemma each_flow : forall X (f : bool * list flow -> X -> res (bool * list flow)) g (Q : Prop) xs s s',
  (forall s x s', f s x = Good s' ->
     snd s' = snd s ++ g x /\ (Q -> fst s' = true -> fst s = true \/ g x <> [])) ->
  each f xs s = Good s' ->
  snd s' = snd s ++ flat_map g xs /\
  (Q -> fst s' = true -> fst s = true \/ exists x, In x xs /\ g x <> []).
Proof.
  intros X f g Q xs. induction xs as [| x xs IH]; intros s s' Hf H; cbn in H.
  - inversion H; subst. cbn. rewrite app_nil_r. auto.
  - apply bind_good in H as (b & H1 & H2). destruct (Hf _ _ _ H1) as [Hb1 Hb2].
    destruct (IH _ _ Hf H2) as [Hc1 Hc2]. split.
    + rewrite Hc1, Hb1, <- app_assoc. reflexivity.
    + intros q Ht. destruct (Hc2 q Ht) as [Hl | (y & Hy & Hg)].
      * destruct (Hb2 q Hl) as [Hk | Hk]; [now left |]. right. exists x. split; [now left | exact Hk].
      * right. exists y. split; [now right | exact Hg].
Qed.

(** The flows of one mapping. *)
Definition flowsOf (ms : list meshTag) (ws rs : list (nat * nat)) (d : direction) (m : mapTag)
  : list flow :=
  if sameDir (mp_dir m) d
  then match d with Writes => flat_map (wf ms m) ws | Reads => flat_map (rf ms m) rs end
  else [].

Lemma mapFlows_step : forall ms us ws rs d fl m fl', mapFlows ms us ws rs d fl m = Good fl' ->
  fl' = fl ++ flowsOf ms ws rs d m /\
  (forall a t, mp_dir m = d -> mp_from m = Some a -> mp_to m = Some t -> flowsOf ms ws rs d m <> []).
Proof.
  intros ms us ws rs d fl m fl' H. unfold mapFlows in H. unfold flowsOf.
  destruct (sameDir (mp_dir m) d) eqn:E.
  - apply bind_good in H as ([fd l] & H1 & H). apply check_good in H as [Hfd H].
    inversion H. cbn [fst snd] in *. subst fd. destruct d.
    + destruct (each_flow _ _ (rf ms m) (exists a t, mp_from m = Some a /\ mp_to m = Some t)
                  _ _ _ (fun s x s' Hs =>
                    conj (proj1 (readFlow_step _ _ _ _ _ _ _ Hs))
                      (fun Q => match Q with
                         | ex_intro _ a (ex_intro _ t (conj _ Ht)) =>
                             proj2 (readFlow_step _ _ _ _ _ _ _ Hs) t Ht end)) H1) as [A B].
      cbn [fst snd app] in *. subst l. split; [reflexivity |].
      intros a t _ Ha Ht. destruct B as [B | (x & Hx & Hg)]; eauto; [discriminate |].
      intros C. apply Hg. destruct (rf ms m x) as [| g gs] eqn:Eg; [reflexivity |].
      assert (In g (flat_map (rf ms m) rs)) by (apply in_flat_map; exists x; rewrite Eg; cbn; auto).
      rewrite C in *. easy.
    + destruct (each_flow _ _ (wf ms m) (exists a t, mp_from m = Some a /\ mp_to m = Some t)
                  _ _ _ (fun s x s' Hs =>
                    conj (proj1 (writeFlow_step _ _ _ _ _ _ Hs))
                      (fun Q => match Q with
                         | ex_intro _ a (ex_intro _ t (conj Ha _)) =>
                             proj2 (writeFlow_step _ _ _ _ _ _ Hs) a Ha end)) H1) as [A B].
      cbn [fst snd app] in *. subst l. split; [reflexivity |].
      intros a t _ Ha Ht. destruct B as [B | (x & Hx & Hg)]; eauto; [discriminate |].
      intros C. apply Hg. destruct (wf ms m x) as [| g gs] eqn:Eg; [reflexivity |].
      assert (In g (flat_map (wf ms m) ws)) by (apply in_flat_map; exists x; rewrite Eg; cbn; auto).
      rewrite C in *. easy.
  - inversion H. rewrite app_nil_r. split; [reflexivity |]. intros a t Hd.
    apply sameDir_iff in Hd. congruence.
Qed.

Lemma mapFlows_all : forall ms us ws rs d maps fl fl', each (mapFlows ms us ws rs d) maps fl = Good fl' ->
  fl' = fl ++ flat_map (flowsOf ms ws rs d) maps.
Proof.
  intros ms us ws rs d maps. induction maps as [| m maps IH]; intros fl fl' H; cbn in H.
  - inversion H. cbn. now rewrite app_nil_r.
  - apply bind_good in H as (b & H1 & H2). apply mapFlows_step in H1 as [-> _].
    rewrite (IH _ _ H2), <- app_assoc. reflexivity.
Qed.

(** A participant whose tags were read. *)
Definition PartRead (ms : list meshTag) (r : reader) (p : partTag) (fl : list flow) : Prop :=
  each (addUse ms (p_name p)) (p_uses p) [] = Good (p_uses p) /\
  each (addField ms []) (p_writes p) [] = Good (p_writes p) /\
  each (addField ms (p_writes p)) (p_reads p) [] = Good (p_reads p) /\
  each (addMap ms) (p_maps p) [] = Good (p_maps p) /\
  (forall m, In m (p_maps p) ->
     mapFits ms r (p_name p) (p_uses p) (p_writes p) (p_reads p) (p_maps p) m = Good tt) /\
  fl = flat_map (flowsOf ms (p_writes p) (p_reads p) Writes) (p_maps p) ++
       flat_map (flowsOf ms (p_writes p) (p_reads p) Reads) (p_maps p) /\
  (forall m a t, In m (p_maps p) -> mp_from m = Some a -> mp_to m = Some t ->
     flowsOf ms (p_writes p) (p_reads p) (mp_dir m) m <> []).

Lemma each_unit : forall X (f : X -> res unit) xs u m,
  each (fun (_ : unit) x => f x) xs u = Good tt -> In m xs -> f m = Good tt.
Proof.
  intros X f xs u m H Hm. apply in_split in Hm as (pre & post & Hm).
  destruct (each_cut _ _ _ _ _ _ _ _ _ H Hm) as (a & [] & _ & Hb & _). exact Hb.
Qed.

Lemma addPart_good : forall rm ms r parts p parts', addPart rm ms r parts p = Good parts' ->
  exists fl, PartRead ms r p fl /\
    parts' = parts ++ [Participant (p_name p) (p_uses p) (p_writes p) (p_reads p) fl].
Proof.
  intros rm ms r parts p parts' H. unfold addPart in H.
  apply bind_good in H as (us & Hu & H). apply bind_good in H as (ws & Hw & H).
  apply bind_good in H as (rs & Hr & H). apply bind_good in H as (mp & Hm & H).
  apply bind_good in H as ([] & Hf & H). apply bind_good in H as (fw & Hfw & H).
  apply bind_good in H as (fl & Hfl & H).
  apply check_good in H as [_ H]. apply check_good in H as [_ H]. apply check_good in H as [_ H].
  pose proof (each_app _ _ _ _ _ (addUse_app _ _) Hu) as E. cbn in E. subst us.
  pose proof (each_app _ _ _ _ _ (addField_app _ _) Hw) as E. cbn in E. subst ws.
  pose proof (each_app _ _ _ _ _ (addField_app _ _) Hr) as E. cbn in E. subst rs.
  pose proof (each_app _ _ _ _ _ (addMap_app _) Hm) as E. cbn in E. subst mp.
  exists fl. split; [| now inversion H].
  assert (E1 := mapFlows_all _ _ _ _ _ _ _ _ Hfw).
  assert (E2 := mapFlows_all _ _ _ _ _ _ _ _ Hfl). cbn in E1.
  unfold PartRead. repeat split; auto.
  - intros m Hi. exact (each_unit _ _ _ _ _ Hf Hi).
  - rewrite E2, E1. reflexivity.
  - intros m a t Hi Ha Ht. apply in_split in Hi as (pre & post & Hi). destruct (mp_dir m) eqn:Ed.
    + destruct (each_cut _ _ _ _ _ _ _ _ _ Hfl Hi) as (x & y & _ & Hy & _).
      apply mapFlows_step in Hy as [_ Hy]. eauto.
    + destruct (each_cut _ _ _ _ _ _ _ _ _ Hfw Hi) as (x & y & _ & Hy & _).
      apply mapFlows_step in Hy as [_ Hy]. eauto.
Qed.

(** A mapping goes between a mesh received and a mesh provided. *)
Lemma mapFits_dirs : forall ms r n us ws rs all m, mapFits ms r n us ws rs all m = Good tt ->
  match mp_dir m, mp_from m, mp_to m with
  | Reads, Some f, Some t => isReceived us f = true /\ isProvided us t = true
  | Reads, Some f, None => isReceived us f = true
  | Reads, None, _ => False
  | Writes, Some f, Some t => isProvided us f = true /\ isReceived us t = true
  | Writes, None, Some t => isReceived us t = true
  | Writes, _, None => False
  end.
Proof.
  intros ms r n us ws rs all m H. unfold mapFits in H. apply check_good in H as [_ H].
  apply check_good in H as [H _].
  destruct (mp_dir m), (mp_from m), (mp_to m); try discriminate; auto;
    now apply andb_true_iff in H.
Qed.

Lemma mapFits_defined : forall ms r n us ws rs all m, mapFits ms r n us ws rs all m = Good tt ->
  wellDefined ms (map snd (match mp_dir m with Writes => ws | Reads => rs end)) m all = true.
Proof. intros ms r n us ws rs all m H. now apply check_good in H as [H _]. Qed.

Lemma mapFits_scaled : forall ms r n us ws rs all m, mapFits ms r n us ws rs all m = Good tt ->
  r_name r = n -> 1 < r_size r ->
  (mp_dir m = Reads /\ mp_constraint m = Consistent) \/
  (mp_dir m = Writes /\ mp_constraint m = Conservative).
Proof.
  intros ms r n us ws rs all m H <- Hs. do 2 apply check_good in H as [_ H].
  apply check_good in H as [H _]. rewrite Nat.eqb_refl in H.
  apply Nat.ltb_lt in Hs. rewrite Hs in H. cbn in H.
  destruct (mp_dir m), (mp_constraint m); try discriminate; auto.
Qed.

Lemma flowsOf_in : forall ms ws rs d m g, In g (flowsOf ms ws rs d m) ->
  mp_dir m = d /\ fl_dir g = d /\ fl_from g = mp_from m /\ fl_to g = mp_to m /\
  match d, mp_from m, mp_to m with
  | Writes, Some a, Some t => In (a, fl_data g) ws /\ hasData ms t (fl_data g) = true
  | Writes, None, Some t => In (t, fl_data g) ws
  | Reads, Some a, Some t => In (t, fl_data g) rs /\ hasData ms a (fl_data g) = true
  | Reads, Some a, None => In (a, fl_data g) rs
  | _, _, _ => False
  end.
Proof.
  intros ms ws rs d m g H. unfold flowsOf in H. destruct (sameDir (mp_dir m) d) eqn:E; [| easy].
  apply sameDir_iff in E. split; [exact E |].
  destruct d; apply in_flat_map in H as ([x y] & Hx & H); unfold rf, wf in H;
    destruct (mp_from m) as [a |], (mp_to m) as [t |]; cbn [fst snd] in H; try easy.
  - destruct (Nat.eqb_spec t x); cbn in H; [| easy]. destruct (hasData ms a y) eqn:Eh; [| easy].
    destruct H as [<- | []]. cbn. subst. auto.
  - destruct (Nat.eqb_spec a x); cbn in H; [| easy]. destruct H as [<- | []]. cbn. subst. auto.
  - destruct (Nat.eqb_spec a x); cbn in H; [| easy]. destruct (hasData ms t y) eqn:Eh; [| easy].
    destruct H as [<- | []]. cbn. subst. auto.
  - destruct (Nat.eqb_spec t x); cbn in H; [| easy]. destruct H as [<- | []]. cbn. subst. auto.
Qed.

Lemma filled_app : forall a b, filled (a ++ b) = filled a ++ filled b.
Proof. intros a b. unfold filled. now rewrite flat_map_app. Qed.

Lemma filled_flat : forall X (g : X -> list flow) l,
  filled (flat_map g l) = flat_map (fun x => filled (g x)) l.
Proof.
  intros X g l. induction l as [| x l IH]; cbn; [reflexivity |]. now rewrite filled_app, IH.
Qed.

Lemma filled_in : forall gs t d, In (t, d) (filled gs) ->
  exists g, In g gs /\ fl_to g = Some t /\ fl_data g = d.
Proof.
  intros gs t d H. unfold filled in H. apply in_flat_map in H as (g & Hg & H).
  destruct (fl_to g) eqn:E; [| easy]. destruct H as [H | []]. inversion H; subst. eauto.
Qed.

(** What two mappings of a participant fill. *)
Lemma flows_clash : forall ms r p d x y pre mid post g h,
  each (addField ms []) (p_writes p) [] = Good (p_writes p) ->
  each (addMap ms) (p_maps p) [] = Good (p_maps p) ->
  (forall m, In m (p_maps p) ->
     mapFits ms r (p_name p) (p_uses p) (p_writes p) (p_reads p) (p_maps p) m = Good tt) ->
  p_maps p = pre ++ x :: mid ++ y :: post ->
  In g (flowsOf ms (p_writes p) (p_reads p) d x) ->
  In h (flowsOf ms (p_writes p) (p_reads p) d y) ->
  fl_to g = fl_to h -> fl_to g <> None -> fl_data g = fl_data h -> False.
Proof.
  intros ms r p d x y pre mid post g h Hw Hm Hf E Hg Hh Et Hn Ed.
  apply flowsOf_in in Hg as (Dx & _ & Fg & Tg & Pg). apply flowsOf_in in Hh as (Dy & _ & Fh & Th & Ph).
  assert (Iy : In y (p_maps p)) by (rewrite E; apply in_app_iff; right; right; apply in_elt).
  pose proof (mapFits_defined _ _ _ _ _ _ _ _ (Hf _ Iy)) as Wy. rewrite Dy in Wy.
  destruct (mp_to x) as [t |] eqn:Tx; [| congruence].
  destruct (mp_to y) as [t' |] eqn:Ty; [| congruence]. assert (t' = t) by congruence. subst t'.
  destruct d.
  - destruct (mp_from x) as [a |] eqn:Fx; [| easy]. destruct (mp_from y) as [b |] eqn:Fy; [| easy].
    destruct Pg as [Pg1 Pg2], Ph as [Ph1 Ph2]. rewrite <- Ed in Ph1, Ph2.
    apply (two_maps _ _ _ _ x y _ _ _ t a b (fl_data g) Hm E Wy); auto.
    apply in_map_iff. exists (t, fl_data g). auto.
  - destruct (mp_from x) as [a |] eqn:Fx.
    2:{ eapply (newMap_mixed _ _ _ x y _ _ _ Hm E); eauto; congruence. }
    destruct (mp_from y) as [b |] eqn:Fy.
    2:{ eapply (newMap_mixed _ _ _ x y _ _ _ Hm E); eauto; congruence. }
    destruct Pg as [Pg1 Pg2], Ph as [Ph1 Ph2]. rewrite <- Ed in Ph1, Ph2.
    apply (two_maps _ _ _ _ x y _ _ _ t a b (fl_data g) Hm E Wy); auto.
    + exact (fields_have _ _ _ _ _ Hw Pg1).
    + exact (fields_have _ _ _ _ _ Hw Ph1).
    + apply in_map_iff. exists (a, fl_data g). auto.
Qed.

Lemma filled_once : forall ms r p fl, PartRead ms r p fl -> NoDup (filled fl).
Proof.
  intros ms r p fl HP. pose proof HP as (Hu & Hw & Hr & Hm & Hf & Hfl & _). rewrite Hfl, filled_app.
  assert (one : forall d, NoDup (filled (flat_map (flowsOf ms (p_writes p) (p_reads p) d) (p_maps p)))).
  { intros d. rewrite filled_flat. apply nodup_flat.
    - intros m Hi. unfold flowsOf. destruct (sameDir (mp_dir m) d); [| constructor].
      destruct d; rewrite filled_flat; apply nodup_flat.
      + intros x Hx. unfold rf. destruct (mp_from m), (mp_to m); cbn; try constructor;
          match goal with |- context [if ?b then _ else _] => destruct b end; cbn;
          repeat constructor; auto.
      + intros pre x mid y post E z Hx Hy. destruct z as [t d].
        apply filled_in in Hx as (g & Hg & G1 & G2). apply filled_in in Hy as (h & Hh & H1 & H2).
        unfold rf in Hg, Hh. destruct (mp_from m) as [a |]; [| easy].
        destruct (mp_to m) as [t' |].
        * destruct (Nat.eqb_spec t' (fst x)) as [Ex | Ex]; cbn in Hg; [| easy].
          destruct (Nat.eqb_spec t' (fst y)) as [Ey | Ey]; cbn in Hh; [| easy].
          destruct (hasData ms a (snd x)); [| easy]. destruct (hasData ms a (snd y)); [| easy].
          destruct Hg as [<- | []], Hh as [<- | []]. cbn in *.
          assert (Exy : x = y) by (destruct x, y; cbn in *; congruence). subst y.
          pose proof (fields_once _ _ _ _ Hr) as N. rewrite E in N.
          apply NoDup_remove_2 in N. apply N. apply in_app_iff. right. apply in_elt.
        * destruct (Nat.eqb_spec a (fst x)) as [Ex | Ex]; cbn in Hg; [| easy].
          destruct Hg as [<- | []]. discriminate.
      + intros x Hx. unfold wf. destruct (mp_from m), (mp_to m); cbn; try constructor;
          match goal with |- context [if ?b then _ else _] => destruct b end; cbn;
          repeat constructor; auto.
      + intros pre x mid y post E z Hx Hy. destruct z as [t d].
        apply filled_in in Hx as (g & Hg & G1 & G2). apply filled_in in Hy as (h & Hh & H1 & H2).
        pose proof (fields_once _ _ _ _ Hw) as N. rewrite E in N.
        apply NoDup_remove_2 in N.
        assert (Exy : x = y).
        { unfold wf in Hg, Hh. destruct (mp_to m) as [t' |]; [| destruct (mp_from m); easy].
          destruct (mp_from m) as [a |].
          - destruct (Nat.eqb_spec a (fst x)) as [Ex | Ex]; cbn in Hg; [| easy].
            destruct (Nat.eqb_spec a (fst y)) as [Ey | Ey]; cbn in Hh; [| easy].
            destruct (hasData ms t' (snd x)); [| easy]. destruct (hasData ms t' (snd y)); [| easy].
            destruct Hg as [<- | []], Hh as [<- | []]. cbn in *. destruct x, y; cbn in *; congruence.
          - destruct (Nat.eqb_spec t' (fst x)) as [Ex | Ex]; cbn in Hg; [| easy].
            destruct (Nat.eqb_spec t' (fst y)) as [Ey | Ey]; cbn in Hh; [| easy].
            destruct Hg as [<- | []], Hh as [<- | []]. cbn in *. destruct x, y; cbn in *; congruence. }
        subst y. apply N. apply in_app_iff. right. apply in_elt.
    - intros pre x mid y post E [t dt] Hx Hy.
      apply filled_in in Hx as (g & Hg & G1 & G2). apply filled_in in Hy as (h & Hh & H1 & H2).
      eapply (flows_clash ms r p d x y); eauto; congruence. }
  assert (disj : forall z,
    In z (filled (flat_map (flowsOf ms (p_writes p) (p_reads p) Writes) (p_maps p))) ->
    In z (filled (flat_map (flowsOf ms (p_writes p) (p_reads p) Reads) (p_maps p))) -> False).
  { intros [t dt] Hx Hy.
    apply filled_in in Hx as (g & Hg & G1 & G2). apply filled_in in Hy as (h & Hh & H1 & H2).
    apply in_flat_map in Hg as (x & Ix & Hg). apply in_flat_map in Hh as (y & Iy & Hh).
    apply flowsOf_in in Hg as (Dx & _ & Fg & Tg & Pg). apply flowsOf_in in Hh as (Dy & _ & Fh & Th & Ph).
    pose proof (mapFits_dirs _ _ _ _ _ _ _ _ (Hf _ Ix)) as X. rewrite Dx in X.
    pose proof (mapFits_dirs _ _ _ _ _ _ _ _ (Hf _ Iy)) as Y. rewrite Dy in Y.
    rewrite G1 in Tg. rewrite H1 in Th. rewrite <- Tg in X. rewrite <- Th in Y.
    apply (not_both (p_uses p) t (uses_once _ _ _ _ Hu)).
    - destruct (mp_from y); [apply Y | easy].
    - destruct (mp_from x); [apply X | exact X]. }
  pose proof (one Writes) as N1. pose proof (one Reads) as N2.
  induction (filled (flat_map (flowsOf ms (p_writes p) (p_reads p) Writes) (p_maps p))) as [| z zs IH];
    cbn; [exact N2 |].
  inversion N1; subst. constructor.
  - rewrite in_app_iff. intros [C | C]; [easy |]. apply (disj z); [now left | exact C].
  - apply IH; auto. intros a Ha. apply disj. now right.
Qed.
