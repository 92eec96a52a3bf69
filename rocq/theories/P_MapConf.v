(** Proofs about [M_MapConf]. *)
From Coq Require Import Bool String List Arith ZArith Lia.
From Verif Require Import M_MapConf S_MapConf.
Import ListNotations.

Lemma check_ok {B} b (k : res B) v : check b k = Ok v <-> b = true /\ k = Ok v.
Proof. unfold check. destruct b; split; try tauto; try discriminate; intros [? ?]; discriminate. Qed.
Lemma bind_ok {A B} (x : res A) (f : A -> res B) v : bindR x f = Ok v <-> exists a, x = Ok a /\ f a = Ok v.
Proof. destruct x; cbn; split; try discriminate; try (intros (? & ? & ?); congruence). intros H. eauto. Qed.
Lemma check_def {B} b (k : res B) : k <> Undefined -> check b k <> Undefined.
Proof. unfold check. destruct b; congruence. Qed.
Lemma bind_def {A B} (x : res A) (f : A -> res B) : x <> Undefined -> (forall a, x = Ok a -> f a <> Undefined) -> bindR x f <> Undefined.
Proof. destruct x; cbn; intros; auto; discriminate. Qed.
Lemma given_spec {A} (o : option A) b : implb (given o) b = true <-> (o <> None -> b = true).
Proof. destruct o; cbn; split; try tauto; intros H; try (intros _; exact H); apply H; discriminate. Qed.

Section P.
Variable D : Type.
Variable isfinite : D -> bool.
Variable toShape : D -> D.
Variables zero nan tol8 tol9 ov30 ov15 : D.
Variable valid : basis -> D -> D -> bool.
Variable stoi : string -> option Z.
Variable bld : build.
Variable experimental : bool.
Variable size : nat.
Hypothesis zeroRead : stoi "0"%string = Some 0%Z.

Notation connectTags := (connectTags D isfinite toShape zero nan stoi).
Notation basisCallback := (basisCallback D isfinite toShape zero nan).
Notation executorCallback := (executorCallback D stoi).

Lemma attributes_spec e : readAttributes D e = true <-> attributes_ok D e.
Proof.
  assert (Hp : forall t, hasAttribute t APolynomial = true <-> In t [GlobalDirect; GlobalIterative; PumDirect]) by (intros []; cbn; intuition discriminate).
  assert (Hd : forall t, hasAttribute t ADead = true <-> In t [GlobalDirect; GlobalIterative; Alias]) by (intros []; cbn; intuition discriminate).
  assert (Hr : forall t, hasAttribute t ARtol = true <-> t = GlobalIterative) by (intros []; cbn; split; congruence).
  assert (Hc : forall t, hasAttribute t AClusters = true <-> t = PumDirect) by (intros []; cbn; split; congruence).
  assert (Ha : forall t, hasAttribute t ARadius = true <-> t = CoarseGraining) by (intros []; cbn; split; congruence).
  assert (Ho : match e_type e, e_poly e with PumDirect, Some PolyOn => false | _, _ => true end = true <-> (e_type e = PumDirect -> e_poly e <> Some PolyOn)).
  { destruct (e_type e); try (split; [discriminate|reflexivity]); try (split; [intros _ C; discriminate C|reflexivity]). destruct (e_poly e) as [[]|]; split; try discriminate; try reflexivity; intros H; [destruct (H eq_refl eq_refl)|..]; intros _; discriminate. }
  unfold readAttributes, attributes_ok. cbv zeta. rewrite !andb_true_iff, !given_spec, Hp, Hd, Hr, Hc, Ha, Ho. tauto.
Qed.

Lemma rbf_spec t : requiresBasisFunction t = true <-> rbf_tag t.
Proof. unfold rbf_tag. destruct t; cbn; intuition discriminate. Qed.

(** the fold over the basis functions and the one over the executors *)
Definition setBasis (r : rbfConfig D) b support shape : res (rbfConfig D) :=
  match r_basis r with
  | Some _ => Reported
  | None =>
      let s := value (hasSupport b) support nan zero in
      let h := value (hasShape b) shape nan zero in
      let rbf h := Rbf (r_solver r) (r_dead r) (r_poly r) (r_rtol r) (r_clusters r) (Some b) s h in
      match b with Gaussian => check (xorb (isfinite s) (isfinite h)) (Ok (rbf (if isfinite s then toShape s else h))) | _ => Ok (rbf h) end
  end.
Fixpoint basisPart (r : rbfConfig D) (subs : list (subtag D)) : res (rbfConfig D) :=
  match subs with [] => Ok r | BasisTag b s h :: l => bindR (setBasis r b s h) (fun r' => basisPart r' l) | _ :: l => basisPart r l end.
Definition deviceOf (x : executor) (device : option string) : res Z :=
  let did := value (hasDevice x) device "0"%string "0"%string in
  if String.eqb did "auto" then Ok (-1)%Z else match stoi did with None => Reported | Some d => check (0 <=? d)%Z (Ok d) end.
Definition setExec (t : mtype) (x : executor) device threads m : res executorConfig :=
  bindR (deviceOf x device) (fun d => Ok (Exec x d (value (hasThreads x) threads 0%Z 0%Z)
                (match value (hasMode t x) m MinimalMemory MinimalCompute with MinimalMemory => false | MinimalCompute => true end))).
Fixpoint execPart (t : mtype) (c : option executorConfig) (subs : list (subtag D)) : res (option executorConfig) :=
  match subs with [] => Ok c | ExecutorTag x d n m :: l => bindR (setExec t x d n m) (fun x' => execPart t (Some x') l) | _ :: l => execPart t c l end.
Fixpoint uniq (used subs : list (subtag D)) : bool :=
  match subs with [] => true | k :: l => negb (existsb (sameTag D k) used) && uniq (k :: used) l end.

Lemma connect_spec t subs : forall used m l r x c s', m_needsBasis m = true ->
  (connectTags t used subs (State (m :: l) r x c) = Ok s' <->
   forallb (knownSubtag D t) subs = true /\ uniq used subs = true /\ exists r' x', basisPart r subs = Ok r' /\ execPart t x subs = Ok x' /\ s' = State (m :: l) r' x' c).
Proof.
  induction subs as [|k subs IH]; intros used m l r x c s' N.
  { cbn. split; [intros H; injection H as <-; eauto 8|intros (_ & _ & r' & x' & H1 & H2 & ->); congruence]. }
  cbn [M_MapConf.connectTags forallb uniq]. rewrite !check_ok, bind_ok, !andb_true_iff. destruct k as [b sr sh|y d n mo].
  - cbn [basisPart execPart].
    assert (E : M_MapConf.basisCallback D isfinite toShape zero nan (State (m :: l) r x c) b sr sh = bindR (setBasis r b sr sh) (fun r' => Ok (State (m :: l) r' x c))).
    { unfold M_MapConf.basisCallback, setBasis. cbn [s_mappings s_rbf s_exec s_constr]. rewrite N. cbn [check]. destruct (r_basis r); [reflexivity|].
      destruct b; try reflexivity. unfold check. destruct (xorb _ _); reflexivity. }
    rewrite E. split.
    + intros (K & U & a & H1 & H2). rewrite bind_ok in H1. destruct H1 as (r1 & H1 & H3). injection H3 as <-.
      rewrite IH in H2 by exact N. destruct H2 as (F & U2 & r' & x' & B & X & ->). repeat split; auto. exists r', x'. rewrite H1. cbn. auto.
    + intros ((K & F) & (U & U2) & r' & x' & B & X & ->). rewrite bind_ok in B. destruct B as (r1 & H1 & B). repeat split; auto.
      exists (State (m :: l) r1 x c). split; [rewrite H1; reflexivity|]. apply IH; auto. eauto 8.
  - cbn [basisPart execPart].
    assert (E : M_MapConf.executorCallback D stoi (State (m :: l) r x c) t y d n mo = bindR (setExec t y d n mo) (fun x' => Ok (State (m :: l) r (Some x') c))).
    { unfold M_MapConf.executorCallback, setExec, deviceOf. cbn [s_mappings s_rbf s_exec s_constr]. cbv zeta. set (did := value (hasDevice y) d "0"%string "0"%string). destruct (String.eqb did "auto"); [reflexivity|].
      destruct (stoi did) as [z|]; [|reflexivity]. unfold check. destruct (0 <=? z)%Z; reflexivity. }
    rewrite E. split.
    + intros (K & U & a & H1 & H2). rewrite bind_ok in H1. destruct H1 as (x1 & H1 & H3). injection H3 as <-.
      rewrite IH in H2 by exact N. destruct H2 as (F & U2 & r' & x' & B & X & ->). repeat split; auto. exists r', x'. rewrite H1. cbn. auto.
    + intros ((K & F) & (U & U2) & r' & x' & B & X & ->). rewrite bind_ok in X. destruct X as (x1 & H1 & X). repeat split; auto.
      exists (State (m :: l) r (Some x1) c). split; [rewrite H1; reflexivity|]. apply IH; auto. eauto 8.
Qed.

Lemma connect_none t subs used s s' : requiresBasisFunction t = false -> connectTags t used subs s = Ok s' -> subs = [] /\ s' = s.
Proof.
  intros N. destruct subs as [|k r]; cbn; [intros H; injection H as <-; auto|]. rewrite check_ok. intros [K _]. exfalso.
  destruct k as [b ? ?|x ? ? ?]; cbn in K; [rewrite N in K; discriminate K|]. destruct t; try discriminate N; destruct x; discriminate K.
Qed.

(** the basis functions *)
Definition noBasis (l : list (subtag D)) : Prop := forall k, In k l -> basis_name D k = None.
Lemma basis_none l : forall r, noBasis l -> basisPart r l = Ok r.
Proof.
  induction l as [|k l IH]; intros r N; [reflexivity|]. pose proof (N k (or_introl eq_refl)) as Nk. destruct k; [discriminate Nk|]. cbn. apply IH. intros k Hk. apply N. right. exact Hk.
Qed.
Lemma basis_some l : forall r b, r_basis r = Some b -> forall r', basisPart r l = Ok r' -> noBasis l /\ r' = r.
Proof.
  induction l as [|k l IH]; intros r b R r' H; [cbn in H; split; [intros ? []|congruence]|]. destruct k as [? ? ?|? ? ? ?]; cbn in H.
  - unfold setBasis in H. rewrite R in H. discriminate H.
  - destruct (IH r b R r' H) as [N ->]. split; [|reflexivity]. intros k [<-|Hk]; [reflexivity|apply N, Hk].
Qed.
Lemma basis_part l : forall r r' b, r_basis r = None -> (basisPart r l = Ok r' /\ r_basis r' = Some b <->
  exists pre post s h, l = pre ++ BasisTag b s h :: post /\ noBasis (pre ++ post) /\ setBasis r b s h = Ok r').
Proof.
  assert (SB : forall r r1 b s h, setBasis r b s h = Ok r1 -> r_basis r1 = Some b).
  { intros r r1 b s h. unfold setBasis. destruct (r_basis r); [discriminate|]. destruct b; try (intros H; injection H as <-; reflexivity). rewrite check_ok. intros [_ H]. injection H as <-. reflexivity. }
  induction l as [|k l IH]; intros r r' b R.
  - cbn. split; [intros [H1 H2]; congruence|]. intros (pre & post & s & h & H & _). destruct pre; discriminate H.
  - destruct k as [b1 s1 h1|x d n m]; cbn [basisPart].
    + rewrite bind_ok. split.
      * intros ((r1 & H1 & H2) & H3). pose proof (SB _ _ _ _ _ H1) as R1. destruct (basis_some l r1 b1 R1 r' H2) as [N ->]. exists [], l, s1, h1.
        assert (b1 = b) by congruence. subst b1. auto.
      * intros (pre & post & s & h & E & N & H). destruct pre as [|k pre]; cbn in E.
        -- injection E as -> -> -> ->. split; [|exact (SB _ _ _ _ _ H)]. exists r'. split; [exact H|]. apply basis_none. exact N.
        -- injection E as <- ->. specialize (N _ (or_introl eq_refl)). discriminate N.
    + rewrite IH by exact R. split; intros (pre & post & s & h & E & N & H).
      * exists (ExecutorTag x d n m :: pre), post, s, h. split; [rewrite E; reflexivity|]. split; [|exact H]. intros k [<-|Hk]; [reflexivity|apply N, Hk].
      * destruct pre as [|k pre]; cbn in E; [discriminate E|]. injection E as <- ->. exists pre, post, s, h. split; [reflexivity|]. split; [|exact H]. intros k Hk. apply N. right. exact Hk.
Qed.

(** the executors *)
Definition noExec (l : list (subtag D)) : Prop := forall k, In k l -> executor_name D k = None.
Definition execsRead (t : mtype) (l : list (subtag D)) : Prop := forall x d n m, In (ExecutorTag x d n m) l -> exists v, deviceOf x d = Ok v.
Lemma exec_none t l : forall x, noExec l -> execPart t x l = Ok x.
Proof.
  induction l as [|k l IH]; intros x N; [reflexivity|]. pose proof (N k (or_introl eq_refl)) as Nk. destruct k; [|discriminate Nk]. cbn. apply IH. intros k Hk. apply N. right. exact Hk.
Qed.
Lemma exec_read t l : forall x x', execPart t x l = Ok x' -> execsRead t l.
Proof.
  induction l as [|k l IH]; intros x x' H; [intros ? ? ? ? []|]. destruct k as [? ? ?|y d n m]; cbn in H.
  - intros z d n m [Hz|Hz]; [discriminate Hz|]. exact (IH _ _ H z d n m Hz).
  - rewrite bind_ok in H. destruct H as (x1 & H1 & H2). intros z d' n' m' [Hz|Hz]; [|exact (IH _ _ H2 z d' n' m' Hz)].
    injection Hz as <- <- <- <-. unfold setExec in H1. rewrite bind_ok in H1. destruct H1 as (v & H1 & _). eauto.
Qed.
Lemma exec_total t l : forall x, execsRead t l -> exists x', execPart t x l = Ok x'.
Proof.
  induction l as [|k l IH]; intros x R; [cbn; eauto|]. assert (R' : execsRead t l) by (intros y d n m H; apply (R y d n m); right; exact H). destruct k as [? ? ?|y d n m]; cbn; [apply IH, R'|].
  destruct (R y d n m (or_introl eq_refl)) as (v & V). unfold setExec. rewrite V. cbn. apply IH, R'.
Qed.
(** the last executor *)
Lemma exec_part t pre y d n m post x : noExec post -> execsRead t pre -> execPart t x (pre ++ ExecutorTag y d n m :: post) = bindR (setExec t y d n m) (fun v => Ok (Some v)).
Proof.
  intros N. revert x. induction pre as [|k pre IH]; intros x R.
  - cbn. destruct (setExec t y d n m); cbn; auto using exec_none.
  - assert (R' : execsRead t pre) by (intros z d' n' m' H; apply (R z d' n' m'); right; exact H). destruct k as [? ? ?|z d' n' m']; cbn; [apply IH, R'|].
    destruct (R z d' n' m' (or_introl eq_refl)) as (v & V). unfold setExec at 1. rewrite V. cbn. apply IH, R'.
Qed.
Lemma exec_split l : noExec l \/ exists pre x d n m post, l = pre ++ ExecutorTag x d n m :: post /\ noExec post.
Proof.
  induction l as [|k l IH]; [left; intros ? []|]. destruct IH as [IH|(pre & x & d & n & m & post & -> & N)].
  - destruct k as [b s h|x d n m]; [left; intros k [<-|Hk]; [reflexivity|apply IH, Hk]|]. right. exists [], x, d, n, m, l. auto.
  - right. exists (k :: pre), x, d, n, m, post. auto.
Qed.

Lemma tag_same a b : sameTag D a b = true <-> (basis_name D a, executor_name D a) = (basis_name D b, executor_name D b).
Proof. destruct a as [[] ? ?|[] ? ? ?], b as [[] ? ?|[] ? ? ?]; cbn; split; intros H; try reflexivity; try discriminate H. Qed.
Lemma uniq_spec l : forall used, uniq used l = true <->
  (forall a b, In a used -> In b l -> sameTag D b a = false) /\ (forall i j a b, i < j -> nth_error l i = Some a -> nth_error l j = Some b -> sameTag D b a = false).
Proof.
  induction l as [|k l IH]; intros used; cbn [uniq].
  - split; [|reflexivity]. intros _. split; [intros a b _ []|]. intros [|i] [|j] a b; cbn; try lia; discriminate.
  - rewrite andb_true_iff, negb_true_iff, IH. split.
    + intros (E & U & V). assert (E' : forall a, In a used -> sameTag D k a = false).
      { intros a Ha. destruct (sameTag D k a) eqn:S; [|reflexivity]. assert (existsb (sameTag D k) used = true) by (apply existsb_exists; eauto). congruence. }
      split. { intros a b Ha [<-|Hb]; [apply E', Ha|]. apply U; [right; exact Ha|exact Hb]. }
      intros [|i] [|j] a b L; cbn; try lia; intros Ha Hb. { injection Ha as <-. apply U; [left; reflexivity|]. eapply nth_error_In, Hb. } eapply (V i j); eauto. lia.
    + intros (U & V). split. { destruct (existsb _ used) eqn:E; [|reflexivity]. apply existsb_exists in E. destruct E as (a & Ha & E). rewrite (U a k Ha (or_introl eq_refl)) in E. discriminate E. }
      split. { intros a b [<-|Ha] Hb; [|apply U; [exact Ha|right; exact Hb]]. apply In_nth_error in Hb. destruct Hb as (j & Hj). apply (V 0 (S j)); [lia|reflexivity|exact Hj]. }
      intros i j a b L Ha Hb. apply (V (S i) (S j)); [lia|exact Ha|exact Hb].
Qed.
Lemma uniq_nil e : uniq [] (e_subs e) = true <-> no_repetition D e.
Proof.
  rewrite uniq_spec. unfold no_repetition. split.
  - intros (_ & V) i j a b L Ha Hb E. assert (sameTag D b a = true) by (apply tag_same; congruence). rewrite (V i j a b L Ha Hb) in H. discriminate H.
  - intros V. split; [intros a b []|]. intros i j a b L Ha Hb. destruct (sameTag D b a) eqn:E; [|reflexivity]. apply tag_same in E. destruct (V i j a b L Ha Hb). congruence.
Qed.

Lemma device_read x d : (d <> None -> hasDevice x = true) -> ((exists v, deviceOf x d = Ok v) <-> device_readable stoi d).
Proof.
  intros H. unfold deviceOf, device_readable, value. destruct d as [s|].
  - rewrite H by discriminate. destruct (String.eqb_spec s "auto") as [->|N]; [split; eauto|]. split.
    + intros (v & V). destruct (stoi s) as [z|] eqn:Z; [|discriminate V]. rewrite check_ok in V. destruct V as [V _]. apply Z.leb_le in V. eauto 8.
    + intros [C|[C|(s' & z & E & Z & L)]]; [discriminate C|congruence|]. injection E as <-. rewrite Z. apply Z.leb_le in L. rewrite L. cbn. eauto.
  - split; [auto|]. intros _. destruct (hasDevice x); cbn [String.eqb]; change (String.eqb "0" "auto") with false; cbn iota; rewrite zeroRead; cbn; eauto.
Qed.
Lemma device_num x d v : (d <> None -> hasDevice x = true) -> deviceOf x d = Ok v -> toUnsigned v = device_number stoi d.
Proof.
  intros H. unfold deviceOf, device_number, value, toUnsigned. destruct d as [s|].
  - rewrite H by discriminate. destruct (String.eqb_spec s "auto") as [->|N]; [intros E; injection E as <-; reflexivity|]. destruct (stoi s) as [z|]; [|discriminate]. rewrite check_ok. intros [_ E]. injection E as <-. reflexivity.
  - destruct (hasDevice x); change (String.eqb "0" "auto") with false; cbn iota; rewrite zeroRead; cbn; intros E; injection E as <-; reflexivity.
Qed.

Lemma subtag_spec t k : (knownSubtag D t k = true /\ (forall x d n m, k = ExecutorTag x d n m -> exists v, deviceOf x d = Ok v)) <-> subtag_ok D stoi t k.
Proof.
  destruct k as [b s h|x d n m]; cbn [knownSubtag subtag_ok].
  - rewrite !andb_true_iff, !given_spec, rbf_spec. split.
    + intros ((((T & S) & H) & G) & _). split; [exact T|]. destruct b; cbn in *; try exact I; destruct s, h; cbn in *; split; try congruence; try discriminate;
        try (exfalso; first [discriminate G | assert (false = true) by (apply S; discriminate); discriminate | assert (false = true) by (apply H; discriminate); discriminate]).
    + intros (T & P). split; [|intros; discriminate]. destruct b; cbn in *; intuition (subst; try congruence; auto); try (destruct s; cbn; congruence); try (destruct h; cbn; congruence).
  - rewrite !andb_true_iff, !given_spec. split.
    + intros ((((X & Dv) & N) & M) & R). specialize (R x d n m eq_refl). apply (device_read x d Dv) in R.
      split; [destruct t, x; cbn in *; auto; discriminate X|]. split; [intros Hd; apply Dv in Hd; destruct x; cbn in *; auto; discriminate Hd|].
      split; [intros Hn; apply N in Hn; destruct x; cbn in *; auto; discriminate Hn|]. split; [intros Hm; apply M in Hm; destruct t, x; cbn in *; try discriminate Hm; split; auto; discriminate|exact R].
    + intros (X & Dv & N & M & R). assert (Dv' : d <> None -> hasDevice x = true) by (intros Hd; specialize (Dv Hd); cbn in Dv; intuition (subst; reflexivity)).
      split; [|intros x' d' n' m' E; injection E as <- <- <- <-; apply (device_read x d Dv'); exact R]. repeat split; auto.
      * destruct t; cbn in X; try contradiction X; destruct x; try reflexivity; exfalso; clear -X; intuition discriminate.
      * intros Hn. rewrite (N Hn). reflexivity.
      * intros Hm. destruct (M Hm) as [-> Hx]. destruct x; try reflexivity. congruence.
Qed.
Lemma subtags_spec t l : (forallb (knownSubtag D t) l = true /\ execsRead t l) <-> (forall k, In k l -> subtag_ok D stoi t k).
Proof.
  rewrite forallb_forall. split.
  - intros (K & R) k Hk. apply subtag_spec. split; [apply K, Hk|]. intros x d n m ->. exact (R x d n m Hk).
  - intros H. split; [intros k Hk; specialize (H k Hk); apply subtag_spec in H; apply H|]. intros x d n m Hk. apply H, subtag_spec in Hk. destruct Hk as [_ Hk]. exact (Hk x d n m eq_refl).
Qed.

(** support radius and shape parameter *)
Lemma set_spec t r b s h r' : r_basis r = None -> subtag_ok D stoi t (BasisTag b s h) -> (setBasis r b s h = Ok r' <->
  exists p q, parameters D isfinite toShape zero nan b s h p q /\ r' = Rbf (r_solver r) (r_dead r) (r_poly r) (r_rtol r) (r_clusters r) (Some b) p q).
Proof.
  intros R (_ & K). unfold setBasis. rewrite R. unfold parameters, value, default. destruct b; cbn [hasSupport hasShape] in *;
    try (split; [intros H; injection H as <-; eexists; eexists; split; [|reflexivity]; destruct s, h; intuition congruence
                |intros (p & q & (-> & ->) & ->); destruct s, h; try reflexivity; exfalso; intuition congruence]).
  rewrite check_ok. set (sv := match s with Some v => v | None => nan end). set (hv := match h with Some v => v | None => nan end). split.
  - intros [X H]. injection H as <-. exists sv, (if isfinite sv then toShape sv else hv). split; [|reflexivity]. split; [reflexivity|]. destruct (isfinite sv), (isfinite hv); cbn in X; try discriminate X; auto.
  - intros (p & q & (-> & C) & ->). destruct C as [(C1 & C2 & ->)|(C1 & C2 & ->)]; rewrite C1, C2; split; reflexivity.
Qed.

Notation configureOne := (configureOne D isfinite toShape zero nan tol8 tol9 ov30 ov15 valid stoi bld experimental size).
Notation configureAll := (configureAll D isfinite toShape zero nan tol8 tol9 ov30 ov15 valid stoi bld experimental size).
Notation specifies := (specifies D isfinite toShape zero nan tol8 tol9 ov30 ov15 valid stoi bld experimental size).
Notation createMapping := (createMapping D zero).
Notation finish := (finishRBFConfiguration D tol8 valid bld).

(** the first half of a tag *)
Definition madeSimple (e : element D) : option (mapping D) :=
  if requiresBasisFunction (e_type e) then None else Some (Simple (e_type e) (e_constr e) (e_dims e) (default (e_radius e) zero)).
Lemma callback_spec s e s1 : attributes_ok D e -> (mappingCallback D zero tol9 ov30 ov15 experimental size s e = Ok s1 <->
  type_ok D experimental size e /\ s1 = State (Configured (e_from e) (e_to e) (e_dims e) (requiresBasisFunction (e_type e)) (madeSimple e) :: s_mappings s)
     (configureRBFMapping D zero tol9 ov30 ov15 e) (s_exec s) (e_constr e)).
Proof.
  intros (_ & _ & _ & _ & _ & Ra).
  assert (Rn : e_type e <> CoarseGraining -> default (e_radius e) zero = zero) by (intros N; destruct (e_radius e); [destruct N; apply Ra; discriminate|reflexivity]).
  assert (J : isJustInTime D e = true <-> e_from e = ""%string \/ e_to e = ""%string) by (unfold isJustInTime; rewrite orb_true_iff, !String.eqb_eq; reflexivity).
  unfold mappingCallback. rewrite !check_ok, bind_ok. unfold M_MapConf.createMapping, type_ok, madeSimple.
  assert (Sz : (size <=? 1) = true <-> size <= 1) by apply Nat.leb_le.
  destruct (isJustInTime D e) eqn:Jt; (destruct (e_type e) eqn:T; cbn [requiresBasisFunction implb negb orb check hasAttribute value];
    try rewrite Rn by discriminate).
  all: try (split; [intros (_ & _ & a & C & _); discriminate C|intros ((_ & _ & _ & C) & _); specialize (C (proj1 J eq_refl)); cbn in C; exfalso; clear -C; intuition discriminate]).
  all: try (assert (Jf : e_from e = ""%string \/ e_to e = ""%string -> False) by (intros C; apply J in C; discriminate C)).
  all: split; [intros (Ex & Si & a & C & H); try (rewrite check_ok in C; destruct C as [Cc C]); injection C as <-; injection H as <-;
      (split; [|reflexivity]); repeat split; try (intros _; exact Ex); try (intros _; apply Sz; exact Si); cbn [In];
      try (intros C; exfalso; clear -C; intuition discriminate); try (intros C; exfalso; exact (Jf C)); auto;
      try (intros _ C; rewrite C in Cc; discriminate Cc)
    |intros ((Ex & Si & Cc & _) & ->); repeat split; try reflexivity; try (apply Ex; cbn; auto; fail); try (apply Sz, Si; cbn; auto; fail);
      eexists; (split; [|reflexivity]); try reflexivity; try (rewrite check_ok; split; [|reflexivity]; cbn [In] in Cc; destruct (e_constr e); try reflexivity; exfalso; apply Cc; auto; fail)].
Qed.

Lemma exec_first_mode t x m : (m <> None -> hasMode t x = true) -> t = PumDirect -> x <> CPU ->
  (match value (hasMode t x) m MinimalMemory MinimalCompute with MinimalMemory => false | MinimalCompute => true end) = match m with Some MinimalCompute => true | _ => false end.
Proof. intros _ -> N. destruct x; try congruence; destruct m as [[]|]; reflexivity. Qed.

(** the second half, given basis function and executor *)
Lemma finish_spec e b p q x d n mo v k : attributes_ok D e -> rbf_tag (e_type e) -> subtag_ok D stoi (e_type e) (ExecutorTag x d n mo) \/ (x = CPU /\ d = None /\ n = None /\ mo = None) ->
  (v = Exec CPU 0 0 true /\ x = CPU \/ setExec (e_type e) x d n mo = Ok v) ->
  (finish (let r := configureRBFMapping D zero tol9 ov30 ov15 e in Rbf (r_solver r) (r_dead r) (r_poly r) (r_rtol r) (r_clusters r) (Some b) p q) b v (e_constr e)
     (Configured (e_from e) (e_to e) (e_dims e) (requiresBasisFunction (e_type e)) (madeSimple e)) = Ok k <->
   valid b p q = true /\ in_build bld x /\ rbf_mapping D tol8 tol9 ov30 ov15 stoi bld e b p q x d n mo k).
Proof.
  intros (Ap & _ & Ad & Ar & Ac & _) T K V.
  assert (Hx : x_executor v = x).
  { destruct V as [[-> ->]|V]; [reflexivity|]. unfold setExec in V. rewrite bind_ok in V. destruct V as (z & _ & V). injection V as <-. reflexivity. }
  assert (Hv : x <> CPU -> toUnsigned (x_device v) = device_number stoi d /\ (match x with OMP => toUnsigned (x_threads v) | _ => 0%Z end = (default n 0 mod 2 ^ 32)%Z)
     /\ (e_type e = PumDirect -> x_offline v = match mo with Some MinimalCompute => true | _ => false end)).
  { intros N. destruct V as [[_ C]|V]; [congruence|]. destruct K as [K|[C _]]; [|congruence]. destruct K as (_ & Kd & Kn & Km & _).
    unfold setExec in V. rewrite bind_ok in V. destruct V as (z & Vz & V). injection V as <-. cbn [x_device x_threads x_offline]. split; [|split].
    - apply (device_num x); [|exact Vz]. intros C. specialize (Kd C). cbn in Kd. destruct x; try reflexivity; exfalso; clear -Kd; intuition discriminate.
    - destruct n as [z'|]; [rewrite (Kn) by discriminate; reflexivity|]. destruct x; reflexivity.
    - intros E. rewrite E. destruct x; try congruence; destruct mo as [[]|]; reflexivity. }
  unfold finishRBFConfiguration, rbf_mapping. rewrite Hx. cbv zeta. cbn [r_support r_shape r_dead r_poly r_rtol r_clusters r_solver r_basis m_dims m_from m_to configureRBFMapping].
  assert (Xa : e_type e = Alias -> x = CPU). { intros E. destruct K as [[K _]|[K _]]; [|exact K]. rewrite E in K. contradiction K. }
  assert (De : e_type e <> PumDirect -> value (hasAttribute (e_type e) ADead) (e_dead e) (false, false, false) (false, false, false) = default (e_dead e) no_axis).
  { intros _. unfold value, default. destruct (e_dead e) as [a|]; [|destruct (hasAttribute _ _); reflexivity]. specialize (Ad ltac:(discriminate)). cbn in Ad. destruct Ad as [<-|[<-|[<-|[]]]]; reflexivity. }
  unfold rbf_tag in T. cbn in T. destruct T as [T|[T|[T|[T|[]]]]]; rewrite <- T in *; cbn [hasAttribute value] in *.
  - destruct x; try (rewrite check_ok; split; [intros [C H]; injection H as <-; cbn; auto|intros (C & _ & ->); auto]);
      (destruct (Hv ltac:(discriminate)) as (-> & Ht & _)); rewrite !check_ok; cbn [available in_build];
      (split; [intros (C1 & C2 & C3 & H); injection H as <-; rewrite <- Ht; auto|intros (C1 & C2 & C3 & ->); rewrite <- Ht; auto]).
  - destruct x; try (rewrite !check_ok; split; [intros (C & C2 & H); injection H as <-; cbn; auto|intros (C & _ & C2 & ->); auto]);
      (destruct (Hv ltac:(discriminate)) as (-> & Ht & _)); rewrite !check_ok; cbn [available in_build];
      (split; [intros (C1 & C2 & C3 & H); injection H as <-; rewrite <- Ht; auto|intros (C1 & C2 & C3 & ->); rewrite <- Ht; auto]).
  - destruct x; try (rewrite check_ok; split; [intros [C H]; injection H as <-; cbn; auto|intros (C & _ & ->); auto]);
      (destruct (Hv ltac:(discriminate)) as (-> & Ht & Ho)); rewrite (Ho eq_refl); rewrite !check_ok, negb_true_iff, orb_false_iff, !String.eqb_neq; cbn [available in_build];
      (split; [intros (C1 & C2 & (C3 & C4) & C5 & H); injection H as <-; rewrite <- Ht; auto 8|intros (C1 & C2 & C3 & C4 & C5 & ->); rewrite <- Ht; auto 8]).
  - rewrite (Xa eq_refl). rewrite check_ok. split; [intros [C H]; injection H as <-; cbn; auto|intros (C & _ & ->); auto].
Qed.

Lemma one_sound s e s' : s_exec s = None -> configureOne s e = Ok s' -> exists m, specifies e m /\ s_exec s' = None /\ s_mappings s' = m :: s_mappings s.
Proof.
  intros X. unfold M_MapConf.configureOne. rewrite check_ok, bind_ok, attributes_spec. intros (A & s1 & H1 & H). rewrite callback_spec in H1 by exact A. destruct H1 as (Ty & ->).
  rewrite bind_ok in H. destruct H as (s2 & H & E). destruct (requiresBasisFunction (e_type e)) eqn:N.
  - rewrite connect_spec in H by reflexivity. destruct H as (F & U & r' & x' & B & Xp & ->). rewrite X in Xp. pose proof (exec_read _ _ _ _ Xp) as R.
    pose proof (proj1 (subtags_spec _ _) (conj F R)) as K. unfold xmlEndTagCallback in E. cbn [s_mappings s_rbf s_exec s_constr] in E. rewrite N in E.
    destruct (r_basis r') as [b|] eqn:Rb; [|discriminate E]. rewrite bind_ok in E. destruct E as (k & E & Es). injection Es as <-.
    pose proof (proj1 (basis_part (e_subs e) (configureRBFMapping D zero tol9 ov30 ov15 e) r' b eq_refl) (conj B Rb)) as B'.
    destruct B' as (pre & post & sr & sh & Es & Nb & Sb).
    assert (Kb : subtag_ok D stoi (e_type e) (BasisTag b sr sh)) by (apply K; rewrite Es; apply in_or_app; right; left; reflexivity).
    apply (set_spec (e_type e)) in Sb; [|reflexivity|exact Kb]. destruct Sb as (p & q & Pq & ->).
    exists (Configured (e_from e) (e_to e) (e_dims e) true (Some k)). split; [|split; reflexivity]. apply rbf_spec in N.
    assert (Fin : exists x d n mo, the_executor D e x d n mo /\ in_build bld x /\ valid b p q = true /\ rbf_mapping D tol8 tol9 ov30 ov15 stoi bld e b p q x d n mo k).
    { destruct (exec_split (e_subs e)) as [Ne|(pre' & x & d & n & mo & post' & Ee & Ne)].
      - rewrite exec_none in Xp by exact Ne. injection Xp as <-. exists CPU, None, None, None.
        pose proof (proj1 (finish_spec e b p q CPU None None None (Exec CPU 0 0 true) k A N (or_intror (conj eq_refl (conj eq_refl (conj eq_refl eq_refl)))) (or_introl (conj eq_refl eq_refl)))) as Fs.
        rewrite (proj2 (rbf_spec (e_type e)) N) in Fs. destruct (Fs E) as (V & I & M). split; [left; auto|auto].
      - rewrite Ee in Xp. rewrite exec_part in Xp; [|exact Ne|intros y d' n' m' Hy; apply (R y d' n' m'); rewrite Ee; apply in_or_app; left; exact Hy].
        rewrite bind_ok in Xp. destruct Xp as (v & Sv & Xp). injection Xp as <-. exists x, d, n, mo.
        assert (Ke : subtag_ok D stoi (e_type e) (ExecutorTag x d n mo)) by (apply K; rewrite Ee; apply in_or_app; right; left; reflexivity).
        pose proof (proj1 (finish_spec e b p q x d n mo v k A N (or_introl Ke) (or_intror Sv))) as Fs.
        rewrite (proj2 (rbf_spec (e_type e)) N) in Fs. destruct (Fs E) as (V & I & M). split; [right; exists pre', post'; auto|auto]. }
    destruct Fin as (x & d & n & mo & Te & I & V & M). split; [exact A|]. split; [exact Ty|]. split; [exact K|]. split; [apply uniq_nil; exact U|]. cbn [m_from m_to m_dims m_needsBasis m_mapping].
    repeat (split; [reflexivity|]). split; [tauto|]. right. exists b, sr, sh, p, q, x, d, n, mo, k. split; [exact N|]. split; [exists pre, post; auto|]. auto 8.
  - apply connect_none in H; [|exact N]. destruct H as (Es & ->). unfold xmlEndTagCallback in E. cbn [s_mappings] in E. rewrite N in E. cbn [m_mapping] in E. unfold madeSimple in E. rewrite N in E. injection E as <-.
    assert (Nt : ~ rbf_tag (e_type e)) by (rewrite <- rbf_spec, N; discriminate).
    eexists. split; [|split; [exact X|reflexivity]]. split; [exact A|]. split; [exact Ty|]. rewrite Es. split; [intros ? []|]. split; [unfold no_repetition; rewrite Es; intros [|i] j a b _ C; discriminate C|].
    cbn [m_from m_to m_dims m_needsBasis m_mapping]. repeat (split; [reflexivity|]). split; [split; [discriminate|tauto]|]. left. auto.
Qed.

Lemma one_complete s e m : s_exec s = None -> specifies e m -> exists s', configureOne s e = Ok s' /\ s_exec s' = None /\ s_mappings s' = m :: s_mappings s.
Proof.
  intros X (A & Ty & K & U & Mf & Mt & Md & Mn & C). destruct m as [mf mt md mn mm]. cbn [m_from m_to m_dims m_needsBasis m_mapping] in *. subst mf mt md.
  assert (Mn' : mn = requiresBasisFunction (e_type e)).
  { pose proof (rbf_spec (e_type e)) as Hr. destruct mn, (requiresBasisFunction (e_type e)); auto; [symmetry; apply Hr, Mn; reflexivity|apply Mn, Hr; reflexivity]. }
  subst mn. clear Mn. destruct (proj2 (subtags_spec _ _) K) as (F & R).
  assert (A' := A). apply attributes_spec in A'. unfold M_MapConf.configureOne. rewrite A'. cbn [check].
  pose proof (proj2 (callback_spec s e _ A) (conj Ty eq_refl)) as H1. rewrite H1. cbn [bindR]. clear H1. rewrite X.
  destruct C as [(Nt & ->)|(b & sr & sh & p & q & x & d & n & mo & k & N & (pre & post & Es & Nb) & Pq & V & Te & I & M & ->)].
  - assert (N : requiresBasisFunction (e_type e) = false) by (destruct (requiresBasisFunction (e_type e)) eqn:N; [apply rbf_spec in N; contradiction|reflexivity]).
    assert (Es : e_subs e = []).
    { destruct (e_subs e) as [|k l]; [reflexivity|]. exfalso. specialize (K k (or_introl eq_refl)). destruct k as [? ? ?|? ? ? ?]; cbn [subtag_ok] in K; [apply Nt, K|]. destruct K as [K _]. destruct (e_type e); try contradiction K; discriminate N. }
    rewrite Es. cbn [M_MapConf.connectTags bindR]. unfold xmlEndTagCallback. cbn [s_mappings]. rewrite N. cbn [m_mapping]. unfold madeSimple. rewrite N. eexists. split; [reflexivity|]. split; reflexivity.
  - assert (N' := N). apply rbf_spec in N'. apply uniq_nil in U.
    assert (Kb : subtag_ok D stoi (e_type e) (BasisTag b sr sh)) by (apply K; rewrite Es; apply in_or_app; right; left; reflexivity).
    set (r := configureRBFMapping D zero tol9 ov30 ov15 e) in *. set (r' := Rbf (r_solver r) (r_dead r) (r_poly r) (r_rtol r) (r_clusters r) (Some b) p q).
    assert (Sb : setBasis r b sr sh = Ok r') by (apply (set_spec (e_type e)); [reflexivity|exact Kb|exists p, q; auto]).
    destruct (proj2 (basis_part (e_subs e) r r' b eq_refl) (ex_intro _ pre (ex_intro _ post (ex_intro _ sr (ex_intro _ sh (conj Es (conj Nb Sb))))))) as (B & _).
    assert (Xe : exists v x', execPart (e_type e) None (e_subs e) = Ok x' /\ v = match x' with Some y => y | None => Exec CPU 0 0 true end
       /\ (v = Exec CPU 0 0 true /\ x = CPU \/ setExec (e_type e) x d n mo = Ok v)
       /\ (subtag_ok D stoi (e_type e) (ExecutorTag x d n mo) \/ (x = CPU /\ d = None /\ n = None /\ mo = None))).
    { destruct Te as [(-> & -> & -> & -> & Ne)|(pre' & post' & Ee & Ne)].
      - exists (Exec CPU 0 0 true), None. rewrite exec_none by exact Ne. auto 8.
      - destruct (exec_total (e_type e) (e_subs e) None R) as (x' & Xp). assert (Xq := Xp). rewrite Ee in Xq.
        rewrite exec_part in Xq; [|exact Ne|intros y d' n' m' Hy; apply (R y d' n' m'); rewrite Ee; apply in_or_app; left; exact Hy].
        rewrite bind_ok in Xq. destruct Xq as (v & Sv & Xq). injection Xq as <-. exists v, (Some v). split; [exact Xp|]. split; [reflexivity|]. split; [right; exact Sv|]. left. apply K. rewrite Ee. apply in_or_app. right. left. reflexivity. }
    destruct Xe as (v & x' & Xp & Hv & V1 & V2).
    match goal with |- context [M_MapConf.connectTags _ _ _ _ _ _ _ _ _ (State (?m0 :: _) _ _ _)] => set (m1 := m0) end.
    pose proof (proj2 (connect_spec (e_type e) (e_subs e) [] m1 (s_mappings s) r None (e_constr e) (State (m1 :: s_mappings s) r' x' (e_constr e)) N')
      (conj F (conj U (ex_intro _ r' (ex_intro _ x' (conj B (conj Xp eq_refl))))))) as H2.
    rewrite H2. cbn [bindR]. unfold xmlEndTagCallback. cbn [s_mappings s_rbf s_exec s_constr]. rewrite N'. cbn [r_basis r']. rewrite <- Hv.
    pose proof (proj2 (finish_spec e b p q x d n mo v k A N V2 V1) (conj V (conj I M))) as H3.
    change (finish r' b v (e_constr e) m1 = Ok k) in H3. rewrite H3. cbn [bindR]. eexists. split; [reflexivity|]. cbn [s_exec s_mappings m1 m_from m_to m_dims m_needsBasis]. rewrite N'. split; reflexivity.
Qed.

(** all tags *)
Lemma all_spec es : forall s, s_exec s = None ->
  (forall s', configureAll s es = Ok s' -> s_exec s' = None /\ exists ms, Forall2 specifies es ms /\ s_mappings s' = rev ms ++ s_mappings s)
  /\ (forall ms, Forall2 specifies es ms -> exists s', configureAll s es = Ok s' /\ s_mappings s' = rev ms ++ s_mappings s).
Proof.
  induction es as [|e es IH]; intros s X; cbn [M_MapConf.configureAll].
  - split; [intros s' H; injection H as <-; split; [exact X|]; exists []; split; [constructor|reflexivity]|]. intros ms H. inversion H. exists s. auto.
  - split.
    + intros s' H. rewrite bind_ok in H. destruct H as (s1 & H1 & H2). destruct (one_sound s e s1 X H1) as (m & S1 & X1 & M1). destruct (IH s1 X1) as [I1 _]. destruct (I1 s' H2) as (X2 & ms & Fm & E).
      split; [exact X2|]. exists (m :: ms). split; [constructor; auto|]. rewrite E, M1. cbn [rev]. rewrite <- app_assoc. reflexivity.
    + intros ms H. inversion H as [|e' m es' ms' H1 H2]; subst. destruct (one_complete s e m X H1) as (s1 & C1 & X1 & M1). destruct (IH s1 X1) as [_ I2]. destruct (I2 ms' H2) as (s' & C2 & E).
      exists s'. rewrite C1. cbn [bindR]. split; [exact C2|]. rewrite E, M1. cbn [rev]. rewrite <- app_assoc. reflexivity.
Qed.

(** no assertion fails *)
Lemma connect_def t subs : forall used s, s_mappings s <> [] -> connectTags t used subs s <> Undefined
  /\ forall s', connectTags t used subs s = Ok s' -> s_mappings s' = s_mappings s.
Proof.
  induction subs as [|k subs IH]; intros used s Ns; cbn [M_MapConf.connectTags]; [split; [discriminate|intros s' H; congruence]|].
  assert (Hk : let c := match k with BasisTag b sr sh => basisCallback s b sr sh | ExecutorTag x d n m => executorCallback s t x d n m end in
     c <> Undefined /\ forall s1, c = Ok s1 -> s_mappings s1 = s_mappings s).
  { cbv zeta. destruct k as [b sr sh|x d n m].
    - unfold M_MapConf.basisCallback. destruct (s_mappings s) as [|m l] eqn:E; [congruence|]. split.
      + apply check_def. destruct (r_basis _); [discriminate|]. destruct b; try discriminate. apply check_def. discriminate.
      + intros s1. rewrite check_ok. intros [_ H]. destruct (r_basis _); [discriminate H|]. destruct b; try (injection H as <-; reflexivity). rewrite check_ok in H. destruct H as [_ H]. injection H as <-. reflexivity.
    - unfold M_MapConf.executorCallback. cbv zeta. set (did := value (hasDevice x) d "0"%string "0"%string). split.
      + apply bind_def; [|discriminate]. destruct (String.eqb did "auto"); [discriminate|]. destruct (stoi did); [apply check_def|]; discriminate.
      + intros s1. rewrite bind_ok. intros (z & _ & H). injection H as <-. reflexivity. }
  cbv zeta in Hk. destruct Hk as [K1 K2]. split.
  - apply check_def, check_def, bind_def; [exact K1|]. intros s1 H1. apply IH. rewrite (K2 s1 H1). exact Ns.
  - intros s'. rewrite !check_ok, bind_ok. intros (_ & _ & s1 & H1 & H2). destruct (IH (k :: used) s1) as [_ I]; [rewrite (K2 s1 H1); exact Ns|]. rewrite (I s' H2). apply K2, H1.
Qed.
Lemma all_def es : forall s, configureAll s es <> Undefined.
Proof.
  induction es as [|e es IH]; intros s; cbn [M_MapConf.configureAll]; [discriminate|]. apply bind_def; [|intros; apply IH]. clear IH. unfold M_MapConf.configureOne.
  destruct (readAttributes D e) eqn:A; [|discriminate]. cbn [check]. apply attributes_spec in A. apply bind_def.
  - unfold mappingCallback. apply check_def, check_def, bind_def; [|discriminate]. unfold M_MapConf.createMapping. apply check_def. cbv zeta. destruct (e_type e); try apply check_def; discriminate.
  - intros s1 H1. rewrite callback_spec in H1 by exact A. destruct H1 as (_ & ->). apply bind_def; [apply connect_def; discriminate|]. intros s2 H2.
    assert (E : s_mappings s2 = Configured (e_from e) (e_to e) (e_dims e) (requiresBasisFunction (e_type e)) (madeSimple e) :: s_mappings s) by (refine (proj2 (connect_def _ _ _ _ _) s2 H2); discriminate).
    unfold xmlEndTagCallback. rewrite E. destruct (requiresBasisFunction (e_type e)) eqn:N.
    + destruct (r_basis _); [|discriminate]. apply bind_def; [|discriminate]. unfold finishRBFConfiguration. cbv zeta.
      destruct (x_executor _); destruct (r_solver _); repeat apply check_def; discriminate.
    + cbn [m_mapping]. unfold madeSimple. rewrite N. discriminate.
Qed.
End P.
