From Coq Require Import Bool String List Arith Lia.
From Verif Require Import M_ActConf S_ActConf.
Import ListNotations.

Definition nm (k : tag) (tags : list (tag * string)) : list string := map snd (filter (fun p => tag_eqb k (fst p)) tags).
Lemma tag_eqb_refl k : tag_eqb k k = true.
Proof. destruct k; reflexivity. Qed.
Lemma tag_eqb_eq a b : tag_eqb a b = true <-> a = b.
Proof. destruct a, b; split; intros; try reflexivity; discriminate. Qed.

(** ** the loop over the subtags *)
Definition collect (tags : list (tag * string)) (c : configured) : configured := fold_left (fun c p => xmlTagCallback c (fst p) (snd p)) tags c.
Fixpoint okTags (t : actionType) (used : list tag) (tags : list (tag * string)) : bool :=
  match tags with
  | [] => true
  | (k, _) :: r => match subtag t k with None => false | Some OnceOrMore => okTags t used r | Some _ => negb (existsb (tag_eqb k) used) && okTags t (k :: used) r end
  end.
Lemma callback_type c k n : c_type (xmlTagCallback c k n) = c_type c.
Proof. destruct k; reflexivity. Qed.
Lemma connect_eq tags : forall used c, connectTags used tags c = if okTags (c_type c) used tags then Ok (collect tags c) else Reported.
Proof.
  induction tags as [|(k & n) r IH]; intros used c; [reflexivity|]. cbn [connectTags okTags]. unfold collect. cbn [fold_left fst snd].
  destruct (subtag (c_type c) k) as [[| |]|]; [| | |reflexivity].
  - rewrite IH, callback_type. unfold check. destruct (negb _); reflexivity.
  - rewrite IH, callback_type. reflexivity.
  - rewrite IH, callback_type. unfold check. destruct (negb _); reflexivity.
Qed.
Lemma collect_fields tags : forall c, let c' := collect tags c in
  c_type c' = c_type c /\ c_timing c' = c_timing c /\ c_mesh c' = c_mesh c /\ c_sources c' = c_sources c ++ nm SourceData tags /\
  c_target c' = last (nm TargetData tags) (c_target c) /\ c_path c' = last (nm ModulePath tags) (c_path c) /\ c_module c' = last (nm ModuleName tags) (c_module c).
Proof.
  assert (L : forall (l : list string) a b, last (a :: l) b = last l a).
  { induction l as [|x l IH]; intros a b; [reflexivity|]. change (last (x :: l) b = last (x :: l) a). rewrite !IH. reflexivity. }
  induction tags as [|(k & n) r IH]; intros c c'; [cbn in c'; subst c'; cbn; rewrite app_nil_r; repeat split|].
  subst c'. unfold collect. cbn [fold_left fst snd]. fold (collect r (xmlTagCallback c k n)).
  destruct (IH (xmlTagCallback c k n)) as (A & B & C & D & E & F & G). cbv zeta in *. rewrite A, B, C, D, E, F, G. clear - L.
  assert (N : forall k' k n r, nm k' ((k, n) :: r) = if tag_eqb k' k then n :: nm k' r else nm k' r) by (intros; unfold nm; cbn [filter fst]; destruct (tag_eqb k' _); reflexivity).
  rewrite !N. destruct k; cbn [tag_eqb xmlTagCallback c_type c_timing c_mesh c_sources c_target c_path c_module]; rewrite ?L, <- ?app_assoc; repeat split; reflexivity.
Qed.

Definition fits (o : option occurrence) (seen : bool) (n : nat) : Prop :=
  match o with None => n = 0 | Some OnceOrMore => True | Some _ => n + (if seen then 1 else 0) <= 1 \/ n = 0 end.
Lemma okTags_spec t tags : forall used, okTags t used tags = true <-> forall k, fits (subtag t k) (existsb (tag_eqb k) used) (length (nm k tags)).
Proof.
  assert (N : forall k k' n r, nm k ((k', n) :: r) = if tag_eqb k k' then n :: nm k r else nm k r) by (intros; unfold nm; cbn [filter fst]; destruct (tag_eqb k k'); reflexivity).
  induction tags as [|(k & n) r IH]; intros used.
  - split; [|reflexivity]. intros _ k. destruct (subtag t k) as [[| |]|]; cbn; auto.
  - cbn [okTags]. split.
    + intros H k'. rewrite N. destruct (tag_eqb k' k) eqn:E.
      * apply tag_eqb_eq in E. subst k'. destruct (subtag t k) as [o|] eqn:S; [|discriminate H]. destruct o; cbn [fits]; [|exact I|].
        -- apply andb_true_iff in H. destruct H as [H1 H2]. apply negb_true_iff in H1. rewrite H1. rewrite IH in H2. specialize (H2 k). rewrite S in H2. cbn [existsb] in H2. rewrite tag_eqb_refl in H2. cbn [fits orb] in H2. cbn [length]. lia.
        -- apply andb_true_iff in H. destruct H as [H1 H2]. apply negb_true_iff in H1. rewrite H1. rewrite IH in H2. specialize (H2 k). rewrite S in H2. cbn [existsb] in H2. rewrite tag_eqb_refl in H2. cbn [fits orb] in H2. cbn [length]. lia.
      * destruct (subtag t k) as [o|] eqn:S; [|discriminate H]. destruct o.
        -- apply andb_true_iff in H. destruct H as [_ H2]. rewrite IH in H2. specialize (H2 k'). cbn [existsb] in H2. rewrite E in H2. exact H2.
        -- rewrite IH in H. apply H.
        -- apply andb_true_iff in H. destruct H as [_ H2]. rewrite IH in H2. specialize (H2 k'). cbn [existsb] in H2. rewrite E in H2. exact H2.
    + intros H. pose proof (H k) as Hk. rewrite N, tag_eqb_refl in Hk. cbn [length] in Hk.
      assert (K : forall used', (forall k', tag_eqb k' k = false -> existsb (tag_eqb k') used' = existsb (tag_eqb k') used) -> fits (subtag t k) (existsb (tag_eqb k) used') (length (nm k r)) -> okTags t used' r = true).
      { intros used' Hu Hf. apply IH. intros k'. destruct (tag_eqb k' k) eqn:E; [apply tag_eqb_eq in E; subst k'; exact Hf|]. rewrite Hu by exact E. specialize (H k'). rewrite N, E in H. exact H. }
      destruct (subtag t k) as [o|] eqn:S; [|cbn in Hk; lia]. destruct o; cbn [fits] in Hk.
      * destruct (existsb (tag_eqb k) used) eqn:U; [lia|]. cbn [negb andb]. apply K; [|cbn [fits]; right; lia]. intros k' E. cbn [existsb]. rewrite E. reflexivity.
      * apply K; [reflexivity|exact I].
      * destruct (existsb (tag_eqb k) used) eqn:U; [lia|]. cbn [negb andb]. apply K; [|cbn [fits]; right; lia]. intros k' E. cbn [existsb]. rewrite E. reflexivity.
Qed.
Lemma exists_nm k tags : existsb (fun p => tag_eqb k (fst p)) tags = true <-> 1 <= length (nm k tags).
Proof.
  induction tags as [|(k' & n) r IH]; cbn [existsb]; [cbn; split; [discriminate|lia]|]. unfold nm in *. cbn [filter fst]. destruct (tag_eqb k k'); cbn [orb map length]; [split; intros; [lia|reflexivity]|exact IH].
Qed.
Lemma documented_spec e : documented e <-> okTags (e_type e) [] (e_tags e) = true /\ areAllSubtagsConfigured (e_type e) (e_tags e) = true.
Proof.
  unfold documented, names. fold (nm TargetData (e_tags e)) (nm SourceData (e_tags e)) (nm ModulePath (e_tags e)) (nm ModuleName (e_tags e)).
  rewrite okTags_spec. cbn [existsb].
  assert (A : (forall k, fits (subtag (e_type e) k) false (length (nm k (e_tags e)))) <->
    fits (subtag (e_type e) SourceData) false (length (nm SourceData (e_tags e))) /\ fits (subtag (e_type e) TargetData) false (length (nm TargetData (e_tags e))) /\
    fits (subtag (e_type e) ModulePath) false (length (nm ModulePath (e_tags e))) /\ fits (subtag (e_type e) ModuleName) false (length (nm ModuleName (e_tags e)))).
  { split; [intros H; repeat split; apply H|]. intros (S & T & P & M) k. destruct k; assumption. }
  rewrite A. unfold areAllSubtagsConfigured. cbn [forallb].
  pose proof (exists_nm SourceData (e_tags e)) as S. pose proof (exists_nm TargetData (e_tags e)) as T. pose proof (exists_nm ModulePath (e_tags e)) as P. pose proof (exists_nm ModuleName (e_tags e)) as M.
  destruct (e_type e); cbn [subtag fits]; rewrite ?andb_true_r, ?andb_true_l, ?andb_true_iff, ?S, ?T, ?P, ?M; intuition lia.
Qed.

(** ** data and meshes *)
Lemma find_unique {A B} (f : A -> B) (eqb : B -> B -> bool) (E : forall x y, eqb x y = true <-> x = y) (l : list A) x : NoDup (map f l) -> In x l -> find (fun y => eqb (f y) (f x)) l = Some x.
Proof.
  induction l as [|a l IH]; intros N H; [destruct H|]. cbn [find]. cbn [map] in N. inversion_clear N as [|? ? Na Nl].
  destruct (eqb (f a) (f x)) eqn:C.
  - apply E in C. destruct H as [->|H]; [reflexivity|]. exfalso. apply Na. rewrite C. apply in_map. exact H.
  - destruct H as [->|H]; [|apply IH; assumption]. assert (eqb (f x) (f x) = true) by (apply E; reflexivity). congruence.
Qed.
Lemma byName m d : NoDup (map d_name (m_data m)) -> In d (m_data m) -> dataByName m (d_name d) = Some d.
Proof. apply (find_unique d_name String.eqb String.eqb_eq). Qed.
Lemma byID m d : NoDup (map d_id (m_data m)) -> In d (m_data m) -> dataByID m (d_id d) = Some d.
Proof. apply (find_unique d_id Nat.eqb Nat.eqb_eq). Qed.
Lemma byMesh ms m : NoDup (map m_name ms) -> In m ms -> meshByName ms (m_name m) = Some m.
Proof. apply (find_unique m_name String.eqb String.eqb_eq). Qed.
Lemma byName_some m n d : dataByName m n = Some d -> In d (m_data m) /\ d_name d = n.
Proof. intros H. apply find_some in H. destruct H as [H E]. apply String.eqb_eq in E. auto. Qed.
Lemma byMesh_some ms n m : meshByName ms n = Some m -> In m ms /\ m_name m = n.
Proof. intros H. apply find_some in H. destruct H as [H E]. apply String.eqb_eq in E. auto. Qed.

Lemma sources_spec m l : NoDup (map d_name (m_data m)) -> NoDup (map d_id (m_data m)) ->
  (forall ids, sourceIDs m l = Ok ids -> exists ds, map d_name ds = l /\ map d_id ds = ids /\ (forall d, In d ds -> In d (m_data m)) /\ lookUps m ids = Ok ds) /\
  ((forall n, In n l -> exists d, In d (m_data m) /\ d_name d = n) -> exists ids, sourceIDs m l = Ok ids) /\ sourceIDs m l <> Undefined.
Proof.
  intros Nn Ni. induction l as [|n l (IH1 & IH2 & IH3)]; cbn [sourceIDs].
  - split; [intros ids H; injection H as <-; exists []; repeat split; intros d []|]. split; [eexists; reflexivity|discriminate].
  - split; [|split].
    + intros ids H. destruct (dataByName m n) as [d|] eqn:E; [|discriminate H]. apply byName_some in E. destruct E as [Hd <-].
      destruct (sourceIDs m l) as [r| |]; try discriminate H. cbn [bindR] in H. injection H as <-. destruct (IH1 r eq_refl) as (ds & A & B & C & D).
      exists (d :: ds). cbn [map lookUps lookUp]. rewrite A, B, D, byID by assumption. cbn [bindR]. repeat split. intros x [->|Hx]; [exact Hd|apply C; exact Hx].
    + intros H. destruct (H n (or_introl eq_refl)) as (d & Hd & <-). rewrite byName by assumption. destruct IH2 as (ids & ->); [intros k Hk; apply H; right; exact Hk|]. cbn [bindR]. eexists. reflexivity.
    + destruct (dataByName m n); [|discriminate]. destruct (sourceIDs m l); cbn [bindR]; congruence.
Qed.

(** ** one action *)
Section Config.
Variable isDirectory : string -> bool.
Variable python : bool.
Lemma configure_eq ms e : configureAction isDirectory python ms e =
  if okTags (e_type e) [] (e_tags e) then (if areAllSubtagsConfigured (e_type e) (e_tags e) then createAction isDirectory python ms (collect (e_tags e) (fresh e)) else Reported) else Reported.
Proof. unfold configureAction. rewrite connect_eq. change (c_type (fresh e)) with (e_type e). destruct (okTags _ _ _); reflexivity. Qed.
Lemma last_one {A} (l : list A) a d : l = [a] -> last l d = a.
Proof. intros ->. reflexivity. Qed.
Lemma length_1 {A} (l : list A) : length l = 1 -> exists a, l = [a].
Proof. destruct l as [|a [|b l]]; try discriminate. exists a. reflexivity. Qed.
Lemma length_0 {A} (l : list A) : length l = 0 -> l = [].
Proof. destruct l; [reflexivity|discriminate]. Qed.

(** the target, if there is at most one *)
Definition targetID (m : mesh) (n : string) : res (option nat) :=
  if String.eqb n "" then Ok None else match dataByName m n with None => Reported | Some d => Ok (Some (d_id d)) end.
Lemma target_one m n id : NoDup (map d_id (m_data m)) -> n <> ""%string -> targetID m n = Ok id -> exists d, In d (m_data m) /\ d_name d = n /\ id = Some (d_id d) /\ lookUp m id = Ok d.
Proof.
  intros N Hn. unfold targetID. destruct (String.eqb_spec n ""); [congruence|]. destruct (dataByName m n) as [d|] eqn:E; [|discriminate]. intros H. injection H as <-.
  apply byName_some in E. destruct E as [Hd <-]. exists d. cbn [lookUp]. rewrite byID by assumption. auto.
Qed.
Lemma target_known m d : NoDup (map d_name (m_data m)) -> In d (m_data m) -> d_name d <> ""%string -> targetID m (d_name d) = Ok (Some (d_id d)).
Proof. intros N Hd Hn. unfold targetID. destruct (String.eqb_spec (d_name d) ""); [congruence|]. rewrite byName by assumption. reflexivity. Qed.
Lemma create_eq ms c : createAction isDirectory python ms c =
  match meshByName ms (c_mesh c) with None => Reported | Some m => bindR (targetID m (c_target c)) (fun t => bindR (sourceIDs m (c_sources c)) (construct isDirectory python c m t)) end.
Proof. reflexivity. Qed.
End Config.
