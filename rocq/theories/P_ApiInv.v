(** Invariants over histories of API calls. *)
From Coq Require Import ZArith QArith Bool List Arith Lia.
From Verif Require Import M_Time M_Mesh M_Prep M_Box M_Quad M_Api S_Api P_Api P_ApiEff.
Import ListNotations.
Open Scope nat_scope.

Section Inv.
Context {C : Type}.
Variable W : world C.
Implicit Types s : state C.
Implicit Types h : @history C.

Lemma life_snoc h x : life (h ++ [x]) = life1 (life h) x.
Proof. unfold life. rewrite fold_left_app. reflexivity. Qed.
Lemma editable_snoc m h x : editable m (h ++ [x]) = editable1 m (editable m h) x.
Proof. unfold editable. rewrite fold_left_app. reflexivity. Qed.
Lemma points_snoc m h x : points m (h ++ [x]) = points1 m (points m h) x.
Proof. unfold points. rewrite fold_left_app. reflexivity. Qed.
Lemma written_snoc m d h x : written m d (h ++ [x]) = written1 m d (written m d h) x.
Proof. unfold written. rewrite fold_left_app. reflexivity. Qed.

Lemma life_none p (c : call C) : life1 p (c, None) = p. Proof. destruct c; reflexivity. Qed.
Lemma editable_none m b (c : call C) : editable1 m b (c, None) = b. Proof. destruct c; reflexivity. Qed.
Lemma points_none m ps (c : call C) : points1 m ps (c, None) = ps. Proof. destruct c; reflexivity. Qed.
Lemma written_none m d ps (c : call C) : written1 m d ps (c, None) = ps. Proof. destruct c; reflexivity. Qed.
Lemma life_inert p (c : call C) r : inert c = true -> life1 p (c, r) = p.
Proof. destruct c, r; cbn; congruence. Qed.
Lemma editable_inert m b (c : call C) r : inert c = true -> editable1 m b (c, r) = b.
Proof. destruct c, r; cbn; congruence. Qed.
Lemma points_inert m ps (c : call C) r : inert c = true -> points1 m ps (c, r) = ps.
Proof. destruct c, r; cbn; congruence. Qed.
Lemma written_inert m d ps (c : call C) r : inert c = true -> written1 m d ps (c, r) = ps.
Proof. destruct c, r; cbn; congruence. Qed.

(** what never changes about a mesh *)
Definition alike (x0 x : meshCtx) : Prop :=
  mx_provided x = mx_provided x0 /\ mx_full x = mx_full x0 /\ mx_direct x = mx_direct x0 /\
  (mx_provided x = true -> m_dim (mx_mesh x) = m_dim (mx_mesh x0)).
Definition alikeAll s0 s : Prop :=
  map fst (st_meshes s) = map fst (st_meshes s0) /\
  (forall m x, lookup m (st_meshes s) = Some x -> exists x0, lookup m (st_meshes s0) = Some x0 /\ alike x0 x).
Definition wkey (w : wrCtx) := (wr_mesh w, wr_data w, wr_dims w).

Record inv s0 h s : Prop := {
  i_phase : st_phase s = life h;
  i_solver : st_solver s = phase_eqb (life h) Initialized;
  i_remeshing : st_remeshing s = st_remeshing s0;
  i_experimental : st_experimental s = st_experimental s0;
  i_parallel : st_parallel s = st_parallel s0;
  i_names : st_names s = st_names s0;
  i_alike : alikeAll s0 s;
  i_nodup : NoDup (map fst (st_meshes s0));
  i_lkeys : map fst (st_locks s) = map fst (st_meshes s0);
  i_lock : forall m b, lookup m (st_locks s) = Some b -> b = negb (editable m h);
  i_edit : forall m, editable m h = true -> life h = Initialized -> st_remeshing s = true;
  i_new : life h = Constructed -> forall m, editable m h = true;
  i_points : forall m x, lookup m (st_meshes s) = Some x -> mx_provided x = true ->
    map v_coords (m_verts (mx_mesh x)) = points m h;
  i_received : life h = Constructed -> forall m x, lookup m (st_meshes s) = Some x -> mx_provided x = false ->
    m_verts (mx_mesh x) = [];
  i_wkeys : map wkey (st_writes s) = map wkey (st_writes s0);
  i_buf : forall w x, In w (st_writes s) -> lookup (wr_mesh w) (st_meshes s) = Some x ->
    length (wr_buf w) = nVertices (mx_mesh x) * wr_dims w \/
    (nVertices (mx_mesh x) = 0 /\ editable (wr_mesh w) h = true /\ life h <> Constructed);
  i_wnodup : NoDup (map (fun w => (wr_mesh w, wr_data w)) (st_writes s0))
}.

Lemma inv_start s0 : started s0 -> inv s0 [] s0.
Proof.
  intros [A B D E F G I J]. constructor; try reflexivity; try assumption; cbn.
  - split; [reflexivity|]. intros m x L. exists x. split; [exact L|]. repeat split.
  - rewrite E, map_map. reflexivity.
  - intros m b. rewrite E. intros K. apply lookup_in, in_map_iff in K.
    destruct K as [y [[= _ <-] _]]. reflexivity.
  - discriminate.
  - intros m x L _. destruct (D m x L) as [K _]. rewrite K. reflexivity.
  - intros _ m x L _. destruct (D m x L) as [K _]. rewrite K. reflexivity.
  - intros w x I1 L. left. destruct (G w I1) as [-> _]. destruct (D _ x L) as [K _].
    unfold nVertices. rewrite K. reflexivity.
Qed.

Lemma alike_refl x : alike x x. Proof. repeat split; auto. Qed.
Lemma alike_trans x y z : alike x y -> alike y z -> alike x z.
Proof. intros (A&B&D&E) (A'&B'&D'&E'). repeat split; try congruence. intros P. rewrite E' by assumption. apply E. congruence. Qed.

Lemma createVertices_ok ps : forall m y, createVertices m ps = Some y ->
  map v_coords (m_verts y) = map v_coords (m_verts m) ++ ps /\ m_dim y = m_dim m /\ nVertices y = nVertices m + length ps.
Proof.
  induction ps as [|p r IH]; intros m y; cbn [createVertices].
  - intros [= <-]. rewrite app_nil_r. repeat split. cbn. lia.
  - unfold createVertex. destruct (length p =? m_dim m); [|discriminate].
    intros H. destruct (IH _ _ H) as [I1 [I2 I3]].
    cbn [setVerts m_verts m_dim] in *. unfold nVertices in *. cbn [setVerts m_verts] in I3.
    rewrite app_length in I3. cbn in I3. rewrite I1, map_app, <- app_assoc. cbn. repeat split; auto. lia.
Qed.
Lemma columns_cut n d l : columns n d l = cut n d l.
Proof. revert l; induction n as [|n IH]; intros l; cbn; [reflexivity|]. rewrite IH. reflexivity. Qed.
Lemma columns_length n d l : length (columns n d l) = n.
Proof. revert l; induction n as [|n IH]; intros l; cbn; [reflexivity|]. rewrite IH. reflexivity. Qed.
Lemma cut_dim n d l : length l = n * d -> cut n (length l / n) l = cut n d l.
Proof.
  intros E. destruct n as [|n]; [reflexivity|]. f_equal. rewrite E.
  rewrite Nat.mul_comm. apply Nat.div_mul. lia.
Qed.

Lemma lookup_put s m y k : lookup k (st_meshes (putMesh s m y)) =
  if m =? k then option_map (fun c => setMesh c y) (lookup k (st_meshes s)) else lookup k (st_meshes s).
Proof. apply lookup_alter. Qed.

Lemma zs_valid m ids : validIDs m ids = true -> Forall (fun v => v < nVertices m) (zs ids).
Proof.
  unfold validIDs, zs. rewrite forallb_forall. intros H. apply Forall_forall. intros v I.
  apply in_map_iff in I. destruct I as [z [<- I]]. specialize (H z I). unfold isValidVertexID in H.
  apply andb_true_iff in H. destruct H as [H1 H2]. apply Z.leb_le in H1. apply Z.ltb_lt in H2. lia.
Qed.
Lemma writeValues_length d n ids : forall vs buf, length buf = n * d -> Forall (fun v => v < n) ids -> length ids * d = length vs ->
  length (writeValues d ids vs buf) = n * d.
Proof.
  induction ids as [|v r IH]; intros vs buf L F E; cbn; [exact L|]. inversion F; subst. cbn in E.
  apply IH; [|assumption|rewrite skipn_length; lia].
  apply putCol_length; auto. rewrite firstn_length. lia.
Qed.
Lemma nodup_key {A B} (f : A -> B) l a b : NoDup (map f l) -> In a l -> In b l -> f a = f b -> a = b.
Proof.
  induction l as [|x r IH]; cbn; [contradiction|]. intros ND IA IB E. inversion ND; subst.
  destruct IA as [->|IA], IB as [->|IB]; auto.
  - exfalso. apply H1. rewrite E. apply in_map. exact IB.
  - exfalso. apply H1. rewrite <- E. apply in_map. exact IA.
Qed.
Lemma wkeys_nodup ws ws0 : map wkey ws = map wkey ws0 -> NoDup (map (fun w => (wr_mesh w, wr_data w)) ws0) ->
  NoDup (map (fun w => (wr_mesh w, wr_data w)) ws).
Proof.
  intros E ND. replace (map (fun w => (wr_mesh w, wr_data w)) ws) with (map fst (map wkey ws)) by (rewrite map_map; reflexivity).
  rewrite E, map_map. exact ND.
Qed.
Lemma found_unique s ws0 m d w u : map wkey (st_writes s) = map wkey ws0 ->
  NoDup (map (fun w => (wr_mesh w, wr_data w)) ws0) -> findWrite s m d = Some w -> In u (st_writes s) ->
  (wr_mesh u =? m) && (wr_data u =? d) = true -> u = w.
Proof.
  intros E ND F IU K. apply find_some in F. destruct F as [IW KW].
  apply andb_true_iff in K, KW. destruct K as [K1 K2], KW as [K3 K4].
  apply Nat.eqb_eq in K1, K2, K3, K4.
  eapply (nodup_key (fun w => (wr_mesh w, wr_data w))); [eapply wkeys_nodup; eassumption|exact IU|exact IW|congruence].
Qed.

Lemma keys_put s m y : map fst (st_meshes (putMesh s m y)) = map fst (st_meshes s).
Proof. apply keys_alter. Qed.

(** [inv] only depends on some fields *)
Lemma inv_same s0 h h' s s' : inv s0 h s -> life h' = life h -> (forall m, editable m h' = editable m h) ->
  (forall m, points m h' = points m h) ->
  st_phase s' = st_phase s -> st_solver s' = st_solver s -> st_remeshing s' = st_remeshing s ->
  st_experimental s' = st_experimental s -> st_parallel s' = st_parallel s -> st_names s' = st_names s ->
  st_meshes s' = st_meshes s -> st_locks s' = st_locks s -> st_writes s' = st_writes s -> inv s0 h' s'.
Proof.
  intros [I1 I2 I3 I4 I5 I6 I7 I8 I9 I10 I11 I12 I13 I14 I15 I16 I17] L E P S1 S2 S3 S4 S5 S6 S7 S8 S9.
  constructor; unfold alikeAll in *; rewrite ?S1, ?S2, ?S3, ?S4, ?S5, ?S6, ?S7, ?S8, ?S9, ?L in *; auto.
  - intros m b K. rewrite E. auto.
  - intros m K K2. rewrite E in K. exact (I11 m K K2).
  - intros K m. rewrite E. auto.
  - intros m x K1 K2. rewrite P. auto.
  - intros w x K1 K2. rewrite E. auto.
Qed.

Lemma receive_lookup e s k : lookup k (map (receiveMeshes W e) (st_meshes s)) =
  option_map (fun x => setMesh x (if mx_provided x then preprocess (w_tol2 W) (w_addr W) (mx_mesh x) else in_meshes e k))
    (lookup k (st_meshes s)).
Proof.
  rewrite <- (lookup_map k (fun k x => setMesh x (if mx_provided x then preprocess (w_tol2 W) (w_addr W) (mx_mesh x) else in_meshes e k))).
  f_equal. apply map_ext. intros [m x]. cbn. destruct (mx_provided x); reflexivity.
Qed.
Lemma receive_keys e s : map fst (map (receiveMeshes W e) (st_meshes s)) = map fst (st_meshes s).
Proof. rewrite map_map. apply map_ext. intros [m x]. cbn. destruct (mx_provided x); reflexivity. Qed.

(** the pieces a participant consists of after setting up communication *)
Definition readied s e : list (nat * meshCtx) := map (receiveMeshes W e) (st_meshes s).
Lemma setup_fields e s : st_meshes (setupCommunication W e s) = readied s e /\
  st_locks (setupCommunication W e s) = st_locks s /\
  (NoDup (map fst (st_meshes s)) -> st_writes (setupCommunication W e s) = map (fitOne (readied s e)) (st_writes s)) /\
  st_phase (setupCommunication W e s) = st_phase s /\ st_solver (setupCommunication W e s) = st_solver s /\
  st_remeshing (setupCommunication W e s) = st_remeshing s /\ st_experimental (setupCommunication W e s) = st_experimental s /\
  st_parallel (setupCommunication W e s) = st_parallel s /\ st_names (setupCommunication W e s) = st_names s /\
  st_reads (setupCommunication W e s) = st_reads s /\ st_cpl (setupCommunication W e s) = st_cpl s.
Proof.
  repeat split. intros ND. cbn. apply fitBuffers_map. unfold readied. rewrite receive_keys. exact ND.
Qed.

(** the shape of a successful initialize() and advance() *)
Definition zeroed (w : wrCtx) : wrCtx := setBuf w (zeroBuffer (wr_buf w)).
Lemma init_shape s e s' r : initialize W s (Some e) = Done s' r -> NoDup (map fst (st_meshes s)) ->
  st_phase s = Constructed /\ st_phase s' = Initialized /\ st_solver s' = true /\ st_remeshing s' = st_remeshing s /\
  st_experimental s' = st_experimental s /\ st_parallel s' = st_parallel s /\ st_names s' = st_names s /\
  st_meshes s' = readied s e /\ st_locks s' = lockAll (st_locks s) /\
  st_writes s' = map zeroed (map (fitOne (readied s e)) (st_writes s)) /\
  r = RStored (map (fun w => (wr_mesh w, wr_data w, 0%Z, wr_buf w)) (map (fitOne (readied s e)) (st_writes s))) /\
  st_sections s = 0 /\ st_cpl s' = in_cpl e /\
  st_reads s' = map (fun r => MkRd (rd_mesh r) (rd_data r) (rd_dims r) (in_reads e (rd_mesh r) (rd_data r))) (st_reads s).
Proof.
  unfold initialize, guardFail. destruct (st_phase s) eqn:P; try discriminate.
  destruct (negb _); [|discriminate]. destruct (Nat.eqb_spec (st_sections s) 0) as [Z|]; [|discriminate].
  intros [= <- <-] ND. destruct (setup_fields e s) as (F1&F2&F3&F4&F5&F6&F7&F8&F9&F10&F11).
  specialize (F3 ND). repeat split; cbn.
  - fold (readied s e). rewrite fitBuffers_map; [reflexivity|]. unfold readied. rewrite receive_keys. exact ND.
  - unfold storeAll. cbn. fold (readied s e). rewrite fitBuffers_map; [reflexivity|]. unfold readied. rewrite receive_keys. exact ND.
  - exact Z.
Qed.
(** whether an advance sets up the communication again *)
Definition redo s (p atEnd : bool) : bool := st_remeshing s && atEnd && (negb (checkAll (st_locks s)) || p).
Definition settled (b : bool) s e : list wrCtx := if b then map (fitOne (readied s e)) (st_writes s) else st_writes s.
Lemma adv_shape s dt p e s' r : advance W s (Some dt) p (Some e) = Done s' r -> NoDup (map fst (st_meshes s)) ->
  exists c atEnd, w_addTime W (st_cpl s) dt = Some (c, atEnd) /\ st_phase s = Initialized /\ st_solver s = true /\
  st_sections s = 0 /\
  (st_remeshing s = true -> atEnd = false -> checkAll (st_locks s) = true) /\
  st_phase s' = st_phase s /\ st_solver s' = st_solver s /\ st_remeshing s' = st_remeshing s /\
  st_experimental s' = st_experimental s /\ st_parallel s' = st_parallel s /\ st_names s' = st_names s /\
  st_meshes s' = (if redo s p atEnd then readied s e else st_meshes s) /\
  st_locks s' = lockAll (st_locks s) /\ st_writes s' = map zeroed (settled (redo s p atEnd) s e) /\
  r = RStored (if atEnd || w_substeps W c then map (fun w => (wr_mesh w, wr_data w, w_time W c, wr_buf w)) (settled (redo s p atEnd) s e) else []) /\
  st_cpl s' = in_cpl e /\
  st_reads s' = (if atEnd then map (fun r => MkRd (rd_mesh r) (rd_data r) (rd_dims r) (in_reads e (rd_mesh r) (rd_data r))) (st_reads s) else st_reads s).
Proof.
  unfold advance, guardFail. destruct (Nat.eqb_spec (st_sections s) 0) as [Z|]; [|discriminate].
  destruct (st_solver s) eqn:V; cbn [negb]; [|discriminate].
  destruct (st_phase s) eqn:P; try discriminate.
  destruct (w_ongoing W (st_cpl s)); [|discriminate].
  destruct (negb _); [|discriminate]. destruct (0 <? dt)%Z; [|discriminate].
  destruct (w_addTime W (st_cpl s) dt) as [[c b]|] eqn:A; [|discriminate].
  cbv zeta. destruct (st_remeshing s && negb b && negb (checkAll (st_locks s))) eqn:K; [discriminate|].
  fold (redo s p b). intros H ND. injection H as E1 E2. subst s' r. exists c, b.
  assert (FW : forall x, st_writes (if redo s p b then setupCommunication W e (withCpl s x) else withCpl s x) = settled (redo s p b) s e).
  { intros x. unfold settled. destruct (redo s p b); [|reflexivity].
    destruct (setup_fields e (withCpl s x)) as (F1&F2&F3&_). apply F3. exact ND. }
  repeat split; try assumption.
  - intros R ->. rewrite R in K. cbn in K. destruct (checkAll _); [reflexivity|discriminate].
  - destruct b, (redo s p _); cbn; assumption.
  - destruct b, (redo s p _); cbn; assumption.
  - destruct b, (redo s p _); cbn; reflexivity.
  - destruct b, (redo s p _); cbn; reflexivity.
  - destruct b, (redo s p _); cbn; reflexivity.
  - destruct b, (redo s p _); cbn; reflexivity.
  - destruct b, (redo s p _); cbn; reflexivity.
  - destruct b, (redo s p _); cbn; reflexivity.
  - rewrite <- (FW c). destruct b; reflexivity.
  - f_equal. destruct (b || w_substeps W c); [|reflexivity]. unfold storeAll. rewrite FW. reflexivity.
  - destruct b; reflexivity.
  - destruct b, (redo s p _); cbn; reflexivity.
Qed.

Lemma lookup_lockAll k l : lookup k (lockAll l) = option_map (fun _ => true) (lookup k l).
Proof. apply (lookup_map k (fun _ _ => true)). Qed.
Lemma keys_lockAll l : map fst (lockAll l) = map fst l.
Proof. unfold lockAll. rewrite map_map. reflexivity. Qed.

Lemma readied_alike s0 s e : alikeAll s0 s -> map fst (readied s e) = map fst (st_meshes s0) /\
  (forall m x, lookup m (readied s e) = Some x -> exists x0, lookup m (st_meshes s0) = Some x0 /\ alike x0 x).
Proof.
  intros [A B]. split; [unfold readied; rewrite receive_keys; exact A|].
  intros m x. unfold readied. rewrite receive_lookup.
  destruct (lookup m (st_meshes s)) as [y|] eqn:L; [|discriminate]. intros [= <-].
  destruct (B m y L) as [x0 [L0 K]]. exists x0. split; [exact L0|].
  eapply alike_trans; [exact K|]. repeat split; cbn. intros ->. apply preprocess_verts.
Qed.
Lemma readied_points s e m x : lookup m (readied s e) = Some x -> mx_provided x = true ->
  exists y, lookup m (st_meshes s) = Some y /\ mx_provided y = true /\ m_verts (mx_mesh x) = m_verts (mx_mesh y).
Proof.
  unfold readied. rewrite receive_lookup. destruct (lookup m (st_meshes s)) as [y|] eqn:L; [|discriminate].
  intros [= <-]. cbn. intros P. exists y. rewrite P. repeat split; auto. apply preprocess_verts.
Qed.
Lemma fitOne_key ms w : wkey (fitOne ms w) = wkey w.
Proof. unfold fitOne. destruct (lookup _ _); reflexivity. Qed.
Lemma fitOne_mesh ms w : wr_mesh (fitOne ms w) = wr_mesh w.
Proof. unfold fitOne. destruct (lookup _ _); reflexivity. Qed.
Lemma fitOne_dims ms w : wr_dims (fitOne ms w) = wr_dims w.
Proof. unfold fitOne. destruct (lookup _ _); reflexivity. Qed.
Lemma fitOne_length ms w x : lookup (wr_mesh w) ms = Some x -> length (wr_buf (fitOne ms w)) = nVertices (mx_mesh x) * wr_dims w.
Proof. intros L. unfold fitOne. rewrite L. apply resize_length. Qed.
Lemma zeroed_key w : wkey (zeroed w) = wkey w. Proof. reflexivity. Qed.
Lemma zeroed_length w : length (wr_buf (zeroed w)) = length (wr_buf w). Proof. apply map_length. Qed.

(** before an advance stores the written data, the buffers fit *)
Lemma settled_fit s0 h s p atEnd e w x : inv s0 h s -> life h = Initialized ->
  (st_remeshing s = true -> atEnd = false -> checkAll (st_locks s) = true) ->
  In w (settled (redo s p atEnd) s e) ->
  lookup (wr_mesh w) (if redo s p atEnd then readied s e else st_meshes s) = Some x ->
  length (wr_buf w) = nVertices (mx_mesh x) * wr_dims w.
Proof.
  intros I LF CK IW L. unfold settled in IW. destruct (redo s p atEnd) eqn:R.
  - apply in_map_iff in IW. destruct IW as [w0 [<- IW]]. rewrite fitOne_mesh in L. rewrite fitOne_dims.
    apply fitOne_length. exact L.
  - destruct (i_buf _ _ _ I w x IW L) as [K|[K1 [K2 K3]]]; [exact K|].
    exfalso. assert (K4 := i_edit _ _ _ I _ K2 LF).
    assert (CA : checkAll (st_locks s) = false).
    { destruct (checkAll (st_locks s)) eqn:CA; [|reflexivity]. exfalso.
      destruct (lookup (wr_mesh w) (st_locks s)) as [b|] eqn:LL.
      - assert (NB := i_lock _ _ _ I _ _ LL). rewrite K2 in NB. cbn in NB. subst b.
        unfold checkAll in CA. rewrite forallb_forall in CA. apply lookup_in in LL.
        specialize (CA _ LL). discriminate.
      - apply lookup_none in LL. rewrite (i_lkeys _ _ _ I) in LL.
        destruct (i_alike _ _ _ I) as [AK _]. rewrite <- AK in LL.
        apply LL. apply in_map_iff. exists (wr_mesh w, x). split; [reflexivity|]. apply lookup_in. exact L. }
    unfold redo in R. rewrite K4, CA in R. destruct atEnd; [discriminate|].
    rewrite (CK K4 eq_refl) in CA. discriminate.
Qed.

Lemma inv_step s0 h s c r s' : inv s0 h s -> effect W s c r s' -> inv s0 (h ++ [(c, r)]) s'.
Proof.
  intros I E.
  assert (ND : NoDup (map fst (st_meshes s))).
  { destruct (i_alike _ _ _ I) as [A _]. rewrite A. apply (i_nodup _ _ _ I). }
  assert (IN : inert c = true \/ r = None -> forall s', 
      st_phase s' = st_phase s -> st_solver s' = st_solver s -> st_remeshing s' = st_remeshing s ->
      st_experimental s' = st_experimental s -> st_parallel s' = st_parallel s -> st_names s' = st_names s ->
      st_meshes s' = st_meshes s -> st_locks s' = st_locks s -> st_writes s' = st_writes s -> inv s0 (h ++ [(c, r)]) s').
  { intros IC s1 Q1 Q2 Q3 Q4 Q5 Q6 Q7 Q8 Q9. apply (inv_same s0 h (h ++ [(c, r)]) s s1); try assumption.
    - rewrite life_snoc. destruct IC as [IC|IC]; [apply life_inert; exact IC|rewrite IC; apply life_none].
    - intros m. rewrite editable_snoc. destruct IC as [IC|IC]; [apply editable_inert; exact IC|rewrite IC; apply editable_none].
    - intros m. rewrite points_snoc. destruct IC as [IC|IC]; [apply points_inert; exact IC|rewrite IC; apply points_none]. }
  destruct E as [c|c r IC|c a r IC|dt p e c b PH AT|c r n IC|c r m b IC PH ER|c r m x y IC ED OP SV RU
    |c m x ps y OP CV CC|m x l RM PH LK ON CO UL|m d PH|m d ids vs x w PH LK FW LE VA LB|e s' r PH IZ|dt p e s' r PH ON DT AD|s' r PH FI].
  - apply IN; auto.
  - apply IN; auto.
  - apply IN; auto.
  - apply IN; auto.
  - apply IN; auto.
  - (* region *)
    destruct I as [I1 I2 I3 I4 I5 I6 [I7 I7'] I8 I9 I10 I11 I12 I13 I14 I15 I16 I17].
    assert (LU : forall k x, lookup k (alter m (fun x => setRegion x b) (st_meshes s)) = Some x ->
      exists y, lookup k (st_meshes s) = Some y /\ mx_mesh x = mx_mesh y /\ mx_provided x = mx_provided y /\ mx_full x = mx_full y /\ mx_direct x = mx_direct y).
    { intros k x. rewrite lookup_alter. destruct (m =? k); [|intros ->; exists x; auto].
      destruct (lookup k (st_meshes s)) as [y|]; [|discriminate]. intros [= <-]. exists y. auto. }
    constructor; cbn; rewrite ?life_snoc, ?life_inert by exact IC; auto.
    + split; [cbn; rewrite keys_alter; exact I7|]. cbn. intros k x L. destruct (LU k x L) as [z (L1&E1&E2&E3&E4)].
      destruct (I7' k z L1) as [x0 [A1 A2]]. exists x0. split; [exact A1|].
      unfold alike in *. rewrite E1, E2, E3, E4. exact A2.
    + intros k v L. rewrite editable_snoc, editable_inert by exact IC. auto.
    + intros k. rewrite editable_snoc, editable_inert by exact IC. eauto.
    + intros L k. rewrite editable_snoc, editable_inert by exact IC. auto.
    + intros k x L P. destruct (LU k x L) as [z (L1&E1&E2&E3&E4)]. rewrite points_snoc, points_inert by exact IC.
      rewrite E1. apply I13; [exact L1|congruence].
    + intros L k x L0 P. destruct (LU k x L0) as [z (L1&E1&E2&E3&E4)]. rewrite E1. eapply I14; [exact L|eassumption|congruence].
    + intros w x IW L. destruct (LU _ x L) as [z (L1&E1&E2&E3&E4)]. rewrite editable_snoc, editable_inert by exact IC.
      rewrite E1. auto.
  - (* connectivity *)
    destruct I as [I1 I2 I3 I4 I5 I6 [I7 I7'] I8 I9 I10 I11 I12 I13 I14 I15 I16 I17].
    destruct OP as [PF [LX [PX LO]]].
    assert (LU : forall k z, lookup k (st_meshes (putMesh s m y)) = Some z ->
      exists u, lookup k (st_meshes s) = Some u /\ sameV (mx_mesh u) (mx_mesh z) /\ mx_provided z = mx_provided u /\ mx_full z = mx_full u /\ mx_direct z = mx_direct u).
    { intros k z. rewrite lookup_put. destruct (Nat.eqb_spec m k) as [<-|N].
      - rewrite LX. intros [= <-]. exists x. repeat split; auto; apply SV.
      - intros ->. exists z. repeat split. }
    constructor; rewrite ?life_snoc, ?life_inert by exact IC; auto.
    + split; [cbn; rewrite keys_alter; exact I7|]. intros k z L. destruct (LU k z L) as [u (L1&[E0 E1]&E2&E3&E4)].
      destruct (I7' k u L1) as [x0 [A1 A2]]. exists x0. split; [exact A1|].
      unfold alike in *. rewrite E1, E2, E3, E4. exact A2.
    + intros k v L. rewrite editable_snoc, editable_inert by exact IC. auto.
    + intros k. rewrite editable_snoc, editable_inert by exact IC. eauto.
    + intros L k. rewrite editable_snoc, editable_inert by exact IC. auto.
    + intros k z L P. destruct (LU k z L) as [u (L1&[E0 E1]&E2&E3&E4)]. rewrite points_snoc, points_inert by exact IC.
      rewrite E0. apply I13; [exact L1|congruence].
    + intros L k z L0 P. destruct (LU k z L0) as [u (L1&[E0 E1]&E2&E3&E4)]. rewrite E0. eapply I14; [exact L|eassumption|congruence].
    + intros w z IW L. destruct (LU _ z L) as [u (L1&[E0 E1]&E2&E3&E4)]. rewrite editable_snoc, editable_inert by exact IC.
      unfold nVertices. rewrite E0. apply (I16 w u IW L1).
  - (* vertices *)
    destruct I as [I1 I2 I3 I4 I5 I6 [I7 I7'] I8 I9 I10 I11 I12 I13 I14 I15 I16 I17].
    destruct OP as [PF [LX [PX LO]]]. destruct (createVertices_ok _ _ _ CV) as [V1 [V2 V3]].
    assert (LL : forall p r, life1 p (c, r) = p) by (intros p r; destruct CC as [[-> _]|[n [l [-> _]]]]; reflexivity).
    assert (EE : forall k b r, editable1 k b (c, r) = b) by (intros k b r; destruct CC as [[-> _]|[n [l [-> _]]]]; reflexivity).
    assert (PP : forall k q r, points1 k q (c, Some r) = if m =? k then q ++ ps else q).
    { intros k q r. destruct CC as [[-> L1]|[n [l (->&EP&EL)]]]; cbn.
      - destruct ps as [|a [|? ?]]; try discriminate. reflexivity.
      - destruct (m =? k); [|reflexivity]. f_equal. rewrite (cut_dim n _ l EL). rewrite EP. symmetry. apply columns_cut. }
    constructor; rewrite ?life_snoc, ?LL; auto.
    + split; [cbn; rewrite keys_alter; exact I7|]. intros k z. cbn. rewrite lookup_alter.
      destruct (Nat.eqb_spec m k) as [<-|N]; [|apply I7'].
      rewrite LX. intros [= <-]. destruct (I7' m x LX) as [x0 [A1 (A2&A3&A4&A5)]]. exists x0. split; [exact A1|].
      repeat split; cbn; auto. intros P. rewrite V2. auto.
    + intros k v L. rewrite editable_snoc, EE. auto.
    + intros k. rewrite editable_snoc, EE. eauto.
    + intros L k. rewrite editable_snoc, EE. auto.
    + intros k z. cbn. rewrite lookup_alter, points_snoc, PP.
      destruct (Nat.eqb_spec m k) as [<-|N]; [|apply I13].
      rewrite LX. intros [= <-] P. cbn. rewrite V1. f_equal. apply I13; assumption.
    + intros L k z. cbn. rewrite lookup_alter. destruct (Nat.eqb_spec m k) as [<-|N]; [|eapply I14; eassumption].
      rewrite LX. intros [= <-] P. cbn in P. congruence.
    + cbn. rewrite <- I15. unfold resizeBuffers. rewrite map_map. apply map_ext. intros w. destruct (_ =? _); reflexivity.
    + intros w z IW. cbn in IW |- *. unfold resizeBuffers in IW. apply in_map_iff in IW. destruct IW as [w0 [<- IW]].
      rewrite lookup_alter, editable_snoc, EE. destruct (Nat.eqb_spec (wr_mesh w0) m) as [E0|N].
      * cbn. rewrite E0, Nat.eqb_refl, LX. intros [= <-]. cbn. left. apply (resize_length _ _ false).
      * destruct (Nat.eqb_spec m (wr_mesh w0)); [congruence|]. apply I16. exact IW.
  - (* reset *)
    destruct I as [I1 I2 I3 I4 I5 I6 [I7 I7'] I8 I9 I10 I11 I12 I13 I14 I15 I16 I17].
    unfold unlock in UL. destruct (lookup m (st_locks s)) as [b0|] eqn:LB; [|discriminate].
    injection UL as <-.
    constructor; rewrite ?life_snoc; cbn [life1]; auto.
    + split; [rewrite keys_put; exact I7|]. intros k z. rewrite lookup_put. cbn [withLocks st_meshes].
      destruct (Nat.eqb_spec m k) as [<-|N]; [|apply I7'].
      rewrite LK. intros [= <-]. destruct (I7' m x LK) as [x0 [A1 (A2&A3&A4&A5)]]. exists x0. split; [exact A1|].
      repeat split; cbn; auto.
    + cbn [putMesh withMeshes st_locks withLocks]. rewrite keys_alter. exact I9.
    + intros k b. cbn [putMesh withMeshes st_locks withLocks]. rewrite lookup_alter, editable_snoc. cbn [editable1].
      destruct (Nat.eqb_spec m k) as [<-|N]; [|apply I10]. rewrite LB. cbn. intros [= <-]. reflexivity.
    + intros L. congruence.
    + intros k z. rewrite lookup_put, points_snoc. cbn [withLocks st_meshes points1].
      destruct (Nat.eqb_spec m k) as [<-|N]; [|apply I13].
      rewrite LK. intros [= <-] P. reflexivity.
    + intros L. congruence.
    + intros w z IW. rewrite lookup_put, editable_snoc. cbn [withLocks st_meshes editable1].
      destruct (Nat.eqb_spec m (wr_mesh w)) as [E0|N]; [|apply I16; exact IW].
      rewrite <- E0, LK. intros [= <-]. right. cbn. repeat split. congruence.
  - (* nothing written *)
    eapply inv_same; [exact I|..]; try reflexivity; intros; rewrite ?life_snoc, ?editable_snoc, ?points_snoc; reflexivity.
  - (* written *)
    destruct I as [I1 I2 I3 I4 I5 I6 I7 I8 I9 I10 I11 I12 I13 I14 I15 I16 I17].
    constructor; rewrite ?life_snoc; cbn [life1]; auto.
    + intros k b L. rewrite editable_snoc. cbn. auto.
    + intros k. rewrite editable_snoc. cbn. eauto.
    + intros L k. rewrite editable_snoc. cbn. auto.
    + intros k z L P. rewrite points_snoc. cbn. auto.
    + cbn. rewrite <- I15, map_map. apply map_ext. intros u. destruct (_ && _); reflexivity.
    + intros u z IU L. rewrite editable_snoc. cbn in IU, L |- *.
      apply in_map_iff in IU. destruct IU as [u0 [<- IU]].
      destruct ((wr_mesh u0 =? m) && (wr_data u0 =? d)) eqn:K; [|apply I16; assumption].
      cbn in L |- *. left.
      assert (u0 = w) as -> by (eapply found_unique; eassumption).
      apply andb_true_iff in K. destruct K as [K1 K2]. apply Nat.eqb_eq in K1. rewrite K1, LK in L. injection L as <-.
      apply writeValues_length; [symmetry; exact LB|apply zs_valid; exact VA|unfold zs; rewrite map_length; auto].
  - (* initialize *)
    destruct (init_shape _ _ _ _ IZ ND) as (P1&P2&P3&P4&P5&P6&P7&P8&P9&P10&P11&P12&P13&P14).
    destruct I as [I1 I2 I3 I4 I5 I6 I7 I8 I9 I10 I11 I12 I13 I14 I15 I16 I17].
    destruct (readied_alike s0 s e I7) as [RA1 RA2].
    constructor; rewrite ?life_snoc; cbn [life1]; try congruence; auto.
    + split; rewrite P8; assumption.
    + rewrite P9, keys_lockAll. exact I9.
    + intros m b. rewrite P9, lookup_lockAll, editable_snoc. cbn. destruct (lookup m (st_locks s)); [|discriminate].
      cbn. congruence.
    + intros m. rewrite editable_snoc. discriminate.
    + intros m x. rewrite P8, points_snoc. cbn. intros L P. destruct (readied_points _ _ _ _ L P) as [y (Y1&Y2&Y3)].
      rewrite Y3. auto.
    + rewrite P10, <- I15, !map_map. apply map_ext. intros w. rewrite zeroed_key. apply fitOne_key.
    + intros w x. rewrite P10, P8. intros IW L. left. apply in_map_iff in IW. destruct IW as [w1 [<- IW]].
      apply in_map_iff in IW. destruct IW as [w0 [<- IW]]. rewrite zeroed_length.
      change (wr_dims (zeroed ?z)) with (wr_dims z). change (wr_mesh (zeroed ?z)) with (wr_mesh z) in L.
      rewrite fitOne_dims. apply fitOne_length. rewrite fitOne_mesh in L. exact L.
  - (* advance *)
    destruct (adv_shape _ _ _ _ _ _ AD ND) as [c [atEnd (A0&P1&P2&P3&P4&P5&P6&P7&P8&P9&P10&P11&P12&P13&P14&P15)]].
    assert (LF : life h = Initialized) by (rewrite <- (i_phase _ _ _ I); exact PH).
    assert (SF := fun w x => settled_fit s0 h s p atEnd e w x I LF P4).
    destruct I as [I1 I2 I3 I4 I5 I6 I7 I8 I9 I10 I11 I12 I13 I14 I15 I16 I17].
    destruct (readied_alike s0 s e I7) as [RA1 RA2].
    constructor; rewrite ?life_snoc; cbn [life1]; try congruence; auto.
    + split; rewrite P11; destruct (redo s p atEnd); try assumption; apply I7.
    + rewrite P12, keys_lockAll. exact I9.
    + intros m b. rewrite P12, lookup_lockAll, editable_snoc. cbn. destruct (lookup m (st_locks s)); [|discriminate].
      cbn. congruence.
    + intros m. rewrite editable_snoc. discriminate.
    + intros m x. rewrite P11, points_snoc. cbn. destruct (redo s p atEnd); [|apply I13].
      intros L P. destruct (readied_points _ _ _ _ L P) as [y (Y1&Y2&Y3)]. rewrite Y3. auto.
    + rewrite P13, <- I15. unfold settled. rewrite map_map. destruct (redo s p atEnd).
      * rewrite map_map. apply map_ext. intros w. rewrite zeroed_key. apply fitOne_key.
      * apply map_ext. intros w. apply zeroed_key.
    + intros w x. rewrite P13, P11. intros IW L. left. apply in_map_iff in IW. destruct IW as [w1 [<- IW]].
      rewrite zeroed_length. apply (SF w1); assumption.
  - (* finalize *)
    destruct I as [I1 I2 I3 I4 I5 I6 I7 I8 I9 I10 I11 I12 I13 I14 I15 I16 I17].
    assert (s' = withPhase (withSections s 0) Finalized false /\ r = RUnit) as [-> ->].
    { unfold finalize in FI. destruct (st_phase s); [injection FI as <- <-; auto..|congruence]. }
    constructor; rewrite ?life_snoc; cbn [life1]; cbn; auto.
    + intros m b L. rewrite editable_snoc. cbn. auto.
    + discriminate.
    + discriminate.
    + intros m x L P. rewrite points_snoc. cbn. auto.
    + discriminate.
    + intros w x IW L. rewrite editable_snoc. cbn. destruct (I16 w x IW L) as [K|[K1 [K2 K3]]]; [auto|].
      right. repeat split; auto. discriminate.
Qed.
End Inv.
