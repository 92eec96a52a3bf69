(** Just-in-time mapping: proofs. *)
From Coq Require Import ZArith QArith Qabs Bool List Arith Lia Lqa Qfield.
From Verif Require Import M_Mesh M_Quad M_Map S_Mesh S_Map P_Bary P_Map P_MapFind P_MapTop M_Jit S_Jit.
Import ListNotations.
Open Scope nat_scope.

Lemma qsum_split n m f : (qsum (n + m) f == qsum n f + qsum m (fun k => f (n + k)%nat))%Q.
Proof.
  induction m as [|m IH]; [rewrite Nat.add_0_r; cbn [qsum]; ring|]. rewrite Nat.add_succ_r. cbn [qsum]. rewrite IH. ring.
Qed.
Lemma nil_false A (l : list A) : isNil l = false -> l <> [].
Proof. destruct l; cbn; congruence. Qed.

(** * The history *)
Section Run.
Variables (dims : nat) (substeps : bool).
Variable readAt : mesh -> list (list Q) -> list Q -> option (list Q).
Variable writeAt : mesh -> list (list Q) -> list Q -> list Q -> option (list Q).
Variable share : mesh -> list Q -> nat -> Q.
Definition linearWrite : Prop := forall m coordinates source target,
  wf_mesh m -> m_verts m <> [] -> coordinatesOk m coordinates -> length source = length coordinates * dims -> sized dims m target ->
  exists out, writeAt m coordinates source target = Some out /\ sized dims m out /\
  forall j d, j < nVertices m -> d < dims ->
  (val dims out j d == val dims target j d + qsum (length coordinates) (fun i => share m (nth i coordinates []) j * val dims source i d))%Q.
Hypothesis Hwrite : linearWrite.

Definition inv (p : past) (s : state) : Prop :=
  s_mesh s = p_mesh p /\ s_time s = p_time p /\ s_wave s = p_wave p /\ wf_mesh (p_mesh p) /\ (0 <= p_time p)%Q /\
  (forall t, sized dims (p_mesh p) (p_wave p t)) /\
  Forall (fun t => (0 <= t)%Q) (p_reads p) /\
  (s_cacheTime s = (-1)%Q \/ (In (s_cacheTime s) (p_reads p) /\ s_cache s = p_wave p (s_cacheTime s))) /\
  (coordinatesOk (p_mesh p) (p_at p) /\ (p_at p <> [] -> m_verts (p_mesh p) <> [])) /\ length (p_values p) = length (p_at p) * dims /\ sized dims (p_mesh p) (s_buffer s) /\
  forall j d, j < nVertices (p_mesh p) -> d < dims ->
    (val dims (s_buffer s) j d == qsum (length (p_at p)) (fun i => share (p_mesh p) (nth i (p_at p) []) j * val dims (p_values p) i d))%Q.

Lemma val_zero (l : list Q) i d : val dims (map (fun _ => 0%Q) l) i d = 0%Q.
Proof. unfold val. generalize (i * dims + d). induction l as [|x l IH]; intros [|n]; [reflexivity|reflexivity|reflexivity|]. apply IH. Qed.
Lemma sized_zero (m : mesh) (l : list Q) : sized dims m l -> sized dims m (map (fun _ => 0%Q) l).
Proof. unfold sized. rewrite map_length. auto. Qed.

Lemma inv_start m max wave : wf_mesh m -> (forall t, sized dims m (wave t)) -> inv (start m wave) (initialized dims m max wave).
Proof.
  intros W S. unfold inv, start, initialized. cbn [p_mesh p_time p_wave p_reads p_at p_values s_mesh s_time s_wave s_cacheTime s_cache s_buffer].
  split; [reflexivity|]. split; [reflexivity|]. split; [reflexivity|]. split; [exact W|]. split; [discriminate|]. split; [exact S|].
  split; [constructor|]. split; [left; reflexivity|]. split; [split; [constructor|intros N; exfalso; apply N; reflexivity]|]. split; [reflexivity|]. split; [apply sized_zeros|].
  intros j d _ _. cbn [length qsum]. unfold zeroBuffer. rewrite (val_zeros dims m). reflexivity.
Qed.
(** a read fills the cache *)
Lemma read_cache p s readTime coordinates s' out : inv p s -> (0 <= readTime)%Q ->
  mapAndReadValues readAt s readTime coordinates = Some (s', out) ->
  exists t, (Qabs (t - readTime) <= jitEps)%Q /\ (t = readTime \/ In t (p_reads p)) /\ s_cacheTime s' = t /\ s_cache s' = p_wave p t /\
  readAt (p_mesh p) coordinates (p_wave p t) = Some out /\
  s_mesh s' = s_mesh s /\ s_time s' = s_time s /\ s_wave s' = s_wave s /\ s_buffer s' = s_buffer s /\ s_stored s' = s_stored s.
Proof.
  intros (I1 & I2 & I3 & _ & _ & _ & _ & IC & _) P E. unfold mapAndReadValues in E.
  destruct (jitEquals (s_cacheTime s) readTime) eqn:EQ.
  - unfold jitEquals in EQ. apply Qle_bool_iff in EQ. destruct IC as [X|(X & Y)].
    { exfalso. rewrite X in EQ. apply Qabs_Qle_condition in EQ. destruct EQ as (EQ & _). assert (jitEps < 1)%Q by reflexivity. lra. }
    rewrite I1, Y in E. destruct (readAt _ _ _) as [o|] eqn:ER; [|discriminate]. injection E as <- <-.
    exists (s_cacheTime s). split; [exact EQ|]. split; [right; exact X|]. repeat split; auto.
  - cbn [s_mesh s_cache] in E. rewrite I1, I3 in E. destruct (readAt _ _ _) as [o|] eqn:ER; [|discriminate]. injection E as <- <-.
    exists readTime. split; [setoid_replace (readTime - readTime)%Q with 0%Q by ring; discriminate|]. split; [left; reflexivity|].
    cbn [s_cacheTime s_cache s_mesh s_time s_wave s_buffer s_stored]. repeat split; auto.
Qed.
Lemma inv_step p s x s' : inv p s -> sane dims p x -> doOp dims substeps readAt writeAt s x = Some s' -> inv (next p x) s'.
Proof.
  intros IV OK E. assert (IV' := IV). destruct IV as (I1 & I2 & I3 & I4 & I5 & I6 & I7 & I8 & I9 & I10 & I11 & I12). destruct x as [relative coordinates|coordinates values|a]; cbn [doOp] in E.
  - unfold mapAndReadData in E. destruct (negb (jitSmallerEquals relative (s_max s))); [discriminate|]. destruct (Qle_bool 0 relative) eqn:R; cbn [negb] in E; [|discriminate].
    destruct (isNil (m_verts (s_mesh s))); [discriminate|]. destruct coordinates as [|x0 coordinates]; cbn [isNil] in E.
    { cbn in E. injection E as <-. exact IV'. }
    destruct (mapAndReadValues _ _ _ _) as [[s1 out]|] eqn:EM; [|discriminate]. cbn in E. injection E as <-.
    apply Qle_bool_iff in R. assert (P : (0 <= s_time s + relative)%Q) by (rewrite I2; lra).
    destruct (read_cache p s _ _ _ _ IV' P EM) as (t & T1 & T2 & T3 & T4 & T5 & E1 & E2 & E3 & E4 & E5).
    unfold inv. cbn [next p_mesh p_time p_wave p_reads p_at p_values]. rewrite E1, E2, E3, E4, T3, T4.
    split; [exact I1|]. split; [exact I2|]. split; [exact I3|]. split; [exact I4|]. split; [exact I5|]. split; [exact I6|].
    split; [apply Forall_app; split; [exact I7|constructor; [rewrite <- I2; exact P|constructor]]|].
    split; [right; split; [|reflexivity]|]. { apply in_or_app. destruct T2 as [->|T2]; [right; left; rewrite I2; reflexivity|left; exact T2]. }
    split; [exact I9|]. split; [exact I10|]. split; [exact I11|exact I12].
  - unfold writeAndMapData in E. destruct (isNil coordinates && isNil values) eqn:NI.
    { injection E as <-. destruct coordinates, values; try discriminate. unfold inv. cbn [next p_mesh p_time p_wave p_reads p_at p_values]. rewrite !app_nil_r. exact IV'. }
    destruct (Nat.eqb_spec (length coordinates * dims) (length values)) as [L|L]; [|discriminate]. cbn [negb] in E.
    destruct (isNil (m_verts (s_mesh s))) eqn:NV; [discriminate|]. apply nil_false in NV. rewrite I1 in *.
    cbn [sane] in OK. destruct (Hwrite (p_mesh p) coordinates values (s_buffer s) I4 NV OK (eq_sym L) I11) as (b & EB & SB & VB).
    rewrite EB in E. injection E as <-. unfold inv. cbn [next p_mesh p_time p_wave p_reads p_at p_values s_mesh s_time s_wave s_cacheTime s_cache s_buffer].
    split; [reflexivity|]. split; [exact I2|]. split; [exact I3|]. split; [exact I4|]. split; [exact I5|]. split; [exact I6|]. split; [exact I7|]. split; [exact I8|].
    split; [split; [apply Forall_app; split; [apply I9|exact OK]|intros _; exact NV]|]. split; [rewrite !app_length; lia|]. split; [exact SB|].
    intros j d J D. rewrite (VB j d J D), (I12 j d J D), app_length, qsum_split. apply Qplus_comp; apply qsum_ext; intros k K.
    + rewrite app_nth1 by exact K. unfold val. rewrite app_nth1 by nia. reflexivity.
    + rewrite app_nth2 by lia. replace (length (p_at p) + k - length (p_at p)) with k by lia. unfold val. rewrite app_nth2 by nia.
      replace ((length (p_at p) + k) * dims + d - length (p_values p)) with (k * dims + d) by nia. reflexivity.
  - injection E as <-. cbn [sane] in OK. destruct OK as (O1 & O2 & O3 & O4). unfold doAdvance, handleDataAfterAdvance, handleDataBeforeAdvance, next, newMesh in *. destruct (a_atEnd a).
    + unfold inv. cbn [p_mesh p_time p_wave p_reads p_at p_values s_mesh s_time s_wave s_cacheTime s_cache s_buffer].
      assert (M : s_mesh (match a_remesh a with Some m => remesh dims s m | None => s end) = match a_remesh a with Some m => m | None => p_mesh p end) by (destruct (a_remesh a); [reflexivity|exact I1]).
      assert (B : sized dims (match a_remesh a with Some m => m | None => p_mesh p end) (s_buffer (match a_remesh a with Some m => remesh dims s m | None => s end))).
      { destruct (a_remesh a) as [m|]; [apply sized_zeros|exact I11]. }
      split; [exact M|]. split; [reflexivity|]. split; [reflexivity|]. split; [exact O3|]. split; [exact O2|]. split; [exact (O4 eq_refl)|]. split; [constructor|]. split; [left; reflexivity|].
      split; [split; [constructor|intros N; exfalso; apply N; reflexivity]|]. split; [reflexivity|]. split; [apply sized_zero, B|]. intros j d _ _. rewrite val_zero. reflexivity.
    + unfold inv. cbn [p_mesh p_time p_wave p_reads p_at p_values s_mesh s_time s_wave s_cacheTime s_cache s_buffer]. rewrite I2.
      split; [exact I1|]. split; [reflexivity|]. split; [exact I3|]. split; [exact I4|]. split; [lra|]. split; [exact I6|]. split; [exact I7|]. split; [exact I8|].
      split; [split; [constructor|intros N; exfalso; apply N; reflexivity]|]. split; [reflexivity|]. split; [apply sized_zero, I11|]. intros j d _ _. rewrite val_zero. reflexivity.
Qed.
Lemma inv_run : forall l p s s', inv p s -> saneAll dims p l -> doOps dims substeps readAt writeAt s l = Some s' -> inv (after p l) s'.
Proof.
  induction l as [|x l IH]; intros p s s' IV OK E; cbn [doOps] in E.
  - injection E as <-. exact IV.
  - destruct (doOp dims substeps readAt writeAt s x) as [s1|] eqn:EX; [|discriminate]. destruct OK as (OX & OK). apply (IH (next p x) s1); auto. eapply inv_step; eauto.
Qed.
Lemma max_run : forall l s s', doOps dims substeps readAt writeAt s l = Some s' -> s_max s' = lastMax (s_max s) l.
Proof.
  unfold lastMax. induction l as [|x l IH]; intros s s' E; cbn [doOps] in E; [injection E as <-; reflexivity|]. cbn [fold_left].
  destruct (doOp dims substeps readAt writeAt s x) as [s1|] eqn:EX; [|discriminate]. rewrite (IH _ _ E). f_equal. destruct x as [relative coordinates|coordinates values|a]; cbn [doOp] in EX.
  - unfold mapAndReadData in EX. destruct (negb (jitSmallerEquals relative (s_max s))); [discriminate|]. destruct (negb (Qle_bool 0 relative)); [discriminate|].
    destruct (isNil (m_verts (s_mesh s))); [discriminate|]. destruct (isNil coordinates); [injection EX as <-; reflexivity|].
    unfold mapAndReadValues in EX. destruct (jitEquals _ _); destruct (readAt _ _ _); try discriminate; injection EX as <-; reflexivity.
  - unfold writeAndMapData in EX. destruct (_ && _); [injection EX as <-; reflexivity|]. destruct (negb _); [discriminate|]. destruct (isNil _); [discriminate|].
    destruct (writeAt _ _ _ _); [|discriminate]. injection EX as <-. reflexivity.
  - injection EX as <-. unfold doAdvance, handleDataAfterAdvance. destruct (a_atEnd a); reflexivity.
Qed.
End Run.

(** * Nearest neighbour *)
Definition nnShare (cv : mesh -> list Q -> nat) (m : mesh) (x : list Q) (j : nat) : Q := if cv m x =? j then 1%Q else 0%Q.
Lemma vertices_ok m coordinates : coordinatesOk m coordinates -> wf_mesh m -> wf_mesh (MkMesh (m_dim m) (map toVertex coordinates) [] [] []).
Proof.
  intros C W. constructor; cbn; try contradiction; [apply (wm_dim m W)|]. intros v V. apply in_map_iff in V. destruct V as (x & <- & X). cbn.
  unfold coordinatesOk in C. rewrite Forall_forall in C. apply C, X.
Qed.
Lemma nth_indices cv m : forall coordinates l, vertexIndices (getClosestVertex (cv m) m) (map toVertex coordinates) = Some l -> m_verts m <> [] -> l = map (cv m) coordinates.
Proof.
  intros coordinates l E NE. assert (G : forall u, getClosestVertex (cv m) m u = Some (cv m u)).
  { intros u. unfold getClosestVertex. rewrite nonempty_true; [reflexivity|]. unfold nVertices. destruct (m_verts m); [congruence|cbn; lia]. }
  revert l E. induction coordinates as [|x r IH]; intros l E; cbn [map vertexIndices] in E; [injection E as <-; reflexivity|].
  cbn [toVertex v_coords] in E. rewrite G in E. destruct (vertexIndices _ _) as [l'|]; [|discriminate]. injection E as <-. cbn [map]. f_equal. apply IH. reflexivity.
Qed.
Lemma nn_linear cv dims : nearestSearches cv -> linearWrite dims (nnWriteAt cv dims) (nnShare cv).
Proof.
  intros S m coordinates source target W NE C LS ST.
  set (o := MkMesh (m_dim m) (map toVertex coordinates) [] [] []). assert (Wo : wf_mesh o) by (apply vertices_ok; auto).
  assert (LO : nVertices o = length coordinates) by (unfold nVertices; cbn; apply map_length).
  destruct (nnConservative_ok m o (cv m) dims source target Wo eq_refl) as (l & out & E & EN & SO & N & V).
  - left. unfold nVertices. destruct (m_verts m); [congruence|cbn; lia].
  - intros u U H. apply S; auto.
  - unfold sized. rewrite LO. exact LS.
  - exact ST.
  - exists out. split; [unfold nnWriteAt, mapNNConservativeAt; change (map toVertex coordinates) with (m_verts o); rewrite E; exact EN|]. split; [exact SO|].
    assert (EL := nth_indices cv m coordinates l E NE). intros j d _ D. rewrite (V j d D), LO. apply Qplus_comp; [reflexivity|]. apply qsum_ext. intros k K.
    rewrite EL. rewrite (nth_indep _ 0 (cv m [])) by (rewrite map_length; exact K). rewrite (map_nth (cv m)). unfold nnShare. destruct (cv m (nth k coordinates []) =? j); ring.
Qed.
Lemma nn_read cv dims m coordinates cache : nearestSearches cv -> wf_mesh m -> m_verts m <> [] -> coordinatesOk m coordinates -> sized dims m cache ->
  exists out, nnReadAt cv dims m coordinates cache = Some out /\ length out = length coordinates * dims /\
  forall i x, nth_error coordinates i = Some x -> exists j, nearest m x j /\ forall d, d < dims -> val dims out i d = val dims cache j d.
Proof.
  intros S W NE C SC. set (o := MkMesh (m_dim m) (map toVertex coordinates) [] [] []). assert (Wo : wf_mesh o) by (apply vertices_ok; auto).
  assert (LO : nVertices o = length coordinates) by (unfold nVertices; cbn; apply map_length).
  destruct (nnConsistent_ok m o (cv m) dims cache Wo eq_refl) as (l & out & E & EN & SO & V).
  - left. unfold nVertices. destruct (m_verts m); [congruence|cbn; lia].
  - intros u U H. apply S; auto.
  - exact SC.
  - exists out. split; [|split].
    + unfold nnReadAt, mapNNConsistentAt. change (map toVertex coordinates) with (m_verts o). rewrite E. rewrite <- LO. exact EN.
    + rewrite <- LO. exact SO.
    + intros i x X. assert (I : i < nVertices o) by (rewrite LO; apply nth_error_Some; congruence). destruct (V i I) as (j & NJ & EQ). exists j. split; [|exact EQ].
      unfold position in NJ. cbn in NJ. rewrite (map_nth_error toVertex i coordinates X) in NJ. exact NJ.
Qed.

(** * Coarse graining *)
Section CG.
Variables (inside : mesh -> list Q -> list nat) (kernel : Q -> Q) (radius : Q).
Hypothesis Hin : withinSearches inside radius.
Hypothesis Hk : forall a b, (a == b)%Q -> (kernel a == kernel b)%Q.
Definition cgShare (m : mesh) (x : list Q) (j : nat) : Q :=
  if Qle_bool (radius * radius) (sqdist (m_dim m) (position m j) x) then 0%Q else kernel (sqdist (m_dim m) (position m j) x).
Lemma squared_sqdist : forall n a b, length a = n -> length b = n -> (squaredDifference a b == sqdist n a b)%Q.
Proof.
  unfold squaredDifference, sqdist. intros n a. revert n. induction a as [|x a IH]; intros n [|y b] LA LB; cbn in LA, LB; subst n; try discriminate; [reflexivity|].
  injection LB as LB. cbn [length combine fold_right fst snd]. rewrite qsum_S. cbn [nth]. rewrite (IH (length a) b eq_refl LB). ring.
Qed.
Lemma spread_spec dims m x c : wf_mesh m -> length x = m_dim m -> length c = dims -> forall dest target,
  NoDup dest -> (forall j, In j dest -> j < nVertices m) -> sized dims m target ->
  exists out, cgSpread kernel dims m x c dest target = Some out /\ sized dims m out /\
  forall j d, d < dims -> (val dims out j d == val dims target j d + (if existsb (Nat.eqb j) dest then kernel (sqdist (m_dim m) (position m j) x) * nth d c 0 else 0))%Q.
Proof.
  intros W LX LC. induction dest as [|a r IH]; intros target ND B ST; cbn [cgSpread].
  - exists target. split; [reflexivity|]. split; [exact ST|]. intros j d _. cbn [existsb]. ring.
  - inversion ND as [|? ? NI ND']. assert (AB := B a (or_introl eq_refl)). destruct (nth_error (m_verts m) a) as [v|] eqn:EV.
    2:{ apply nth_error_None in EV. unfold nVertices in AB. lia. }
    assert (PO : position m a = v_coords v) by (unfold position; rewrite EV; reflexivity).
    set (k0 := kernel (squaredDifference (v_coords v) x)). assert (LM : length (map (Qmult k0) c) = dims) by (rewrite map_length; exact LC).
    destruct (addSeg_some (a * dims) (map (Qmult k0) c) target) as (t & ET); [rewrite LM; unfold sized in ST; rewrite ST; nia|].
    fold (addCol dims a (map (Qmult k0) c) target) in ET. rewrite ET. destruct (addCol_spec _ _ _ _ _ ET LM) as (LT & VT).
    destruct (IH t ND' (fun j J => B j (or_intror J))) as (out & EO & SO & VO); [unfold sized in *; rewrite LT; exact ST|].
    exists out. split; [exact EO|]. split; [exact SO|]. intros j d D. rewrite (VO j d D), (VT j d D). cbn [existsb].
    destruct (Nat.eqb_spec j a) as [->|NE].
    + cbn [orb]. replace (existsb (Nat.eqb a) r) with false.
      2:{ symmetry. apply not_true_is_false. intros HH. apply existsb_exists in HH. destruct HH as (q & Q0 & Q1). apply Nat.eqb_eq in Q1. subst q. auto. }
      rewrite (nth_indep _ 0%Q (k0 * 0)%Q) by (rewrite LM; exact D). rewrite (map_nth (Qmult k0)). unfold k0.
      rewrite (Hk (squaredDifference (v_coords v) x) (sqdist (m_dim m) (position m a) x)); [ring|]. rewrite PO. apply squared_sqdist; [|exact LX].
      apply (wm_coords m W). eapply nth_error_In; eauto.
    + cbn [orb]. ring.
Qed.
Lemma cg_write dims m source : wf_mesh m -> forall coordinates i target,
  coordinatesOk m coordinates -> (i + length coordinates) * dims <= length source -> sized dims m target ->
  exists out, cgWrite inside kernel dims m i coordinates source target = Some out /\ sized dims m out /\
  forall j d, j < nVertices m -> d < dims ->
  (val dims out j d == val dims target j d + qsum (length coordinates) (fun k => cgShare m (nth k coordinates []) j * val dims source (i + k)%nat d))%Q.
Proof.
  intros W. induction coordinates as [|x r IH]; intros i target C LS ST; cbn [cgWrite].
  - exists target. split; [reflexivity|]. split; [exact ST|]. intros j d _ _. cbn [length qsum]. ring.
  - apply Forall_cons_iff in C. destruct C as (LX & C). cbn [length] in LS. destruct (segment_some dims i source) as (c & -> & LC & VC); [nia|].
    destruct (Hin m x) as (ND & IN). destruct (spread_spec dims m x c W LX LC (inside m x) target ND) as (t & -> & SOT & VT); [intros j J; apply IN, J|exact ST|].
    destruct (IH (S i) t C) as (out & EO & SO & VO); [nia|exact SOT|]. exists out. split; [exact EO|]. split; [exact SO|].
    intros j d J D. rewrite (VO j d J D), (VT j d D), VC by exact D. cbn [length]. rewrite qsum_S. cbn [nth]. rewrite Nat.add_0_r.
    rewrite (qsum_ext (length r) (fun k => cgShare m (nth k r []) j * val dims source (S i + k)%nat d)%Q (fun k => cgShare m (nth k r []) j * val dims source (i + S k)%nat d)%Q)
      by (intros k _; replace (S i + k) with (i + S k) by lia; reflexivity).
    unfold cgShare at 2. destruct (Qle_bool (radius * radius) _) eqn:R.
    + replace (existsb (Nat.eqb j) (inside m x)) with false; [ring|]. symmetry. apply not_true_is_false. intros H. apply existsb_exists in H. destruct H as (q & Q0 & Q1). apply Nat.eqb_eq in Q1. subst q.
      apply IN in Q0. apply Qle_bool_iff in R. destruct Q0 as (_ & Q0). apply (Qlt_not_le _ _ Q0 R).
    + replace (existsb (Nat.eqb j) (inside m x)) with true; [ring|]. symmetry. apply existsb_exists. exists j. split; [|apply Nat.eqb_refl]. apply IN. split; [exact J|].
      apply Qnot_le_lt. intros H. apply Qle_bool_iff in H. congruence.
Qed.
Lemma cg_linear dims : linearWrite dims (cgWriteAt inside kernel dims) cgShare.
Proof.
  intros m coordinates source target W _ C LS ST. destruct (cg_write dims m source W coordinates 0 target C) as (out & E & SO & V); [nia|exact ST|].
  exists out. split; [exact E|]. split; [exact SO|]. exact V.
Qed.
End CG.
