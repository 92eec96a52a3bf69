From Coq Require Import ZArith QArith Bool List Arith Lia.
From Verif Require Import M_Mesh S_Mesh S_Filter P_SerMesh.
Import ListNotations.
Open Scope nat_scope.

Lemma find_key_app {A} k (l l' : list (Z * A)) :
  find_key k (l ++ l') = match find_key k l with Some a => Some a | None => find_key k l' end.
Proof. induction l as [|[k' a] r IH]; cbn; [reflexivity|]. destruct (k =? k')%Z; auto. Qed.
Lemma find_key_none {A} k (l : list (Z * A)) : (forall k' b, In (k', b) l -> (k' < k)%Z) -> find_key k l = None.
Proof.
  induction l as [|[k' a] r IH]; intros H; cbn; [reflexivity|].
  destruct (Z.eqb_spec k k') as [->|]; [specialize (H k' a (or_introl eq_refl)); lia|]. apply IH. intros ? ? ?. apply (H k'0 b). right. assumption.
Qed.
Definition selv (p : vertex -> bool) (vs : list vertex) i := match nth_error vs i with Some v => p v | None => false end.
Definition rnk (p : vertex -> bool) (vs : list vertex) i := length (filter p (firstn i vs)).
Lemma copyVertices_ok p : forall vs id m vmap, (forall v, In v vs -> length (v_coords v) = m_dim m) ->
  (forall k b, In (k, b) vmap -> (k < Z.of_nat id)%Z) ->
  exists vmap', copyVertices p vs id m vmap = Some (setVerts m (m_verts m ++ filter p vs), vmap') /\
    (forall i, at_ vmap' (id + i) = if selv p vs i then Some (nVertices m + rnk p vs i) else None) /\
    (forall i, i < id -> at_ vmap' i = at_ vmap i).
Proof.
  induction vs as [|v r IH]; intros id m vmap Hd Hk; cbn [copyVertices].
  - exists vmap. split; [cbn; rewrite app_nil_r; destruct m; reflexivity|]. split; [|auto].
    intros i. unfold selv, at_. rewrite find_key_none; [destruct i; reflexivity|]. intros k b H. specialize (Hk k b H). lia.
  - destruct (p v) eqn:Ep.
    + unfold copyVertex. rewrite (Hd v) by (left; reflexivity). rewrite Nat.eqb_refl.
      set (m1 := setVerts m _). rewrite (assign_last _ _ vmap) by exact Hk.
      destruct (IH (S id) m1 (vmap ++ [(Z.of_nat id, nVertices m)])) as (vm & E & F & O).
      { intros w Hw. apply Hd. right. exact Hw. }
      { intros k b H. rewrite in_app_iff in H. destruct H as [H|[H|[]]]; [specialize (Hk k b H); lia|injection H as <- <-; lia]. }
      exists vm. split; [|split].
      * rewrite E. unfold m1, setVerts. cbn. rewrite Ep, <- app_assoc. destruct v. reflexivity.
      * intros [|i]; cbn.
        -- unfold selv. cbn. rewrite Ep. rewrite Nat.add_0_r, O by lia. unfold at_. rewrite find_key_app.
           rewrite find_key_none by exact Hk. cbn. rewrite Z.eqb_refl. unfold rnk. cbn. f_equal. lia.
        -- replace (id + S i) with (S id + i) by lia. rewrite F. unfold selv. cbn.
           destruct (nth_error r i) as [w|]; [|reflexivity]. destruct (p w); [|reflexivity].
           unfold rnk, m1, setVerts, nVertices. cbn. rewrite Ep, app_length. cbn. f_equal. lia.
      * intros i Hi. rewrite O by lia. unfold at_. rewrite find_key_app.
        destruct (find_key (Z.of_nat i) vmap); [reflexivity|]. cbn. destruct (Z.eqb_spec (Z.of_nat i) (Z.of_nat id)); [lia|reflexivity].
    + destruct (IH (S id) m vmap) as (vm & E & F & O).
      { intros w Hw. apply Hd. right. exact Hw. }
      { intros k b H. specialize (Hk k b H). lia. }
      exists vm. split; [|split].
      * rewrite E. cbn. rewrite Ep. reflexivity.
      * intros [|i]; cbn.
        -- unfold selv. cbn. rewrite Ep. rewrite Nat.add_0_r, O by lia. apply find_key_none. exact Hk.
        -- replace (id + S i) with (S id + i) by lia. rewrite F. unfold selv. cbn.
           destruct (nth_error r i) as [w|]; [|reflexivity]. destruct (p w); [|reflexivity].
           unfold rnk. cbn. rewrite Ep. reflexivity.
      * intros i Hi. apply O. lia.
Qed.
Section E.
Variables (p : vertex -> bool) (m0 m : mesh) (vm : list (Z * nat)).
Notation nw := (new_id p m (nVertices m0)).
Hypothesis F : forall i, at_ vm i = if selected p m i then Some (nw i) else None.
Lemma nw_le a b : a <= b -> nw a <= nw b.
Proof.
  intros H. unfold new_id. rewrite <- (firstn_skipn a (firstn b (m_verts m))), firstn_firstn, filter_app, app_length.
  rewrite Nat.min_l by exact H. lia.
Qed.
Lemma nw_lt a b : a < b -> selected p m a = true -> nw a < nw b.
Proof.
  intros H Sa. eapply Nat.lt_le_trans; [|apply (nw_le (S a) b H)]. unfold new_id, selected in *.
  destruct (nth_error (m_verts m) a) as [v|] eqn:E; [|discriminate].
  apply nth_error_split in E. destruct E as (l1 & l2 & -> & <-).
  replace (S (length l1)) with (length l1 + 1) by lia. rewrite firstn_app_2, firstn_app, firstn_all, Nat.sub_diag.
  cbn. rewrite app_nil_r, filter_app, app_length. cbn. rewrite Sa. cbn. lia.
Qed.
Lemma copyEdges_ok : forall es mm, (forall a b, In (a, b) es -> a <= b) ->
  fold_left (copyEdge vm) es mm = setEdges mm (m_edges mm ++
    map (fun e => (nw (fst e), nw (snd e))) (filter (fun e => selected p m (fst e) && selected p m (snd e)) es)).
Proof.
  induction es as [|[a b] r IH]; intros mm H; cbn.
  - rewrite app_nil_r. destruct mm; reflexivity.
  - rewrite IH by (intros; apply H; right; assumption). unfold copyEdge. cbn [fst snd]. rewrite !F.
    destruct (selected p m a) eqn:Ea; cbn [andb]; [|reflexivity].
    destruct (selected p m b) eqn:Eb; cbn [andb]; [|reflexivity].
    unfold createEdge. rewrite sort2_id by (apply nw_le, (H a b); left; reflexivity). unfold setEdges. cbn. rewrite <- app_assoc. reflexivity.
Qed.
Lemma copyTris_ok : forall es mm, (forall a b c, In (a, b, c) es -> a <= b /\ b <= c) ->
  fold_left (copyTriangle vm) es mm = setTris mm (m_tris mm ++
    map (fun t => let '(a, b, c) := t in (nw a, nw b, nw c))
        (filter (fun t => let '(a, b, c) := t in selected p m a && selected p m b && selected p m c) es)).
Proof.
  induction es as [|[[a b] c] r IH]; intros mm H; cbn.
  - rewrite app_nil_r. destruct mm; reflexivity.
  - rewrite IH by (intros; apply H; right; assumption). unfold copyTriangle. rewrite !F.
    destruct (H a b c) as [? ?]; [left; reflexivity|].
    destruct (selected p m a) eqn:Ea; cbn [andb]; [|reflexivity].
    destruct (selected p m b) eqn:Eb; cbn [andb]; [|reflexivity].
    destruct (selected p m c) eqn:Ec; cbn [andb]; [|reflexivity].
    unfold createTriangle. rewrite sort3_id by (apply nw_le; assumption). unfold setTris. cbn. rewrite <- app_assoc. reflexivity.
Qed.
Lemma copyTets_ok : forall es mm, (forall a b c d, In (a, b, c, d) es -> a < b /\ b < c /\ c < d /\ m_dim mm = 3) ->
  copyTetrahedra vm es mm = Some (setTets mm (m_tets mm ++
    map (fun t => let '(a, b, c, d) := t in (nw a, nw b, nw c, nw d))
        (filter (fun t => let '(a, b, c, d) := t in selected p m a && selected p m b && selected p m c && selected p m d) es))).
Proof.
  induction es as [|[[[a b] c] d] r IH]; intros mm H; cbn [copyTetrahedra filter].
  - cbn. rewrite app_nil_r. destruct mm; reflexivity.
  - rewrite !F. destruct (H a b c d) as (? & ? & ? & D3); [left; reflexivity|].
    assert (Hr : forall x y z w, In (x, y, z, w) r -> x < y /\ y < z /\ z < w /\ m_dim mm = 3) by (intros; apply H; right; assumption).
    destruct (selected p m a) eqn:Ea; cbn [andb]; [|apply IH, Hr].
    destruct (selected p m b) eqn:Eb; cbn [andb]; [|apply IH, Hr].
    destruct (selected p m c) eqn:Ec; cbn [andb]; [|apply IH, Hr].
    destruct (selected p m d) eqn:Ed; cbn [andb]; [|apply IH, Hr].
    unfold createTetrahedron. rewrite D3, Nat.eqb_refl.
    rewrite distinct4_lt by (apply nw_lt; assumption). cbn [andb]. rewrite IH by exact Hr.
    rewrite sort4_id by (apply nw_le; lia). unfold setTets. cbn. rewrite <- app_assoc. reflexivity.
Qed.
End E.

Lemma filterMesh_ok m0 m p : wf_mesh m -> m_dim m0 = m_dim m ->
  exists m', filterMesh m0 m p = Some m' /\ filtered p m0 m m'.
Proof.
  intros W D. unfold filterMesh, obind.
  destruct (copyVertices_ok p (m_verts m) 0 m0 []) as (vm & E & F & _).
  { intros v Hv. rewrite D. apply (wm_coords m W), Hv. }
  { intros k b []. }
  rewrite E. cbn [Nat.add] in F.
  rewrite (copyEdges_ok p m0 m vm F) by (intros a b H; apply (wm_edges m W) in H; lia).
  rewrite (copyTris_ok p m0 m vm F) by (intros a b c H; apply (wm_tris m W) in H; lia).
  rewrite (copyTets_ok p m0 m vm F).
  2: { intros a b c d H. apply (wm_tets m W) in H. cbn. rewrite D. lia. }
  eexists. split; [reflexivity|]. constructor; reflexivity.
Qed.
Lemma filter_all {A} (q : A -> bool) l : (forall x, In x l -> q x = true) -> filter q l = l.
Proof. induction l as [|x r IH]; intros H; cbn; [reflexivity|]. rewrite H by (left; reflexivity). f_equal. apply IH. intros; apply H; right; assumption. Qed.
Lemma addMesh_ok m0 m : wf_mesh m -> m_dim m0 = m_dim m ->
  exists m', addMesh m0 m = Some m' /\ appended eq m0 m m'.
Proof.
  intros W D. unfold addMesh. rewrite D, Nat.eqb_refl.
  destruct (copyVertices_ok (fun _ => true) (m_verts m) 0 m0 []) as (vm & E & F & _).
  { intros v Hv. rewrite D. apply (wm_coords m W), Hv. }
  { intros k b []. }
  rewrite E. cbn [Nat.add] in F.
  assert (Sel : forall i, i < nVertices m -> selected (fun _ => true) m i = true).
  { intros i Hi. unfold selected. destruct (nth_error (m_verts m) i) eqn:N; [reflexivity|]. apply nth_error_None in N. unfold nVertices in Hi. lia. }
  assert (Nw : forall i, i < nVertices m -> new_id (fun _ => true) m (nVertices m0) i = nVertices m0 + i).
  { intros i Hi. unfold new_id. rewrite filter_all by reflexivity. rewrite firstn_length_le; [reflexivity|]. unfold nVertices in Hi. lia. }
  assert (Kn : forall i, i < nVertices m -> knows vm i = true).
  { intros i Hi. unfold knows. rewrite F. change (selv (fun _ => true) (m_verts m) i) with (selected (fun _ => true) m i). rewrite Sel by exact Hi. reflexivity. }
  assert (K : forallb (fun e => knows vm (fst e) && knows vm (snd e)) (m_edges m) &&
           forallb (fun t => let '(a, b, c) := t in knows vm a && knows vm b && knows vm c) (m_tris m) &&
           forallb (fun t => let '(a, b, c, d) := t in knows vm a && knows vm b && knows vm c && knows vm d) (m_tets m) = true).
  { rewrite !andb_true_iff, !forallb_forall. repeat split.
    - intros [a b] H. apply (wm_edges m W) in H. cbn [fst snd]. rewrite !Kn by lia. reflexivity.
    - intros [[a b] c] H. apply (wm_tris m W) in H. rewrite !Kn by lia. reflexivity.
    - intros [[[a b] c] d] H. apply (wm_tets m W) in H. rewrite !Kn by lia. reflexivity. }
  rewrite K.
  rewrite (copyEdges_ok (fun _ => true) m0 m vm F) by (intros a b H; apply (wm_edges m W) in H; lia).
  rewrite (copyTris_ok (fun _ => true) m0 m vm F) by (intros a b c H; apply (wm_tris m W) in H; lia).
  rewrite (copyTets_ok (fun _ => true) m0 m vm F).
  2: { intros a b c d H. apply (wm_tets m W) in H. cbn. rewrite D. lia. }
  eexists. split; [reflexivity|]. constructor; cbn [m_dim m_verts m_edges m_tris m_tets setTets setTris setEdges setVerts].
  - reflexivity.
  - exists (m_verts m). split; [rewrite filter_all by reflexivity; reflexivity|].
    assert (G : forall l : list vertex, Forall2 eq l l) by (induction l; constructor; auto). apply G.
  - f_equal. rewrite filter_all.
    + apply map_ext_in. intros [a b] H. apply (wm_edges m W) in H. unfold shift2. cbn [fst snd]. rewrite !Nw by lia. reflexivity.
    + intros [a b] H. apply (wm_edges m W) in H. cbn [fst snd]. rewrite !Sel by lia. reflexivity.
  - f_equal. rewrite filter_all.
    + apply map_ext_in. intros [[a b] c] H. apply (wm_tris m W) in H. unfold shift3. rewrite !Nw by lia. reflexivity.
    + intros [[a b] c] H. apply (wm_tris m W) in H. rewrite !Sel by lia. reflexivity.
  - f_equal. rewrite filter_all.
    + apply map_ext_in. intros [[[a b] c] d] H. apply (wm_tets m W) in H. unfold shift4. rewrite !Nw by lia. reflexivity.
    + intros [[[a b] c] d] H. apply (wm_tets m W) in H. rewrite !Sel by lia. reflexivity.
Qed.
