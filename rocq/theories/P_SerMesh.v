From Coq Require Import ZArith QArith Bool List Arith Lia.
From Verif Require Import M_Net M_Mesh M_Comm M_Serial S_Term S_Mesh P_Net P_Term P_Serial.
Import ListNotations.
Open Scope nat_scope.

(** * Lists and maps *)
Lemma nth_error_skipn {A} (l : list A) i j : nth_error (skipn i l) j = nth_error l (i + j).
Proof. revert l. induction i as [|i IH]; intros [|x l]; cbn; auto. destruct j; reflexivity. Qed.
Lemma skipn_skipn {A} i j (l : list A) : skipn i (skipn j l) = skipn (i + j) l.
Proof. revert l. induction j as [|j IH]; intros l; [rewrite Nat.add_0_r; reflexivity|]. rewrite Nat.add_succ_r. destruct l; [rewrite !skipn_nil; reflexivity|]. cbn [skipn]. apply IH. Qed.
Lemma zmem_In z l : zmem z l = true <-> In z l.
Proof.
  induction l as [|x r IH]; cbn; [split; [discriminate|tauto]|].
  rewrite orb_true_iff, Z.eqb_eq, IH. tauto.
Qed.
Lemma znodup_NoDup l : znodup l = true <-> NoDup l.
Proof.
  induction l as [|x r IH]; cbn; [split; [constructor|auto]|].
  rewrite andb_true_iff, negb_true_iff, IH. split.
  - intros (H1 & H2). constructor; auto. intros H. apply zmem_In in H. congruence.
  - intros H. inversion H as [|? ? H1 H2]; subst. split; auto.
    destruct (zmem x r) eqn:E; auto. apply zmem_In in E. contradiction.
Qed.
Lemma emplace_last {A} k (a : A) m : (forall k' b, In (k', b) m -> (k' < k)%Z) -> emplace k a m = m ++ [(k, a)].
Proof.
  induction m as [|(k', b) r IH]; intros H; cbn [emplace]; [reflexivity|].
  pose proof (H k' b (or_introl eq_refl)). destruct (Z.ltb_spec k k'); [lia|]. destruct (Z.eqb_spec k k'); [lia|].
  cbn. f_equal. apply IH. intros k2 c Hk. apply (H k2 c). right; auto.
Qed.
Lemma assign_last {A} k (a : A) m : (forall k' b, In (k', b) m -> (k' < k)%Z) -> assign k a m = m ++ [(k, a)].
Proof.
  induction m as [|(k', b) r IH]; intros H; cbn [assign]; [reflexivity|].
  pose proof (H k' b (or_introl eq_refl)). destruct (Z.ltb_spec k k'); [lia|]. destruct (Z.eqb_spec k k'); [lia|].
  cbn. f_equal. apply IH. intros k2 c Hk. apply (H k2 c). right; auto.
Qed.
Definition imap (k0 n : nat) : list (Z * nat) := map (fun i => (zid i, k0 + i)) (seq 0 n).
Lemma imap_S k0 n : imap k0 (S n) = imap k0 n ++ [(zid n, k0 + n)].
Proof. unfold imap. rewrite seq_S, map_app. reflexivity. Qed.
Lemma imap_keys k0 n k b : In (k, b) (imap k0 n) -> (k < zid n)%Z.
Proof. intros H. apply in_map_iff in H as (i & E & H). injection E as <- <-. apply in_seq in H. unfold zid. lia. Qed.
Lemma imap_find k0 n i : i < n -> find_key (zid i) (imap k0 n) = Some (k0 + i).
Proof.
  unfold imap. intros H. assert (G : forall s, s <= i < s + n -> find_key (zid i) (map (fun i => (zid i, k0 + i)) (seq s n)) = Some (k0 + i)).
  { clear H. induction n as [|n IH]; intros s H; [lia|]. cbn [seq map find_key].
    destruct (Z.eqb_spec (zid i) (zid s)) as [E|E].
    - unfold zid in E. replace s with i by lia. reflexivity.
    - apply IH. unfold zid in E. lia. }
  apply G. lia.
Qed.
Lemma imap_find_none k0 n i : n <= i -> find_key (zid i) (imap k0 n) = None.
Proof.
  unfold imap. intros H. assert (G : forall s, s + n <= i -> find_key (zid i) (map (fun i => (zid i, k0 + i)) (seq s n)) = None).
  { clear H. induction n as [|n IH]; intros s H; [reflexivity|]. cbn [seq map find_key].
    destruct (Z.eqb_spec (zid i) (zid s)) as [E|E]; [unfold zid in E; lia|]. apply IH. lia. }
  apply G. lia.
Qed.
Lemma modify_last {A} (f : A -> A) l x n : n = length l -> modify n f (l ++ [x]) = l ++ [f x].
Proof. intros ->. induction l as [|y r IH]; cbn; [reflexivity|]. f_equal. exact IH. Qed.
Lemma skipn_concat {A B} (f : A -> list B) d pre rest :
  (forall x, In x pre -> length (f x) = d) ->
  skipn (length pre * d) (concat (map f (pre ++ rest))) = concat (map f rest).
Proof.
  induction pre as [|x r IH]; intros H; [reflexivity|]. cbn [length map app concat Nat.mul].
  rewrite skipn_app, skipn_all2, (H x (or_introl eq_refl)), Nat.add_comm, Nat.add_sub by (rewrite (H x (or_introl eq_refl)); lia).
  cbn [app]. apply IH. intros y Hy. apply H. right; auto.
Qed.
Lemma concat_length {A B} (f : A -> list B) d l : (forall x, In x l -> length (f x) = d) ->
  length (concat (map f l)) = length l * d.
Proof.
  induction l as [|x r IH]; intros H; [reflexivity|]. cbn. rewrite app_length, (H x (or_introl eq_refl)), IH; auto.
  intros y Hy. apply H. right; auto.
Qed.

(** * Sorting *)
Lemma sort2_id a b : a <= b -> sort2 a b = (a, b).
Proof. intros H. unfold sort2. destruct (Nat.ltb_spec b a); [lia|reflexivity]. Qed.
Lemma sort3_id a b c : a <= b -> b <= c -> sort3 a b c = (a, b, c).
Proof. intros H H'. unfold sort3. rewrite !sort2_id by auto. reflexivity. Qed.
Lemma sort4_id a b c d : a <= b -> b <= c -> c <= d -> sort4 a b c d = (a, b, c, d).
Proof. intros H H' H2. unfold sort4. rewrite sort3_id, !sort2_id by auto. reflexivity. Qed.
Lemma distinct4_lt a b c d : a < b -> b < c -> c < d -> distinct4 a b c d = true.
Proof.
  intros. unfold distinct4.
  repeat match goal with |- context [?x =? ?y] => destruct (Nat.eqb_spec x y); [lia|] end. reflexivity.
Qed.

(** * Serialized meshes *)
Section S.
Variable m : mesh.
Hypothesis W : wf_mesh m.
Notation n := (nVertices m).
Definition vids := vertexIDs (hasConnectivity m) 0 (m_verts m).
Definition rest := concat (map edgeIDs (m_edges m)) ++ concat (map triIDs (m_tris m)) ++ concat (map tetIDs (m_tets m)).
Definition allids := if hasConnectivity m then vids ++ rest else vids.
Definition result := MkSMesh [zid (m_dim m); sizeOf (m_verts m); sizeOf (m_edges m); sizeOf (m_tris m); sizeOf (m_tets m)]
  (concat (map v_coords (m_verts m))) allids.

Lemma conn_nE : (0 <? sizeOf (m_edges m) + sizeOf (m_tris m) + sizeOf (m_tets m))%Z = hasConnectivity m.
Proof.
  unfold hasConnectivity, sizeOf. destruct (m_edges m) as [|e es]; cbn [nonempty orb length].
  - destruct (m_tris m) as [|t ts]; cbn [nonempty orb length].
    + destruct (m_tets m); cbn [nonempty length]; [reflexivity|apply Z.ltb_lt; lia].
    + apply Z.ltb_lt; lia.
  - apply Z.ltb_lt; lia.
Qed.
Lemma vertexIDs_conn_length vs id : length (vertexIDs true id vs) = 2 * length vs.
Proof. revert id. induction vs as [|v r IH]; intros id; cbn [vertexIDs length]; [reflexivity|]. rewrite IH. lia. Qed.
Lemma vertexIDs_plain vs id : vertexIDs false id vs = map v_glob vs.
Proof. revert id. induction vs as [|v r IH]; intros id; cbn; [reflexivity|]. f_equal. apply IH. Qed.
Lemma vertexIDs_app vs vs' id b : vertexIDs b id (vs ++ vs') = vertexIDs b id vs ++ vertexIDs b (id + length vs) vs'.
Proof.
  revert id. induction vs as [|v r IH]; intros id; cbn [vertexIDs app length]; [rewrite Nat.add_0_r; reflexivity|].
  destruct b; cbn [app]; rewrite IH; replace (S id + length r) with (id + S (length r)) by lia; reflexivity.
Qed.
Lemma localIDs_spec vs id r : localIDs (length vs) (vertexIDs true id vs ++ r) = map zid (seq id (length vs)).
Proof.
  revert id. induction vs as [|v vs IH]; intros id; cbn [vertexIDs localIDs length seq map app]; [reflexivity|].
  f_equal. apply IH.
Qed.
Lemma rest_valid z : In z rest -> In z (map zid (seq 0 n)).
Proof.
  intros H. assert (G : exists i, z = zid i /\ i < n).
  { unfold rest in H. rewrite !in_app_iff in H. destruct H as [H|[H|H]];
      apply in_concat in H as (l & H & Hz); apply in_map_iff in H as (x & <- & H).
    - destruct x as (a, b). pose proof (wm_edges m W a b H). cbn in Hz.
      destruct Hz as [<-|[<-|[]]]; [exists a|exists b]; split; auto; lia.
    - destruct x as ((a, b), c). pose proof (wm_tris m W a b c H). cbn in Hz.
      destruct Hz as [<-|[<-|[<-|[]]]]; [exists a|exists b|exists c]; split; auto; lia.
    - destruct x as (((a, b), c), d). pose proof (wm_tets m W a b c d H). cbn in Hz.
      destruct Hz as [<-|[<-|[<-|[<-|[]]]]]; [exists a|exists b|exists c|exists d]; split; auto; lia. }
  destruct G as (i & -> & Hi). apply in_map, in_seq. lia.
Qed.
Lemma zid_nodup s k : NoDup (map zid (seq s k)).
Proof.
  revert s. induction k as [|k IH]; intros s; cbn; constructor; auto.
  intros H. apply in_map_iff in H as (j & E & H). apply in_seq in H. unfold zid in E. lia.
Qed.
Lemma rest_length : length rest = 2 * length (m_edges m) + 3 * length (m_tris m) + 4 * length (m_tets m).
Proof.
  unfold rest. rewrite !app_length, (concat_length edgeIDs 2), (concat_length triIDs 3), (concat_length tetIDs 4); try lia.
  - intros (((a, b), c), d) _. reflexivity.
  - intros ((a, b), c) _. reflexivity.
  - intros (a, b) _. reflexivity.
Qed.
Lemma result_valid : m_verts m <> [] -> assertValidMesh result = true.
Proof.
  intros N. unfold assertValidMesh, result. cbn [sizes coords ids].
  assert (D : (0 <? zid (m_dim m))%Z = true /\ (zid (m_dim m) <=? 3)%Z = true).
  { unfold zid. destruct (wm_dim m W) as [->| ->]; split; reflexivity. }
  destruct D as (-> & ->). rewrite sizeOf_nonneg. cbn [andb].
  assert (Z.eqb (sizeOf (m_verts m)) 0 = false) as ->.
  { apply Z.eqb_neq. unfold sizeOf. destruct (m_verts m); [congruence|cbn [length]; lia]. }
  assert (Z.eqb (sizeOf (m_verts m) * zid (m_dim m)) (sizeOf (concat (map v_coords (m_verts m)))) = true) as ->.
  { apply Z.eqb_eq. unfold sizeOf, zid. rewrite (concat_length v_coords (m_dim m)) by apply (wm_coords m W). lia. }
  cbn [andb]. rewrite conn_nE. unfold allids, vids. destruct (hasConnectivity m) eqn:C.
  - apply andb_true_iff. split; [apply andb_true_iff; split|].
    + apply Z.eqb_eq. unfold sizeOf. rewrite app_length, vertexIDs_conn_length, rest_length. lia.
    + rewrite sizeOf_nat, localIDs_spec. apply znodup_NoDup, zid_nodup.
    + rewrite sizeOf_nat, localIDs_spec.
      rewrite skipn_app, skipn_all2, vertexIDs_conn_length, Nat.sub_diag by (rewrite vertexIDs_conn_length; lia).
      cbn [app skipn]. apply forallb_forall. intros z Hz. apply zmem_In, rest_valid, Hz.
  - rewrite vertexIDs_plain. unfold sizeOf. rewrite map_length. apply Z.eqb_refl.
Qed.
Lemma serialize_ok : m_verts m <> [] -> serializeMesh m = Some result.
Proof.
  intros N. unfold serializeMesh. assert (isNil (m_verts m) = false) as -> by (destruct (m_verts m); [congruence|reflexivity]).
  pose proof (result_valid N) as V. unfold result, allids, vids, rest in *.
  destruct (hasConnectivity m); [rewrite V|]; reflexivity.
Qed.
Lemma no_verts_no_elems : m_verts m = [] -> m_edges m = [] /\ m_tris m = [] /\ m_tets m = [].
Proof.
  intros N. unfold nVertices in *. split; [|split].
  - destruct (m_edges m) as [|(a, b) r] eqn:E; auto. pose proof (wm_edges m W a b). rewrite E in H.
    unfold nVertices in H. rewrite N in H. cbn in H. specialize (H (or_introl eq_refl)). lia.
  - destruct (m_tris m) as [|((a, b), c) r] eqn:E; auto. pose proof (wm_tris m W a b c). rewrite E in H.
    unfold nVertices in H. rewrite N in H. cbn in H. specialize (H (or_introl eq_refl)). lia.
  - destruct (m_tets m) as [|(((a, b), c), d) r] eqn:E; auto. pose proof (wm_tets m W a b c d). rewrite E in H.
    unfold nVertices in H. rewrite N in H. cbn in H. specialize (H (or_introl eq_refl)). lia.
Qed.
Lemma serialize_nil : m_verts m = [] -> exists s, serializeMesh m = Some s /\
  sizes s = [zid (m_dim m); 0; 0; 0; 0]%Z /\ coords s = [] /\ ids s = [] /\ assertValidMesh s = true.
Proof.
  intros N. destruct (no_verts_no_elems N) as (E1 & E2 & E3).
  unfold serializeMesh. rewrite N, E1, E2, E3. cbn [isNil]. eexists. split; [reflexivity|]. cbn [sizes coords ids].
  split; [reflexivity|]. split; [reflexivity|]. split; [reflexivity|].
  unfold assertValidMesh. cbn. unfold zid. destruct (wm_dim m W) as [->| ->]; reflexivity.
Qed.

Definition rv (v : vertex) : vertex := MkVertex (v_coords v) (v_glob v) true false.
Variable m0 : mesh.
Hypothesis D0 : m_dim m0 = m_dim m.
Notation k0 := (nVertices m0).
Definition withV (vs : list vertex) : mesh := setVerts m0 (m_verts m0 ++ map rv vs).
Lemma withV_n vs : nVertices (withV vs) = k0 + length vs.
Proof. unfold withV, nVertices, setVerts. cbn. rewrite app_length, map_length. reflexivity. Qed.
Lemma slice_coords pre v r : m_verts m = pre ++ v :: r ->
  slice (length pre * m_dim m) (m_dim m) (concat (map v_coords (m_verts m))) = v_coords v.
Proof.
  intros E. unfold slice. pose proof (wm_coords m W) as C. rewrite E in C |- *.
  rewrite skipn_concat by (intros x Hx; apply C, in_or_app; auto).
  cbn [map concat]. rewrite <- (C v) by (apply in_or_app; right; left; auto).
  rewrite firstn_app, Nat.sub_diag, firstn_O, firstn_all, app_nil_r. reflexivity.
Qed.
Lemma nth_ids_conn pre v r : hasConnectivity m = true -> m_verts m = pre ++ v :: r ->
  nth_error allids (length pre * 2) = Some (v_glob v) /\ nth_error allids (length pre * 2 + 1) = Some (zid (length pre)).
Proof.
  intros C E. unfold allids, vids. rewrite C, E, vertexIDs_app. cbn [vertexIDs]. rewrite <- app_assoc.
  split; rewrite nth_error_app2, vertexIDs_conn_length by (rewrite vertexIDs_conn_length; lia).
  - replace (length pre * 2 - 2 * length pre) with 0 by lia. reflexivity.
  - replace (length pre * 2 + 1 - 2 * length pre) with 1 by lia. reflexivity.
Qed.
Lemma nth_ids_plain pre v r : hasConnectivity m = false -> m_verts m = pre ++ v :: r ->
  nth_error allids (length pre) = Some (v_glob v).
Proof.
  intros C E. unfold allids, vids. rewrite C, vertexIDs_plain, E, map_app, nth_error_app2, map_length, Nat.sub_diag by (rewrite map_length; lia).
  reflexivity.
Qed.
Lemma addVertices_ok : forall vs pre, m_verts m = pre ++ vs ->
  addVertices result (hasConnectivity m) (length pre) (length vs) (withV pre) (if hasConnectivity m then imap k0 (length pre) else []) =
    Some (withV (m_verts m), if hasConnectivity m then imap k0 n else []).
Proof.
  induction vs as [|v r IH]; intros pre E; cbn [addVertices length].
  - rewrite app_nil_r in E. rewrite E. unfold nVertices. rewrite E. reflexivity.
  - assert (m_dim (withV pre) = m_dim m) as -> by exact D0.
    cbn [coords result]. rewrite (slice_coords pre v r E).
    unfold createVertex. assert (m_dim (withV pre) = m_dim m) as -> by exact D0.
    rewrite (wm_coords m W v) by (rewrite E; apply in_or_app; right; left; auto). rewrite Nat.eqb_refl. cbn [obind].
    specialize (IH (pre ++ [v])). rewrite app_length in IH. cbn [length] in IH. rewrite Nat.add_1_r in IH.
    assert (MV : forall g, g = v_glob v ->
       setVerts (setVerts (withV pre) (m_verts (withV pre) ++ [MkVertex (v_coords v) (-1) true false]))
         (modify (nVertices (withV pre)) (setGlobalIndex g)
            (m_verts (setVerts (withV pre) (m_verts (withV pre) ++ [MkVertex (v_coords v) (-1) true false])))) = withV (pre ++ [v])).
    { intros g ->. cbn [m_verts setVerts]. rewrite modify_last by reflexivity. unfold withV. cbn. rewrite map_app, app_assoc. reflexivity. }
    destruct (hasConnectivity m) eqn:C.
    + destruct (nth_ids_conn pre v r C E) as (N1 & N2). cbn [ids result]. rewrite N1, N2. cbn [obind].
      rewrite (MV _ eq_refl). rewrite withV_n.
      rewrite emplace_last by (intros k' b; apply imap_keys).
      rewrite <- imap_S. apply IH. rewrite E, <- app_assoc. reflexivity.
    + cbn [ids result]. rewrite (nth_ids_plain pre v r C E). cbn [obind]. rewrite (MV _ eq_refl).
      apply IH. rewrite E, <- app_assoc. reflexivity.
Qed.
Lemma lookup_ok idx i : nth_error allids idx = Some (zid i) -> i < n -> lookup result (imap k0 n) idx = Some (k0 + i).
Proof. intros H L. unfold lookup. cbn [ids result]. rewrite H. cbn [obind]. apply imap_find, L. Qed.

Lemma addEdges_ok : forall es mm idx tl, (forall a b, In (a, b) es -> a <= b /\ b < n) ->
  skipn idx allids = concat (map edgeIDs es) ++ tl ->
  addEdges result (imap k0 n) (length es) idx mm = Some (setEdges mm (m_edges mm ++ map (shift2 k0) es)).
Proof.
  induction es as [|(a, b) r IH]; intros mm idx tl B H; cbn [addEdges length].
  - cbn. rewrite app_nil_r. destruct mm; reflexivity.
  - destruct (B a b (or_introl eq_refl)) as (B1 & B2).
    cbn in H.
    assert (N0 : nth_error allids idx = Some (zid a)).
    { rewrite <- (Nat.add_0_r idx), <- nth_error_skipn, H. reflexivity. }
    assert (N1 : nth_error allids (idx + 1) = Some (zid b)) by (rewrite <- nth_error_skipn, H; reflexivity).
    rewrite (lookup_ok _ _ N0), (lookup_ok _ _ N1) by lia. cbn [obind].
    rewrite (IH _ _ tl).
    + unfold createEdge. rewrite sort2_id by lia. cbn. rewrite <- app_assoc. reflexivity.
    + intros x y Hx. apply B. right; auto.
    + rewrite Nat.add_comm, <- skipn_skipn, H. reflexivity.
Qed.
Lemma addTriangles_ok : forall es mm idx tl, (forall a b c, In (a, b, c) es -> a <= b /\ b <= c /\ c < n) ->
  skipn idx allids = concat (map triIDs es) ++ tl ->
  addTriangles result (imap k0 n) (length es) idx mm = Some (setTris mm (m_tris mm ++ map (shift3 k0) es)).
Proof.
  induction es as [|((a, b), c) r IH]; intros mm idx tl B H; cbn [addTriangles length].
  - cbn. rewrite app_nil_r. destruct mm; reflexivity.
  - destruct (B a b c (or_introl eq_refl)) as (B1 & B2 & B3).
    cbn in H.
    assert (N0 : nth_error allids idx = Some (zid a)).
    { rewrite <- (Nat.add_0_r idx), <- nth_error_skipn, H. reflexivity. }
    assert (N1 : nth_error allids (idx + 1) = Some (zid b)) by (rewrite <- nth_error_skipn, H; reflexivity).
    assert (N2 : nth_error allids (idx + 2) = Some (zid c)) by (rewrite <- nth_error_skipn, H; reflexivity).
    rewrite (lookup_ok _ _ N0), (lookup_ok _ _ N1), (lookup_ok _ _ N2) by lia. cbn [obind].
    rewrite (IH _ _ tl).
    + unfold createTriangle. rewrite sort3_id by lia. cbn. rewrite <- app_assoc. reflexivity.
    + intros x y z Hx. apply B. right; auto.
    + rewrite Nat.add_comm, <- skipn_skipn, H. reflexivity.
Qed.
Lemma addTetrahedra_ok : forall es mm idx fuel, length es <= fuel -> m_dim mm = m_dim m ->
  (forall a b c d, In (a, b, c, d) es -> a < b /\ b < c /\ c < d /\ d < n /\ m_dim m = 3) ->
  idx <= length allids -> skipn idx allids = concat (map tetIDs es) ->
  addTetrahedra result (imap k0 n) fuel idx mm = Some (setTets mm (m_tets mm ++ map (shift4 k0) es)).
Proof.
  induction es as [|(((a, b), c), d) r IH]; intros mm idx fuel F Dm B L H.
  - cbn in H. assert (idx = length allids).
    { assert (length (skipn idx allids) = 0) by (rewrite H; reflexivity). rewrite skipn_length in H0. lia. }
    subst idx. cbn [map]. rewrite app_nil_r. destruct fuel; cbn [addTetrahedra ids result]; rewrite Nat.eqb_refl; destruct mm; reflexivity.
  - destruct (B a b c d (or_introl eq_refl)) as (B1 & B2 & B3 & B4 & B5).
    cbn in H.
    assert (N0 : nth_error allids idx = Some (zid a)).
    { rewrite <- (Nat.add_0_r idx), <- nth_error_skipn, H. reflexivity. }
    assert (N1 : nth_error allids (idx + 1) = Some (zid b)) by (rewrite <- nth_error_skipn, H; reflexivity).
    assert (N2 : nth_error allids (idx + 2) = Some (zid c)) by (rewrite <- nth_error_skipn, H; reflexivity).
    assert (N3 : nth_error allids (idx + 3) = Some (zid d)) by (rewrite <- nth_error_skipn, H; reflexivity).
    assert (idx + 3 < length allids) by (apply nth_error_Some; congruence).
    destruct fuel as [|fuel]; [cbn in F; lia|]. cbn [addTetrahedra ids result].
    destruct (Nat.eqb_spec idx (length allids)); [lia|].
    fold result. rewrite (lookup_ok _ _ N0), (lookup_ok _ _ N1), (lookup_ok _ _ N2), (lookup_ok _ _ N3) by lia. cbn [obind].
    unfold createTetrahedron. rewrite Dm, B5. cbn [Nat.eqb andb]. rewrite distinct4_lt by lia. cbn [obind].
    rewrite IH.
    + rewrite sort4_id by lia. cbn. rewrite <- app_assoc. reflexivity.
    + cbn in F. lia.
    + exact Dm.
    + intros x y z w Hx. apply B. right; auto.
    + lia.
    + rewrite Nat.add_comm, <- skipn_skipn, H. reflexivity.
Qed.
Lemma addToMesh_ok : m_verts m <> [] -> exists m', addToMesh result m0 = Some m' /\ appended same_vertex m0 m m'.
Proof.
  intros N. unfold addToMesh. cbn [sizes result]. rewrite D0, Z.eqb_refl. cbn [negb].
  assert (Z.eqb (sizeOf (m_verts m)) 0 = false) as ->.
  { apply Z.eqb_neq. unfold sizeOf. destruct (m_verts m); [congruence|cbn [length]; lia]. }
  rewrite conn_nE, !sizeOf_nat.
  pose proof (addVertices_ok (m_verts m) [] eq_refl) as AV. cbn [length] in AV.
  assert (W0 : withV [] = m0) by (unfold withV; cbn; rewrite app_nil_r; destruct m0; reflexivity).
  rewrite W0 in AV. replace (if hasConnectivity m then imap k0 0 else []) with (@nil (Z * nat)) in AV by (destruct (hasConnectivity m); reflexivity).
  fold result. rewrite AV. cbn [obind].
  assert (FV : exists vs, m_verts (withV (m_verts m)) = m_verts m0 ++ vs /\ Forall2 same_vertex (m_verts m) vs).
  { exists (map rv (m_verts m)). split; [reflexivity|]. clear. induction (m_verts m) as [|v r IH]; constructor; auto. split; reflexivity. }
  destruct (hasConnectivity m) eqn:C.
  - assert (L : length vids = n * 2).
    { unfold vids. rewrite C, vertexIDs_conn_length. unfold nVertices. lia. }
    assert (A : allids = vids ++ rest) by (unfold allids; rewrite C; reflexivity).
    assert (S1 : skipn (n * 2) allids = rest).
    { rewrite A, skipn_app, skipn_all2, L, Nat.sub_diag by lia. reflexivity. }
    unfold rest in S1.
    assert (LE : length (concat (map edgeIDs (m_edges m))) = 2 * length (m_edges m)).
    { rewrite (concat_length edgeIDs 2); [lia|]. intros (a, b) _. reflexivity. }
    assert (LT : length (concat (map triIDs (m_tris m))) = 3 * length (m_tris m)).
    { rewrite (concat_length triIDs 3); [lia|]. intros ((a, b), c) _. reflexivity. }
    assert (S2 : skipn (n * 2 + 2 * length (m_edges m)) allids = concat (map triIDs (m_tris m)) ++ concat (map tetIDs (m_tets m))).
    { rewrite Nat.add_comm, <- skipn_skipn, S1, skipn_app, skipn_all2, LE, Nat.sub_diag by lia. reflexivity. }
    assert (S3 : skipn (n * 2 + 2 * length (m_edges m) + 3 * length (m_tris m)) allids = concat (map tetIDs (m_tets m))).
    { rewrite Nat.add_comm, <- skipn_skipn, S2, skipn_app, skipn_all2, LT, Nat.sub_diag by lia. reflexivity. }
    assert (LA : length allids = n * 2 + (2 * length (m_edges m) + 3 * length (m_tris m) + 4 * length (m_tets m))).
    { rewrite A, app_length, L, rest_length. reflexivity. }
    change (length (m_verts m)) with n.
    rewrite (addEdges_ok (m_edges m) _ _ _ (wm_edges m W) S1). cbn [obind].
    rewrite (addTriangles_ok (m_tris m) _ _ _ (wm_tris m W) S2). cbn [obind].
    rewrite (addTetrahedra_ok (m_tets m)).
    + eexists. split; [reflexivity|]. constructor; cbn; auto.
    + cbn [ids result]. lia.
    + exact D0.
    + apply (wm_tets m W).
    + lia.
    + exact S3.
  - eexists. split; [reflexivity|].
    unfold hasConnectivity in C. apply orb_false_iff in C as (C & C3). apply orb_false_iff in C as (C1 & C2).
    constructor; cbn; auto; try apply FV.
    + destruct (m_edges m); [cbn; rewrite app_nil_r; reflexivity|discriminate C1].
    + destruct (m_tris m); [cbn; rewrite app_nil_r; reflexivity|discriminate C2].
    + destruct (m_tets m); [cbn; rewrite app_nil_r; reflexivity|discriminate C3].
Qed.
Lemma received_ok : exists s m', serializeMesh m = Some s /\ assertValidMesh s = true /\
  length (sizes s) = 5 /\ ((0 <? nth 1 (sizes s) 0)%Z = false -> coords s = [] /\ ids s = []) /\
  addToMesh s m0 = Some m' /\ appended same_vertex m0 m m'.
Proof.
  assert (D : m_verts m = [] \/ m_verts m <> []) by (destruct (m_verts m); [left; auto|right; discriminate]).
  destruct D as [N|N].
  - destruct (serialize_nil N) as (s & E & S1 & S2 & S3 & S4). exists s, m0. split; [exact E|]. split; [exact S4|].
    rewrite S1. split; [reflexivity|]. split; [auto|]. split.
    + unfold addToMesh. rewrite S1, D0, Z.eqb_refl. reflexivity.
    + destruct (no_verts_no_elems N) as (E1 & E2 & E3).
      constructor; rewrite ?E1, ?E2, ?E3, ?N; cbn; rewrite ?app_nil_r; auto.
      exists []. split; [rewrite app_nil_r; reflexivity|constructor].
  - destruct (addToMesh_ok N) as (m' & A1 & A2). exists result, m'. split; [apply serialize_ok, N|]. split; [apply result_valid, N|].
    split; [reflexivity|]. split; auto. cbn [sizes result nth]. rewrite sizeOf_pos. destruct (m_verts m); [congruence|discriminate].
Qed.
End S.
