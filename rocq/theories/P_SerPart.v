From Coq Require Import ZArith QArith Bool List Arith Lia.
From Verif Require Import M_Net M_Mesh M_Comm M_Serial S_Term S_Mesh S_Serial P_Net P_Term P_Serial P_SerMesh.
Import ListNotations.
Open Scope nat_scope.

(** * Broadcasts *)
Section B.
Variables (n z : nat) (rs : list nat).
Hypotheses (Nd : NoDup rs) (Nz : ~ In z rs) (Hz : z < n) (Hn : forall r, In r rs -> r < n).
Lemma phase_bcastInt x : phase n z rs (bcastInt rs x) (fun _ => recvInt z) tt (fun _ => x).
Proof. apply phase_for; auto. intros r _. apply talk_int. Qed.
Lemma phase_bcastDbl x : phase n z rs (bcastDbl rs x) (fun _ => recvDbl z) tt (fun _ => x).
Proof. apply phase_for; auto. intros r _. apply talk_dbl. Qed.
Lemma phase_bcastInts l k : k = length l -> phase n z rs (bcastInts rs l) (fun _ => recvInts z k) tt (fun _ => l).
Proof. intros E. apply phase_for; auto. intros r _. apply talk_ints, E. Qed.
Lemma phase_bcastDbls l k : k = length l -> phase n z rs (bcastDbls rs l) (fun _ => recvDbls z k) tt (fun _ => l).
Proof. intros E. apply phase_for; auto. intros r _. apply talk_dbls, E. Qed.
Lemma phase_bcastVecInt l : phase n z rs (bcastVecInt rs l) (fun _ => bcastVecIntRecv z) tt (fun _ => l).
Proof.
  unfold bcastVecInt, bcastVecIntRecv. eapply phase_bind; [apply phase_bcastInt|]. cbv beta.
  apply phase_bcastInts, sizeOf_nat.
Qed.
Lemma phase_bcastVecDbl l : phase n z rs (bcastVecDbl rs l) (fun _ => bcastVecDblRecv z) tt (fun _ => l).
Proof.
  unfold bcastVecDbl, bcastVecDblRecv. eapply phase_bind; [apply phase_bcastInt|]. cbv beta.
  apply phase_bcastDbls, sizeOf_nat.
Qed.

(** * Meshes *)
Lemma phase_smesh s : assertValidMesh s = true -> length (sizes s) = 5 ->
  ((0 <? nth 1 (sizes s) 0)%Z = false -> coords s = [] /\ ids s = []) ->
  phase n z rs (bcastSMesh rs s) (fun _ => bcastSMeshRecv z) tt (fun _ => s).
Proof.
  intros V L X. unfold bcastSMesh, bcastSMeshRecv. eapply phase_bind; [apply phase_bcastVecInt|]. cbv beta.
  rewrite L. cbn [Nat.eqb check bind]. destruct (0 <? nth 1 (sizes s) 0)%Z.
  - eapply phase_bind; [apply phase_bcastVecDbl|]. cbv beta.
    eapply phase_bind_r; [apply phase_bcastVecInt|]. cbv beta. intros r _.
    assert (MkSMesh (sizes s) (coords s) (ids s) = s) as -> by (destruct s; reflexivity). rewrite V. reflexivity.
  - destruct (X eq_refl) as (X1 & X2).
    assert (MkSMesh (sizes s) [] [] = s) as -> by (destruct s; cbn in *; congruence). rewrite V. apply phase_ret.
Qed.
Lemma phase_mesh m (m0 : nat -> mesh) : wf_mesh m -> (forall r, m_dim (m0 r) = m_dim m) ->
  exists m', phase n z rs (bcastMesh rs m) (fun r => bcastMeshRecv z (m0 r)) tt m' /\
    forall r, appended same_vertex (m0 r) m (m' r).
Proof.
  intros W D.
  destruct (received_ok m W (m0 0) (D 0)) as (s & _ & E & V & L & X & _ & _).
  assert (G : forall r, exists m', addToMesh s (m0 r) = Some m' /\ appended same_vertex (m0 r) m m').
  { intros r. destruct (received_ok m W (m0 r) (D r)) as (s' & m' & E' & _ & _ & _ & A & A'). exists m'.
    replace s with s' by congruence. auto. }
  exists (fun r => match addToMesh s (m0 r) with Some m' => m' | None => m end). split.
  - unfold bcastMesh, bcastMeshRecv. rewrite E. cbn [orFail bind].
    eapply phase_bind_r; [apply phase_smesh; auto|]. intros r _. destruct (G r) as (m' & -> & _). reflexivity.
  - intros r. destruct (G r) as (m' & -> & A). exact A.
Qed.
(** * Connection maps *)
End B.
Lemma talk_smesh i j s : assertValidMesh s = true -> length (sizes s) = 5 ->
  ((0 <? nth 1 (sizes s) 0)%Z = false -> coords s = [] /\ ids s = []) ->
  talk i j (sendSMesh j s) (receiveSMesh i) tt s.
Proof.
  intros V L X. unfold sendSMesh, receiveSMesh. eapply talk_bind; [apply talk_rangeInt|]. cbv beta.
  rewrite L. cbn [Nat.eqb check bind]. destruct (0 <? nth 1 (sizes s) 0)%Z.
  - eapply talk_bind; [apply talk_rangeDbl|]. cbv beta.
    eapply talk_bind_r; [apply talk_rangeInt|]. cbv beta.
    assert (MkSMesh (sizes s) (coords s) (ids s) = s) as -> by (destruct s; reflexivity). rewrite V. reflexivity.
  - destruct (X eq_refl) as (X1 & X2).
    assert (MkSMesh (sizes s) [] [] = s) as -> by (destruct s; cbn in *; congruence). rewrite V. constructor.
Qed.
Lemma talk_mesh i j m m0 : wf_mesh m -> m_dim m0 = m_dim m ->
  exists m', talk i j (sendMesh j m) (receiveMesh i m0) tt m' /\ appended same_vertex m0 m m'.
Proof.
  intros W D. destruct (received_ok m W m0 D) as (s & m' & E & V & L & X & A & A'). exists m'. split; auto.
  unfold sendMesh, receiveMesh. rewrite E. cbn [orFail bind].
  eapply talk_bind_r; [apply talk_smesh; auto|]. rewrite A. reflexivity.
Qed.

Lemma firstn_len {A} (l l' : list A) : firstn (length l) (l ++ l') = l.
Proof. rewrite firstn_app, Nat.sub_diag, firstn_O, firstn_all, app_nil_r. reflexivity. Qed.
Lemma skipn_len {A} (l l' : list A) : skipn (length l) (l ++ l') = l'.
Proof. rewrite skipn_app, Nat.sub_diag, skipn_all. reflexivity. Qed.
Lemma size_le {A} (l l' : list A) : (sizeOf l <=? sizeOf (l ++ l'))%Z = true.
Proof. apply Z.leb_le. unfold sizeOf. rewrite app_length. lia. Qed.
Lemma connValid_ok cm : (forall r l, In (r, l) cm -> (0 <= r)%Z) -> (forall r l, In (r, l) cm -> NoDup l) ->
  connValid (length cm) (concat (map connEntry cm)) = true.
Proof.
  induction cm as [|(r, l) cm IH]; intros H1 H2; [reflexivity|].
  cbn [length map concat connEntry connValid app fst snd].
  rewrite sizeOf_nonneg, size_le, sizeOf_nat, firstn_len, skipn_len.
  rewrite IH; [|intros r0 l0 Hx; apply (H1 r0 l0); right; auto|intros r0 l0 Hx; apply (H2 r0 l0); right; auto].
  specialize (H1 r l (or_introl eq_refl)). apply Z.leb_le in H1. rewrite H1.
  rewrite (proj2 (znodup_NoDup l)); [reflexivity|]. apply (H2 r l). left; auto.
Qed.
Lemma readConn_ok : forall cm pre, sorted_keys (pre ++ cm) ->
  readConn (length cm) (concat (map connEntry cm)) pre = Some (pre ++ cm).
Proof.
  induction cm as [|(r, l) cm IH]; intros pre S.
  - cbn. rewrite app_nil_r. reflexivity.
  - cbn [length map concat connEntry readConn app fst snd].
    rewrite size_le, sizeOf_nat, firstn_len, skipn_len. rewrite emplace_last.
    + rewrite IH by (rewrite <- app_assoc; exact S). rewrite <- app_assoc. reflexivity.
    + intros k b H. clear - S H. induction pre as [|(k0, b0) pre IH]; [destruct H|]. destruct S as (S1 & S2).
      destruct H as [H|H]; [injection H as -> ->|apply IH; auto].
      apply (S1 r l). apply in_or_app. right; left; auto.
Qed.
Lemma conn_ok cm : wf_conn cm -> cm <> [] -> exists c, serializeConn cm = Some c /\ assertValidConn c = true /\ toConnMap c = Some cm.
Proof.
  intros W N. exists (sizeOf cm :: concat (map connEntry cm)).
  assert (V : assertValidConn (sizeOf cm :: concat (map connEntry cm)) = true).
  { unfold assertValidConn. rewrite sizeOf_nonneg, sizeOf_nat, connValid_ok; [|apply W|apply W].
    destruct cm as [|(r, l) cm]; [congruence|reflexivity]. }
  unfold serializeConn. rewrite V. split; [reflexivity|]. split; [reflexivity|].
  unfold toConnMap. rewrite sizeOf_nat, readConn_ok by apply W.
  destruct (Z.eqb_spec (sizeOf cm) 0) as [E|]; [|reflexivity]. unfold sizeOf in E. destruct cm; [congruence|cbn in E; lia].
Qed.
Lemma talk_conn i j cm : wf_conn cm -> cm <> [] -> talk i j (sendConnectionMap j cm) (receiveConnectionMap i) tt cm.
Proof.
  intros W N. destruct (conn_ok cm W N) as (c & E & V & T). unfold sendConnectionMap, receiveConnectionMap.
  rewrite E. cbn [orFail bind]. eapply talk_bind_r; [apply talk_rangeInt|]. cbv beta. rewrite V, T. reflexivity.
Qed.

(** * Boxes *)
Lemma box_ok d b : wf_box d b -> exists c, serializeBox b = Some c /\ assertValidBox c = true /\ toBox c = Some b.
Proof.
  intros (D & L1 & L2). destruct b as [lo hi]. unfold serializeBox, b_dim in *. cbn [b_min b_max] in *.
  destruct D as [-> | ->].
  - destruct lo as [|a [|a' [|? ?]]]; try discriminate L1. destruct hi as [|b [|b' [|? ?]]]; try discriminate L2.
    eexists. split; [reflexivity|]. split; reflexivity.
  - destruct lo as [|a [|a' [|a2 [|? ?]]]]; try discriminate L1. destruct hi as [|b [|b' [|b2 [|? ?]]]]; try discriminate L2.
    eexists. split; [reflexivity|]. split; reflexivity.
Qed.
Lemma talk_box i j d b : wf_box d b -> talk i j (sendBoundingBox j b) (receiveBoundingBox i) tt b.
Proof.
  intros W. destruct (box_ok d b W) as (c & E & V & T). unfold sendBoundingBox, receiveBoundingBox.
  rewrite E. cbn [orFail bind]. eapply talk_bind_r; [apply talk_rangeDbl|]. cbv beta. rewrite V, T. reflexivity.
Qed.
Definition boxCoords (d : nat) (e : Z * bbox) : list Q := firstn d (b_min (snd e)) ++ firstn d (b_max (snd e)).
Lemma boxCoords_length d e : wf_box d (snd e) -> length (boxCoords d e) = d * 2.
Proof. intros (_ & L1 & L2). unfold boxCoords. rewrite app_length, !firstn_length. lia. Qed.
Lemma interleave_ok d b r l : wf_box d b -> exists buf, interleave d 0 d (boxCoords d (r, b) ++ l) = Some buf /\ boxOfBounds buf = Some b.
Proof.
  intros (D & L1 & L2). destruct b as [lo hi]. unfold boxCoords. cbn [b_min b_max snd] in *. destruct D as [-> | ->].
  - destruct lo as [|a [|a' [|? ?]]]; try discriminate L1. destruct hi as [|b [|b' [|? ?]]]; try discriminate L2.
    eexists. split; reflexivity.
  - destruct lo as [|a [|a' [|a2 [|? ?]]]]; try discriminate L1. destruct hi as [|b [|b' [|b2 [|? ?]]]]; try discriminate L2.
    eexists. split; reflexivity.
Qed.
Lemma readBoxes_ok d : forall bm pre, sorted_keys (pre ++ bm) -> (forall r b, In (r, b) bm -> wf_box d b) ->
  readBoxes d (map fst bm) (length bm) (concat (map (boxCoords d) bm)) pre = Some (pre ++ bm).
Proof.
  induction bm as [|(r, b) bm IH]; intros pre S W.
  - cbn. rewrite app_nil_r. reflexivity.
  - cbn [length map concat readBoxes fst].
    pose proof (W r b (or_introl eq_refl)) as Wb.
    destruct (interleave_ok d b r (concat (map (boxCoords d) bm)) Wb) as (buf & E1 & E2).
    rewrite E1. cbn [obind]. rewrite E2. cbn [obind].
    rewrite <- (boxCoords_length d (r, b) Wb), skipn_len. rewrite emplace_last.
    + rewrite IH; [rewrite <- app_assoc; reflexivity|rewrite <- app_assoc; exact S|].
      intros r0 b0 H. apply (W r0 b0). right; auto.
    + intros k b0 H. clear - S H. induction pre as [|(k0, b1) pre IH]; [destruct H|]. destruct S as (S1 & S2).
      destruct H as [H|H]; [injection H as -> ->|apply IH; auto].
      apply (S1 r b). apply in_or_app. right; left; auto.
Qed.
Lemma boxes_ok d bm : wf_boxes d bm -> exists s, serializeBoxes bm = Some s /\ assertValidBoxes s = true /\
  toBoxMap s = Some bm /\ ((1 <? length (sb_info s)) = false -> sb_coords s = []).
Proof.
  intros W. destruct bm as [|(r0, b0) bm].
  { eexists. split; [reflexivity|]. repeat split; reflexivity. }
  pose proof (wb_box d _ W r0 b0 (or_introl eq_refl)) as (D & L1 & L2).
  assert (b_dim b0 = d) as Ed by exact L1.
  exists (MkSBoxes (sizeOf bm + 1 :: zid d :: r0 :: map fst bm)%Z (concat (map (boxCoords d) ((r0, b0) :: bm)))).
  assert (SZ : sizeOf ((r0, b0) :: bm) = (sizeOf bm + 1)%Z) by (unfold sizeOf; cbn [length]; lia).
  assert (V : assertValidBoxes (MkSBoxes (sizeOf bm + 1 :: zid d :: r0 :: map fst bm)%Z
     (concat (map (boxCoords d) ((r0, b0) :: bm)))) = true).
  { unfold assertValidBoxes. cbn [sb_info sb_coords]. rewrite !andb_true_iff. split; [split; [split|]|].
    - apply Z.eqb_eq. unfold sizeOf. cbn [length]. rewrite map_length. lia.
    - destruct D as [-> | ->]; reflexivity.
    - apply Z.eqb_eq. unfold sizeOf. rewrite (concat_length (boxCoords d) (d * 2)).
      + cbn [length]. unfold zid. lia.
      + intros x Hx. apply boxCoords_length. destruct x as (k, b). apply (wb_box d _ W k b Hx).
    - apply forallb_forall. intros x Hx. apply Z.leb_le.
      change (r0 :: map fst bm) with (map fst ((r0, b0) :: bm)) in Hx. apply in_map_iff in Hx as ((k, b) & <- & Hx).
      apply (wb_rank d _ W k b Hx). }
  split.
  - unfold serializeBoxes. rewrite Ed, SZ.
    assert (dimOK d = true) as -> by (destruct D as [-> | ->]; reflexivity).
    change (map (fun e : Z * bbox => firstn d (b_min (snd e)) ++ firstn d (b_max (snd e))) ((r0, b0) :: bm)) with (map (boxCoords d) ((r0, b0) :: bm)).
    change (map fst ((r0, b0) :: bm)) with (r0 :: map fst bm). rewrite V. reflexivity.
  - split; [exact V|]. split.
    + unfold toBoxMap. cbn [sb_info sb_coords]. unfold zid. rewrite Nat2Z.id.
      replace (Z.to_nat (sizeOf bm + 1)) with (length ((r0, b0) :: bm)) by (unfold sizeOf; cbn [length]; lia).
      change (r0 :: map fst bm) with (map fst ((r0, b0) :: bm)).
      apply (readBoxes_ok d ((r0, b0) :: bm) []); [apply W|]. apply W.
    + cbn. discriminate.
Qed.
Lemma talk_boxes i j d bm : wf_boxes d bm -> talk i j (sendBoundingBoxMap j bm) (receiveBoundingBoxMap i) tt bm.
Proof.
  intros W. destruct (boxes_ok d bm W) as (s & E & V & T & X). unfold sendBoundingBoxMap, receiveBoundingBoxMap.
  rewrite E. cbn [orFail bind]. eapply talk_bind; [apply talk_rangeInt|]. cbv beta.
  destruct (1 <? length (sb_info s)).
  - eapply talk_bind_r; [apply talk_rangeDbl|]. cbv beta.
    assert (MkSBoxes (sb_info s) (sb_coords s) = s) as -> by (destruct s; reflexivity). rewrite V, T. reflexivity.
  - cbn [bind]. assert (MkSBoxes (sb_info s) [] = s) as -> by (destruct s; cbn in *; rewrite X by auto; reflexivity).
    rewrite V, T. constructor.
Qed.
Section B2.
Variables (n z : nat) (rs : list nat).
Hypotheses (Nd : NoDup rs) (Nz : ~ In z rs) (Hz : z < n) (Hn : forall r, In r rs -> r < n).
Lemma phase_conn cm : wf_conn cm -> cm <> [] ->
  phase n z rs (bcastConnectionMap rs cm) (fun _ => bcastConnectionMapRecv z) tt (fun _ => cm).
Proof.
  intros W N. destruct (conn_ok cm W N) as (c & E & V & T). unfold bcastConnectionMap, bcastConnectionMapRecv.
  rewrite E. cbn [orFail bind]. eapply phase_bind_r; [apply phase_bcastVecInt; auto|]. cbv beta. intros r _. rewrite V, T. reflexivity.
Qed.
Lemma phase_boxes d bm : wf_boxes d bm ->
  phase n z rs (bcastBoundingBoxMap rs bm) (fun _ => bcastBoundingBoxMapRecv z) tt (fun _ => bm).
Proof.
  intros W. destruct (boxes_ok d bm W) as (s & E & V & T & X). unfold bcastBoundingBoxMap, bcastBoundingBoxMapRecv.
  rewrite E. cbn [orFail bind]. eapply phase_bind; [apply phase_bcastVecInt; auto|]. cbv beta.
  destruct (1 <? length (sb_info s)).
  - eapply phase_bind_r; [apply phase_bcastVecDbl; auto|]. cbv beta. intros r _.
    assert (MkSBoxes (sb_info s) (sb_coords s) = s) as -> by (destruct s; reflexivity). rewrite V, T. reflexivity.
  - cbn [bind]. assert (MkSBoxes (sb_info s) [] = s) as -> by (destruct s; cbn in *; rewrite X by auto; reflexivity).
    rewrite V, T. apply phase_ret.
Qed.
End B2.

(** * Sequences of ranges *)
Lemma talk_ranges i j l : talk i j (sendRanges j l) (receiveRanges i (map isInts l)) tt l.
Proof.
  induction l as [|[x|x] l IH]; cbn [map isInts sendRanges receiveRanges].
  - constructor.
  - eapply talk_bind; [apply talk_rangeInt|]. eapply talk_bind_r; [exact IH|reflexivity].
  - eapply talk_bind; [apply talk_rangeDbl|]. eapply talk_bind_r; [exact IH|reflexivity].
Qed.

(** * Copying a mesh *)
Lemma copyVertices_ok m m0 : (forall v, In v (m_verts m) -> length (v_coords v) = m_dim m0) ->
  forall vs pre, m_verts m = pre ++ vs ->
  copyVertices (fun _ => true) vs (length pre) (setVerts m0 (m_verts m0 ++ pre)) (imap (nVertices m0) (length pre)) =
    Some (setVerts m0 (m_verts m0 ++ m_verts m), imap (nVertices m0) (nVertices m)).
Proof.
  intros D. induction vs as [|v r IH]; intros pre E; cbn [copyVertices].
  - rewrite app_nil_r in E. unfold nVertices. rewrite E. reflexivity.
  - unfold copyVertex. cbn [m_dim setVerts]. rewrite D by (rewrite E; apply in_or_app; right; left; auto).
    rewrite Nat.eqb_refl.
    assert (nVertices (setVerts m0 (m_verts m0 ++ pre)) = nVertices m0 + length pre) as -> by (unfold nVertices; cbn; apply app_length). rewrite assign_last by (intros k b; apply imap_keys).
    change (Z.of_nat (length pre)) with (zid (length pre)). rewrite <- imap_S.
    specialize (IH (pre ++ [v])). rewrite app_length in IH. cbn [length] in IH. rewrite Nat.add_1_r in IH.
    rewrite <- IH by (rewrite E, <- app_assoc; reflexivity).
    destruct v as [c g o t]. unfold setVerts. cbn. rewrite <- app_assoc. reflexivity.
Qed.
Lemma at_imap k0 n i : i < n -> at_ (imap k0 n) i = Some (k0 + i).
Proof. apply imap_find. Qed.
Lemma copyEdges_ok k0 n : forall es mm, (forall a b, In (a, b) es -> a <= b /\ b < n) ->
  fold_left (copyEdge (imap k0 n)) es mm = setEdges mm (m_edges mm ++ map (shift2 k0) es).
Proof.
  induction es as [|(a, b) es IH]; intros mm H.
  - cbn. rewrite app_nil_r. destruct mm; reflexivity.
  - destruct (H a b (or_introl eq_refl)). cbn [fold_left]. unfold copyEdge at 2. cbn [fst snd].
    rewrite !at_imap by lia. rewrite IH by (intros x y Hx; apply H; right; auto).
    unfold createEdge. rewrite sort2_id by lia. cbn. rewrite <- app_assoc. reflexivity.
Qed.
Lemma copyTris_ok k0 n : forall es mm, (forall a b c, In (a, b, c) es -> a <= b /\ b <= c /\ c < n) ->
  fold_left (copyTriangle (imap k0 n)) es mm = setTris mm (m_tris mm ++ map (shift3 k0) es).
Proof.
  induction es as [|((a, b), c) es IH]; intros mm H.
  - cbn. rewrite app_nil_r. destruct mm; reflexivity.
  - destruct (H a b c (or_introl eq_refl)) as (? & ? & ?). cbn [fold_left]. unfold copyTriangle at 2.
    rewrite !at_imap by lia. rewrite IH by (intros x y z Hx; apply H; right; auto).
    unfold createTriangle. rewrite sort3_id by lia. cbn. rewrite <- app_assoc. reflexivity.
Qed.
Lemma copyTets_ok k0 n : forall es mm, (forall a b c d, In (a, b, c, d) es -> a < b /\ b < c /\ c < d /\ d < n /\ m_dim mm = 3) ->
  copyTetrahedra (imap k0 n) es mm = Some (setTets mm (m_tets mm ++ map (shift4 k0) es)).
Proof.
  induction es as [|(((a, b), c), d) es IH]; intros mm H.
  - cbn. rewrite app_nil_r. destruct mm; reflexivity.
  - destruct (H a b c d (or_introl eq_refl)) as (? & ? & ? & ? & D). cbn [copyTetrahedra].
    rewrite !at_imap by lia. unfold createTetrahedron. rewrite D, distinct4_lt by lia. cbn [Nat.eqb andb].
    rewrite IH by (intros x y z w Hx; apply H; right; auto).
    rewrite sort4_id by lia. cbn. rewrite <- app_assoc. reflexivity.
Qed.
Lemma forall2_refl {A} (l : list A) : Forall2 eq l l.
Proof. induction l; constructor; auto. Qed.
Lemma addMesh_ok m0 m : wf_mesh m -> m_dim m0 = m_dim m -> exists m', addMesh m0 m = Some m' /\ appended eq m0 m m'.
Proof.
  intros W D. unfold addMesh. rewrite D, Nat.eqb_refl.
  pose proof (copyVertices_ok m m0) as C. rewrite D in C. specialize (C (wm_coords m W) (m_verts m) [] eq_refl).
  cbn [length] in C. rewrite app_nil_r in C. assert (setVerts m0 (m_verts m0) = m0) as E0 by (destruct m0; reflexivity).
  rewrite E0 in C. change (imap (nVertices m0) 0) with (@nil (Z * nat)) in C. rewrite C.
  assert (K : forall i, i < nVertices m -> knows (imap (nVertices m0) (nVertices m)) i = true).
  { intros i Hi. unfold knows. rewrite at_imap by auto. reflexivity. }
  assert (forallb (fun e => knows (imap (nVertices m0) (nVertices m)) (fst e) && knows (imap (nVertices m0) (nVertices m)) (snd e)) (m_edges m) = true) as ->.
  { apply forallb_forall. intros (a, b) H. destruct (wm_edges m W a b H). cbn [fst snd]. rewrite !K by lia. reflexivity. }
  assert (forallb (fun t => let '(a, b, c) := t in knows (imap (nVertices m0) (nVertices m)) a && knows (imap (nVertices m0) (nVertices m)) b && knows (imap (nVertices m0) (nVertices m)) c) (m_tris m) = true) as ->.
  { apply forallb_forall. intros ((a, b), c) H. destruct (wm_tris m W a b c H) as (? & ? & ?). rewrite !K by lia. reflexivity. }
  assert (forallb (fun t => let '(a, b, c, d) := t in knows (imap (nVertices m0) (nVertices m)) a && knows (imap (nVertices m0) (nVertices m)) b && knows (imap (nVertices m0) (nVertices m)) c && knows (imap (nVertices m0) (nVertices m)) d) (m_tets m) = true) as ->.
  { apply forallb_forall. intros (((a, b), c), d) H. destruct (wm_tets m W a b c d H) as (? & ? & ? & ? & ?). rewrite !K by lia. reflexivity. }
  cbn [andb]. rewrite copyEdges_ok by apply W. rewrite copyTris_ok by apply W.
  rewrite copyTets_ok.
  - eexists. split; [reflexivity|]. constructor; cbn; auto. exists (m_verts m). split; auto. apply forall2_refl.
  - intros a b c d H. cbn. rewrite D. apply (wm_tets m W), H.
Qed.
