(** C30-C33: what is sent between ranks and participants arrives unchanged. *)
From Coq Require Import ZArith QArith Bool List Arith Lia.
From Verif Require Import M_Net M_Time M_Wave M_Mesh M_Comm M_Serial M_WaveCache S_Term S_Wave S_Mesh S_Serial.
From Verif Require Import P_Net P_Term P_Serial P_SerMesh P_SerPart.
Import ListNotations.
Open Scope nat_scope.

(** ** C30: all time steps of a window, with gradients if the data has them *)
Theorem C30_substeps_lossless :
  forall (V : Type) (eps : Z) (junk : V) (d : dataShape) (w old : wave gsample),
    (0 <= eps)%Z -> ordered eps w -> fits d w -> w <> [] ->
    delivered (sendSubsteps junk 1 d w) (receiveSubsteps eps 0 d old) w.
Proof. intros. eapply talk_delivered, talk_substeps; auto. Qed.
Print Assumptions C30_substeps_lossless.

Definition exWave : wave (gsample (V:=Q)) :=
  [ (0%Z, MkGS [1; 2]%Q [1; 0; 0; 1]%Q); (3%Z, MkGS [3; 4]%Q [2; 0; 0; 2]%Q); (10%Z, MkGS [5; 6]%Q [3; 1; 1; 3]%Q) ].
Example C30_example :
  delivered (sendSubsteps 77%Q 1 (MkShape 2 (Some 4)) exWave) (receiveSubsteps 1 0 (MkShape 2 (Some 4)) [(9%Z, MkGS [] [])]) exWave.
Proof.
  apply C30_substeps_lossless.
  - lia.
  - intros i j p q L Hi Hj. unfold exWave in *.
    destruct i as [|[|[|i]]]; destruct j as [|[|[|j]]]; try lia; cbn in Hi, Hj;
      try (destruct i; discriminate); try (destruct j; discriminate);
      injection Hi as <-; injection Hj as <-; cbn; lia.
  - intros p H. cbn in H. repeat (destruct H as [<-|H]; [cbn; auto|]). destruct H.
  - discriminate.
Qed.
(** the packed vector: the values of one entry at all times are neighbours *)
Example C30_layout : option_map se_values (serialize 0%Q (MkShape 2 None) exWave) = Some [1; 3; 5; 2; 4; 6]%Q.
Proof. reflexivity. Qed.

(** ** C31: meshes *)
Theorem C31_mesh_lossless :
  forall m m0 : mesh, wf_mesh m -> m_dim m0 = m_dim m ->
  exists m', delivered (sendMesh 1 m) (receiveMesh 0 m0) m' /\ appended same_vertex m0 m m'.
Proof.
  intros m m0 W D. destruct (talk_mesh 0 1 m m0 W D) as (m' & T & A). exists m'. split; auto. eapply talk_delivered, T.
Qed.
Print Assumptions C31_mesh_lossless.

Theorem C31_mesh_broadcast_lossless :
  forall (n : nat) (m : mesh) (m0 : nat -> mesh), 0 < n -> wf_mesh m -> (forall r, m_dim (m0 r) = m_dim m) ->
  exists m', spread n (bcastMesh (secondaries n) m) (fun r => bcastMeshRecv 0 (m0 r)) m' /\
    forall r, appended same_vertex (m0 r) m (m' r).
Proof.
  intros n m m0 Hn W D. destruct (secondaries_ok n) as (N1 & N2 & N3).
  destruct (phase_mesh n 0 (secondaries n) N1 N2 Hn N3 m m0 W D) as (m' & T & A). exists m'. split; auto. eapply phase_spread; eauto.
Qed.
Print Assumptions C31_mesh_broadcast_lossless.

(** an empty receiving mesh becomes an equal mesh (up to ownership and tags) *)
Theorem C31_received_into_empty :
  forall m m' : mesh, appended same_vertex (emptyMesh (m_dim m)) m m' ->
    m_dim m' = m_dim m /\ Forall2 same_vertex (m_verts m) (m_verts m') /\
    m_edges m' = m_edges m /\ m_tris m' = m_tris m /\ m_tets m' = m_tets m.
Proof.
  intros m m' [A1 (vs & A2 & A2') A3 A4 A5]. cbn in *. rewrite A2.
  assert (forall l : list (nat * nat), map (shift2 0) l = l) as E2.
  { intros l. rewrite <- (map_id l) at 2. apply map_ext. intros (a, b). reflexivity. }
  assert (forall l : list (nat * nat * nat), map (shift3 0) l = l) as E3.
  { intros l. rewrite <- (map_id l) at 2. apply map_ext. intros ((a, b), c). reflexivity. }
  assert (forall l : list (nat * nat * nat * nat), map (shift4 0) l = l) as E4.
  { intros l. rewrite <- (map_id l) at 2. apply map_ext. intros (((a, b), c), d). reflexivity. }
  rewrite A3, A4, A5, E2, E3, E4. auto.
Qed.
Print Assumptions C31_received_into_empty.

(** appending one mesh to another on the same rank keeps everything, including
    ownership and tags *)
Theorem C31_add_mesh_lossless :
  forall m0 m : mesh, wf_mesh m -> m_dim m0 = m_dim m -> exists m', addMesh m0 m = Some m' /\ appended eq m0 m m'.
Proof. exact addMesh_ok. Qed.
Print Assumptions C31_add_mesh_lossless.

Definition vtx (x y z : Q) (g : Z) : vertex := MkVertex [x; y; z] g false true.
Definition exMesh : mesh :=
  MkMesh 3 [vtx 0 0 0 7; vtx 1 0 0 3; vtx 0 1 0 (-1); vtx 0 0 1 2] [(0, 1); (2, 3)] [(0, 1, 2)] [(0, 1, 2, 3)].
Definition exTarget : mesh := MkMesh 3 [vtx 9 9 9 1; vtx 8 8 8 0] [(0, 1)] [] [].
Lemma exMesh_wf : wf_mesh exMesh.
Proof.
  constructor; cbn.
  - auto.
  - intros v H. repeat (destruct H as [<-|H]; [reflexivity|]). destruct H.
  - intros a b H. repeat (destruct H as [H|H]; [injection H as <- <-; cbn; lia|]). destruct H.
  - intros a b c [H|[]]. injection H as <- <- <-. cbn. lia.
  - intros a b c d [H|[]]. injection H as <- <- <- <-. cbn. lia.
Qed.
Example C31_example : exists m', delivered (sendMesh 1 exMesh) (receiveMesh 0 exTarget) m' /\
  m_edges m' = [(0, 1); (2, 3); (4, 5)] /\ m_tets m' = [(2, 3, 4, 5)] /\ map v_glob (m_verts m') = [1; 0; 7; 3; -1; 2]%Z.
Proof.
  destruct (C31_mesh_lossless exMesh exTarget exMesh_wf eq_refl) as (m' & T & [A1 (vs & A2 & A2') A3 A4 A5]). exists m'.
  split; auto. rewrite A3, A5, A2, map_app. split; [reflexivity|]. split; [reflexivity|].
  cbn [map exTarget m_verts vtx v_glob app]. do 2 f_equal.
  assert (G : forall l l', Forall2 same_vertex l l' -> map v_glob l' = map v_glob l).
  { intros l l' H. induction H as [|x y l l' (_ & E) H IH]; cbn; congruence. }
  rewrite (G _ _ A2'). reflexivity.
Qed.
Example C31_broadcast_example : exists m',
  spread 3 (bcastMesh (secondaries 3) exMesh) (fun r => bcastMeshRecv 0 (if r =? 1 then exTarget else emptyMesh 3)) m' /\
  nVertices (m' 1) = 6 /\ nVertices (m' 2) = 4.
Proof.
  destruct (C31_mesh_broadcast_lossless 3 exMesh (fun r => if r =? 1 then exTarget else emptyMesh 3)) as (m' & T & A).
  - lia.
  - apply exMesh_wf.
  - intros r. destruct (r =? 1); reflexivity.
  - exists m'. split; [exact T|].
    assert (L : forall l l', Forall2 same_vertex l l' -> length l = length l').
    { intros l l' H. induction H; cbn; congruence. }
    unfold nVertices. destruct (ap_verts _ _ _ _ (A 1)) as (v1 & -> & F1). destruct (ap_verts _ _ _ _ (A 2)) as (v2 & -> & F2).
    apply L in F1. apply L in F2. rewrite !app_length, <- F1, <- F2. split; reflexivity.
Qed.
Example C31_add_mesh_example : exists m', addMesh exTarget exMesh = Some m' /\ m_tris m' = [(2, 3, 4)].
Proof. eexists. split; reflexivity. Qed.

(** ** C32: partitioning data *)
Theorem C32_connection_map_lossless :
  forall cm : connMap, wf_conn cm -> cm <> [] -> delivered (sendConnectionMap 1 cm) (receiveConnectionMap 0) cm.
Proof. intros cm W N. eapply talk_delivered, talk_conn; auto. Qed.
Print Assumptions C32_connection_map_lossless.
Theorem C32_connection_map_broadcast_lossless :
  forall (n : nat) (cm : connMap), 0 < n -> wf_conn cm -> cm <> [] ->
    spread n (bcastConnectionMap (secondaries n) cm) (fun _ => bcastConnectionMapRecv 0) (fun _ => cm).
Proof.
  intros n cm Hn W N. destruct (secondaries_ok n) as (N1 & N2 & N3). eapply phase_spread; auto. apply phase_conn; auto.
Qed.
Print Assumptions C32_connection_map_broadcast_lossless.
Theorem C32_bounding_box_lossless :
  forall (d : nat) (b : bbox), wf_box d b -> delivered (sendBoundingBox 1 b) (receiveBoundingBox 0) b.
Proof. intros d b W. eapply talk_delivered, talk_box; eauto. Qed.
Print Assumptions C32_bounding_box_lossless.
Theorem C32_bounding_box_map_lossless :
  forall (d : nat) (bm : boxMap), wf_boxes d bm -> delivered (sendBoundingBoxMap 1 bm) (receiveBoundingBoxMap 0) bm.
Proof. intros d bm W. eapply talk_delivered, talk_boxes; eauto. Qed.
Print Assumptions C32_bounding_box_map_lossless.
Theorem C32_bounding_box_map_broadcast_lossless :
  forall (n d : nat) (bm : boxMap), 0 < n -> wf_boxes d bm ->
    spread n (bcastBoundingBoxMap (secondaries n) bm) (fun _ => bcastBoundingBoxMapRecv 0) (fun _ => bm).
Proof.
  intros n d bm Hn W. destruct (secondaries_ok n) as (N1 & N2 & N3). eapply phase_spread; auto. eapply phase_boxes; eauto.
Qed.
Print Assumptions C32_bounding_box_map_broadcast_lossless.
(** An empty connection map is valid input, but sending it trips an assertion. *)
Theorem C32_empty_connection_map_refuted :
  exists cm, wf_conn cm /\ sendConnectionMap 1 cm = PErr (EAssert 130) /\
    forall x, ~ delivered (sendConnectionMap 1 cm) (receiveConnectionMap 0) x.
Proof.
  exists []. split; [constructor; cbn; tauto|]. split; [reflexivity|]. intros x H.
  destruct (ae_sync _ _ H _ (ex_intro _ [] (lr_nil _ _))) as [E|(l & c & S)]; [discriminate E|].
  inversion S as [i j m ki kj c0 N Hi Hj|i s p c0 Hi Hb]; subst; [|discriminate Hb].
  destruct i as [|[|i]]; cbn in Hi; try discriminate. destruct i; discriminate.
Qed.
Print Assumptions C32_empty_connection_map_refuted.

Definition exConn : connMap := [(0, [4; 2; 9]); (3, []); (5, [1])]%Z.
Definition exBoxes : boxMap := [(0%Z, MkBox [0; 1] [2; 3]); (4%Z, MkBox [-1; -2] [5; 6])]%Q.
Example C32_conn_example : delivered (sendConnectionMap 1 exConn) (receiveConnectionMap 0) exConn.
Proof.
  apply C32_connection_map_lossless; [|discriminate]. constructor.
  - cbn. repeat split; auto; intros k b H; repeat (destruct H as [H|H]; [injection H as <- <-; lia|]); destruct H.
  - intros r l H. cbn in H. repeat (destruct H as [H|H]; [injection H as <- <-; lia|]). destruct H.
  - intros r l H. cbn in H. repeat (destruct H as [H|H]; [injection H as <- <-; apply znodup_NoDup; reflexivity|]). destruct H.
Qed.
Example C32_boxes_example : delivered (sendBoundingBoxMap 1 exBoxes) (receiveBoundingBoxMap 0) exBoxes.
Proof.
  apply (C32_bounding_box_map_lossless 2). constructor.
  - cbn. repeat split; auto; intros k b H; repeat (destruct H as [H|H]; [injection H as <- <-; lia|]); destruct H.
  - intros r l H. cbn in H. repeat (destruct H as [H|H]; [injection H as <- <-; lia|]). destruct H.
  - intros r l H. cbn in H. repeat (destruct H as [H|H]; [injection H as <- <-; repeat split; auto|]). destruct H.
Qed.

(** ** C33: any sequence of ranges, of any lengths (including empty ones) *)
Theorem C33_ranges_lossless :
  forall l : list range, delivered (sendRanges 1 l) (receiveRanges 0 (map isInts l)) l.
Proof. intros l. eapply talk_delivered, talk_ranges. Qed.
Print Assumptions C33_ranges_lossless.
Example C33_example :
  delivered (sendRanges 1 [inl [1; 2]%Z; inr []; inl []; inr [(1 # 3)%Q]])
            (receiveRanges 0 [true; false; true; false]) [inl [1; 2]%Z; inr []; inl []; inr [(1 # 3)%Q]].
Proof. exact (C33_ranges_lossless [inl [1; 2]%Z; inr []; inl []; inr [(1 # 3)%Q]]). Qed.
