From Coq Require Import ZArith QArith List Arith Lia Bool Sorted.
From Verif Require Import M_Net M_Mesh M_Comm M_M2N M_Part S_Term S_M2N S_Mesh S_Filter S_Part P_Net P_Term P_Serial P_SerPart P_P2PRun P_Filter P_Part P_Own.
Import ListNotations.
Open Scope nat_scope.

(** * Filtered meshes are well formed *)
Lemma new_id_le p m k a b : a <= b -> new_id p m k a <= new_id p m k b.
Proof.
  intros H. unfold new_id. rewrite <- (firstn_skipn a (firstn b (m_verts m))), firstn_firstn, filter_app, app_length.
  rewrite Nat.min_l by exact H. lia.
Qed.
Lemma new_id_succ p m k a : selected p m a = true -> new_id p m k (S a) = S (new_id p m k a).
Proof.
  intros H. unfold selected in H. unfold new_id. destruct (nth_error (m_verts m) a) as [v|] eqn:E; [|discriminate].
  destruct (nth_error_split _ _ E) as (l1 & l2 & Ev & L). rewrite Ev. subst a.
  replace (firstn (length l1) (l1 ++ v :: l2)) with l1 by (rewrite firstn_app, firstn_all, Nat.sub_diag, firstn_O, app_nil_r; reflexivity).
  replace (S (length l1)) with (length l1 + 1) by lia. rewrite firstn_app_2. cbn [firstn]. rewrite filter_app, app_length. cbn [filter]. rewrite H. cbn [length]. lia.
Qed.
Lemma new_id_lt p m k a b : a < b -> selected p m a = true -> new_id p m k a < new_id p m k b.
Proof. intros H Hs. pose proof (new_id_le p m k (S a) b ltac:(lia)). rewrite new_id_succ in H0 by exact Hs. lia. Qed.
Lemma new_id_bound p m a : selected p m a = true -> new_id p m 0 a < length (filter p (m_verts m)).
Proof.
  intros H. assert (L : a < length (m_verts m)).
  { unfold selected in H. destruct (nth_error (m_verts m) a) eqn:E; [|discriminate]. apply nth_error_Some. congruence. }
  pose proof (new_id_lt p m 0 a (length (m_verts m)) L H) as G. unfold new_id in G at 2. rewrite firstn_all in G. exact G.
Qed.
Lemma filtered_wf p m m' : wf_mesh m -> filtered p (emptyMesh (m_dim m)) m m' -> wf_mesh m'.
Proof.
  intros W F. destruct F as [Fd Fv Fe Ft Fq]. cbn [m_dim m_verts m_edges m_tris m_tets emptyMesh app] in *. change (nVertices (emptyMesh (m_dim m))) with 0 in *.
  split.
  - rewrite Fd. apply wm_dim, W.
  - intros v Hv. rewrite Fv in Hv. apply filter_In in Hv. rewrite Fd. apply (wm_coords m W). tauto.
  - intros a b H. rewrite Fe in H. apply in_map_iff in H. destruct H as ([x y] & E & H). cbn [fst snd] in E. injection E as <- <-.
    apply filter_In in H. destruct H as (H & Hs). cbn [fst snd] in Hs. apply andb_prop in Hs. destruct Hs as (S1 & S2).
    apply (wm_edges m W) in H. split; [apply new_id_le; lia|]. unfold nVertices. rewrite Fv. apply new_id_bound, S2.
  - intros a b c H. rewrite Ft in H. apply in_map_iff in H. destruct H as ([[x y] z] & E & H). injection E as <- <- <-.
    apply filter_In in H. destruct H as (H & Hs). apply andb_prop in Hs. destruct Hs as (Hs & S3).
    apply (wm_tris m W) in H. split; [apply new_id_le; lia|]. split; [apply new_id_le; lia|]. unfold nVertices. rewrite Fv. apply new_id_bound, S3.
  - intros a b c d H. rewrite Fq in H. apply in_map_iff in H. destruct H as ([[[x y] z] u] & E & H). injection E as <- <- <- <-.
    apply filter_In in H. destruct H as (H & Hs). apply andb_prop in Hs. destruct Hs as (Hs & S4). apply andb_prop in Hs. destruct Hs as (Hs & S3).
    apply andb_prop in Hs. destruct Hs as (S1 & S2).
    apply (wm_tets m W) in H. split; [apply new_id_lt; [lia|auto]|]. split; [apply new_id_lt; [lia|auto]|]. split; [apply new_id_lt; [lia|auto]|].
    split; [unfold nVertices; rewrite Fv; apply new_id_bound, S4|]. rewrite Fd. lia.
Qed.
Lemma appended_empty m m' : appended eq (emptyMesh (m_dim m)) m m' -> m' = m.
Proof.
  intros [A1 (vs & A2 & A2') A3 A4 A5]. change (nVertices (emptyMesh (m_dim m))) with 0 in *. cbn in *.
  destruct m as [d v e t q], m' as [d' v' e' t' q']. cbn in *. subst.
  assert (Ev : v = vs) by (clear - A2'; induction A2'; congruence). subst vs.
  f_equal.
  - rewrite <- (map_id e) at 2. apply map_ext. intros [a b]. reflexivity.
  - rewrite <- (map_id t) at 2. apply map_ext. intros [[a b] c]. reflexivity.
  - rewrite <- (map_id q) at 2. apply map_ext. intros [[[a b] c] x]. reflexivity.
Qed.

(** * Owners of a rank *)
Definition own (owners : list Z) (vs : list vertex) : list vertex := map (fun p => setOwner (Z.eqb (fst p) 1) (snd p)) (combine owners vs).
Lemma setOwners_ok g : forall vs owners ts, okOwners g owners (map v_glob vs) ts -> setOwners owners vs = Some (own owners vs) /\ length owners = length vs.
Proof.
  induction vs as [|v vs IH]; intros [|o os] [|t ts] H; cbn [map okOwners] in H; try contradiction.
  - split; reflexivity.
  - destruct H as (_ & Ho & H). cbn [setOwners]. destruct (IH os ts H) as (E & L). rewrite E.
    assert (N : Z.eqb o (-1) = false) by (apply Z.eqb_neq; destruct Ho as [->|(-> & _)]; discriminate). rewrite N.
    split; [reflexivity|]. cbn. congruence.
Qed.
Lemma own_count g (gid : Z) : forall vs owners ts, okOwners g owners (map v_glob vs) ts ->
  length (filter (fun v => Z.eqb (v_glob v) gid && v_owner v) (own owners vs)) = ownCount gid owners (map v_glob vs).
Proof.
  induction vs as [|v vs IH]; intros [|o os] [|t ts] H; cbn [map okOwners] in H; try contradiction; [reflexivity|].
  destruct H as (_ & Ho & H). cbn [own combine map filter]. cbn [fst snd v_glob v_owner setOwner]. fold (own os vs). cbn [ownCount].
  rewrite andb_comm. destruct (Z.eqb o 1 && Z.eqb (v_glob v) gid); cbn [length]; rewrite (IH os ts H); reflexivity.
Qed.
(** an owner is tagged *)
Lemma own_tagged g : forall vs owners, okOwners g owners (map v_glob vs) (map (fun v => if v_tag v then 1 else 0)%Z vs) ->
  Forall2 (fun v w => v_coords w = v_coords v /\ v_glob w = v_glob v /\ v_tag w = v_tag v /\ (v_owner w = true -> v_tag v = true)) vs (own owners vs).
Proof.
  induction vs as [|v vs IH]; intros [|o os] H; cbn [map okOwners] in H; try contradiction; [constructor|].
  destruct H as (_ & Ho & H). cbn [own combine map]. cbn [fst snd]. constructor; [|apply IH, H].
  repeat split. cbn [v_owner setOwner]. intros E. apply Z.eqb_eq in E. destruct Ho as [->|(_ & Ho & _)]; [discriminate|].
  destruct (v_tag v); [reflexivity|discriminate].
Qed.

(** * The ownership phase *)
Definition reportOwners (m : mesh) : proc packet unit :=
  bind (sendInt 0 (sizeOf (m_verts m))) (fun _ =>
  if isEmpty (m_verts m) then PRet tt else
  bind (sendRangeInt 0 (tagsOf m)) (fun _ => bind (sendRangeInt 0 (globalIDs m)) (fun _ => sendInt 0 (if anyTag m then 1 else 0)%Z))).
Definition fetchOwners (m : mesh) : proc packet mesh :=
  if isEmpty (m_verts m) then PRet m else
  bind (receiveRangeInt 0) (fun ownerVec => bind (check (length ownerVec =? nVertices m) (EAssert 265)) (fun _ =>
  orErr (setOwnerInformation ownerVec m) (EAssert 266))).
Lemma ownersSecondary_eq m : ownersSecondary m = bind (reportOwners m) (fun _ => fetchOwners m).
Proof.
  unfold ownersSecondary, reportOwners, fetchOwners, tagsOf, globalIDs. destruct (m_verts m) as [|v vs] eqn:E; [reflexivity|]. cbn [isEmpty].
  reflexivity.
Qed.
Definition hearOwners (rank : nat) (st : list about * Z) : proc packet (list about * Z) :=
  bind (recvInt rank) (fun localNumberOfVertices =>
  bind (check (0 <=? localNumberOfVertices)%Z (EAssert 267)) (fun _ =>
  if Z.eqb localNumberOfVertices 0 then PRet (fst st ++ [MkAbout (repeat 0%Z (Z.to_nat localNumberOfVertices)) [] []], snd st) else
  bind (receiveRangeInt rank) (fun tags => bind (receiveRangeInt rank) (fun ids => bind (recvInt rank) (fun atInterface =>
  PRet (fst st ++ [MkAbout (repeat 0%Z (Z.to_nat localNumberOfVertices)) ids tags], (snd st + (if Z.eqb atInterface 0 then 0 else 1))%Z)))))).
Lemma report_talk m r st : talk 0 r (hearOwners r st) (reportOwners m)
  (fst st ++ [MkAbout (repeat 0%Z (nVertices m)) (globalIDs m) (tagsOf m)], (snd st + (if anyTag m then 1 else 0))%Z) tt.
Proof.
  unfold hearOwners, reportOwners. eapply talk_bind; [apply talk_sym, talk_int|]. cbv beta.
  rewrite sizeOf_nonneg. cbn [check bind]. destruct (m_verts m) as [|v vs] eqn:Ev.
  - cbn [isEmpty sizeOf length Z.of_nat Z.eqb Z.to_nat repeat].
    unfold anyTag, nVertices, globalIDs, tagsOf. rewrite Ev. cbn. rewrite Z.add_0_r. constructor.
  - assert (E : Z.eqb (sizeOf (v :: vs)) 0 = false) by (apply Z.eqb_neq; unfold sizeOf; cbn [length]; lia). rewrite E. cbn [isEmpty].
    eapply talk_bind; [apply talk_sym, talk_rangeInt|]. cbv beta.
    eapply talk_bind; [apply talk_sym, talk_rangeInt|]. cbv beta.
    eapply talk_bind_l; [apply talk_sym, talk_int|]. cbv beta. unfold sizeOf, nVertices. rewrite Nat2Z.id, Ev.
    destruct (anyTag m); reflexivity.
Qed.
Definition ab (m : nat -> mesh) (r : nat) : about := MkAbout (repeat 0%Z (nVertices (m r))) (globalIDs (m r)) (tagsOf (m r)).
Fixpoint taggers (m : nat -> mesh) (k : nat) : Z := match k with 0 => 0%Z | S k => (taggers m k + (if anyTag (m k) then 1 else 0))%Z end.
Lemma taggers_nonneg m k : (0 <= taggers m k)%Z.
Proof. induction k; cbn; [lia|]. destruct (anyTag (m k)); lia. Qed.
Lemma taggers_pos m n r : r < n -> anyTag (m r) = true -> (0 < taggers m n)%Z.
Proof.
  induction n as [|n IH]; intros H E; [lia|]. cbn [taggers]. pose proof (taggers_nonneg m n).
  destruct (Nat.eq_dec r n) as [->|]; [rewrite E; lia|]. specialize (IH ltac:(lia) E). destruct (anyTag (m n)); lia.
Qed.

Section RECV.
Variables (n N : nat) (direct : bool) (extra : nat -> list bool) (m : nat -> mesh).
Hypotheses (Hn : 1 < n) (Wf : forall r, r < n -> wf_mesh (m r))
  (Ids : forall r v, r < n -> In v (m_verts (m r)) -> (0 <= v_glob v < Z.of_nat N)%Z)
  (Some_tag : exists r, r < n /\ anyTag (m r) = true).

Lemma ab_ok : okAll (repeat 0%Z N) (map (ab m) (seq 0 n)).
Proof.
  apply Forall_map, Forall_forall. intros r Hr. apply in_seq in Hr. cbn [ab ab_owners ab_ids ab_tags].
  unfold globalIDs, tagsOf, nVertices. assert (H : forall v, In v (m_verts (m r)) -> (0 <= v_glob v < Z.of_nat N)%Z) by (intros; apply (Ids r); auto; lia).
  induction (m_verts (m r)) as [|v vs IH]; cbn [length repeat map okOwners]; [exact I|].
  rewrite repeat_length. split; [apply H; left; auto|]. split; [left; auto|]. apply IH. intros; apply H; right; auto.
Qed.
Lemma ownCount_zero id : forall k is, ownCount id (repeat 0%Z k) is = 0.
Proof. induction k as [|k IH]; intros [|i is]; cbn; auto. Qed.
Lemma ab_zero id : ownTotal id (map (ab m) (seq 0 n)) = 0.
Proof. induction (seq 0 n) as [|r l IH]; cbn [map ownTotal ab ab_owners ab_ids]; [reflexivity|]. rewrite ownCount_zero, IH. reflexivity. Qed.

Section DECIDED.
Variables (l : list about) (g : list Z).
Hypotheses (Ed : decideOwners N (taggers m n) (map (ab m) (seq 0 n)) = Some l) (Ok : okAll g l) (Same : sameRanks (map (ab m) (seq 0 n)) l).
Definition ow (r : nat) : list Z := ab_owners (nth r l (MkAbout [] [] [])).
Lemma l_nth r : r < n -> exists a, nth_error l r = Some a /\ ab_owners a = ow r /\ ab_tags a = tagsOf (m r) /\ ab_ids a = globalIDs (m r).
Proof.
  intros Hr. assert (G : forall l0 l1, sameRanks l0 l1 -> forall i a0, nth_error l0 i = Some a0 -> exists a, nth_error l1 i = Some a /\ ab_ids a = ab_ids a0 /\ ab_tags a = ab_tags a0).
  { intros l0 l1 H. induction H as [|x y l0 l1 (E1 & E2) H IH]; intros [|i] a0 E; cbn in E; try discriminate.
    - injection E as <-. exists y. auto.
    - apply IH, E. }
  destruct (G _ _ Same r (ab m r)) as (a & E & E1 & E2).
  { apply map_nth_error. rewrite (nth_error_nth' _ 0) by (rewrite seq_length; lia). rewrite seq_nth by lia. reflexivity. }
  exists a. split; auto. split; [|auto]. unfold ow. rewrite (nth_error_nth l r (MkAbout [] [] []) E). reflexivity.
Qed.
Lemma ow_ok r : r < n -> okOwners g (ow r) (map v_glob (m_verts (m r))) (map (fun v => if v_tag v then 1 else 0)%Z (m_verts (m r))).
Proof.
  intros Hr. destruct (l_nth r Hr) as (a & E & E1 & E2 & E3). unfold okAll in Ok. rewrite Forall_forall in Ok.
  specialize (Ok a (nth_error_In _ _ E)). rewrite E1, E2, E3 in Ok. exact Ok.
Qed.
Definition mo (r : nat) : mesh := setVerts (m r) (own (ow r) (m_verts (m r))).
Lemma set_ok r : r < n -> setOwnerInformation (ow r) (m r) = Some (mo r) /\ length (ow r) = nVertices (m r).
Proof. intros Hr. destruct (setOwners_ok g _ _ _ (ow_ok r Hr)) as (E & L). unfold setOwnerInformation. rewrite E. auto. Qed.

Lemma owners_phase : phase n 0 (secondaries n) (createOwnerInformation n 0 N direct (m 0)) (fun r => createOwnerInformation n r N direct (m r)) (mo 0) mo.
Proof.
  destruct (secondaries_ok n) as (Nd & Nz & Lt). assert (Hz : 0 < n) by lia.
  assert (P0 : isPrimary n 0 = true) by (unfold isPrimary; cbn; apply negb_true_iff, Nat.eqb_neq; lia).
  eapply phase_ext with (q := fun r => bind (reportOwners (m r)) (fun _ => fetchOwners (m r)));
    [|unfold createOwnerInformation; cbn [isSecondary Nat.eqb negb]; rewrite P0; reflexivity|reflexivity| |reflexivity].
  2: { intros r Hr. apply in_seq in Hr. unfold createOwnerInformation.
       assert (isSecondary r = true) as -> by (unfold isSecondary; apply negb_true_iff, Nat.eqb_neq; lia). symmetry. apply ownersSecondary_eq. }
  unfold ownersPrimary. set (F := fun rank (st : list about * Z) => bind (recvInt rank) _).
  assert (T : phase n 0 (secondaries n) (foldRanks (secondaries n) F ([MkAbout (repeat 0%Z (nVertices (m 0))) (globalIDs (m 0)) (tagsOf (m 0))], if anyTag (m 0) then 1%Z else 0%Z))
     (fun r => reportOwners (m r)) (map (ab m) (seq 0 n), taggers m n) (fun _ => tt)).
  { eapply phase_ext; [apply (phase_fold_seq n 0 F (fun r => reportOwners (m r)) (fun r => (map (ab m) (seq 0 r), taggers m r)) (fun _ => tt) (n - 1) 1)| | | |]; auto.
    - lia.
    - intros r Hr. cbn [taggers]. rewrite seq_S, map_app. apply (report_talk (m r) r (map (ab m) (seq 0 r), taggers m r)).
    - replace (1 + (n - 1)) with n by lia. reflexivity. }
  pose proof (taggers_nonneg m n) as Tn. assert (Tp : taggers m n <> 0%Z) by (destruct Some_tag as (r & Hr & E); pose proof (taggers_pos m n r Hr E); lia).
  apply (phase_bind n 0 (secondaries n) _ _ _ _ _ (fun r _ => fetchOwners (m r)) _ _ T). cbv beta. cbn [fst snd].
  apply phase_check_z; [destruct (Z.eqb_spec (taggers m n) 0); [contradiction|reflexivity]|].
  apply phase_check_z; [destruct (Z.eqb_spec (taggers m n) 0); [contradiction|reflexivity]|].
  rewrite Ed. cbn [orErr bind].
  eapply phase_bind_z.
  - apply (phase_for n 0 _ (fun r => fetchOwners (m r)) mo); auto. intros r Hr. assert (Hr' : r < n) by auto.
    destruct (l_nth r Hr') as (a & E & E1 & E2 & E3). rewrite E, E1, E2. destruct (set_ok r Hr') as (So & L). unfold fetchOwners, tagsOf.
    destruct (m_verts (m r)) as [|v vs] eqn:Ev; cbn [map isEmpty].
    + assert (Em : mo r = m r) by (unfold mo; rewrite Ev; unfold own; rewrite combine_nil; destruct (m r); cbn in *; subst; reflexivity).
      rewrite Em. constructor.
    + eapply talk_bind_r; [apply talk_rangeInt|]. cbv beta. rewrite L, Nat.eqb_refl. cbn [check bind]. rewrite So. reflexivity.
  - cbv beta. destruct (l_nth 0 Hz) as (a & E & E1 & _). destruct (set_ok 0 Hz) as (So & _).
    assert (G : forall l1, nth_error l1 0 = Some a -> (match l1 with a0 :: _ => orErr (setOwnerInformation (ab_owners a0) (m 0)) (EAssert 266)
                | [] => PErr (EAssert 270) end) = PRet (M:=packet) (mo 0)).
    { intros [|a0 l0] H; [discriminate|]. cbn in H. injection H as ->. rewrite E1, So. reflexivity. }
    apply G, E.
Qed.

Lemma tagMore_nth : forall vs ex i, nth_error (tagMore ex vs) i =
  match nth_error vs i with Some v => Some (if nth i ex false then tag v else v) | None => None end.
Proof.
  induction vs as [|v vs IH]; intros ex i; [destruct ex, i; reflexivity|].
  destruct ex as [|b ex]; cbn [tagMore].
  - destruct (nth_error (v :: vs) i); destruct i; reflexivity.
  - destruct i as [|i]; cbn [nth_error nth]; [reflexivity|]. apply IH.
Qed.
Lemma tagMore_len : forall vs ex, length (tagMore ex vs) = length vs.
Proof. induction vs as [|v vs IH]; intros [|b ex]; cbn; auto. Qed.
Definition m2 (r : nat) : mesh := setVerts (mo r) (tagMore (extra r) (m_verts (mo r))).
Definition m3 (r : nat) : mesh := match filterMesh (emptyMesh (m_dim (m r))) (m2 r) v_tag with Some f => f | None => m r end.
Lemma m2_tagged r : r < n -> tagged_again (extra r) (m r) (m2 r).
Proof.
  intros Hr. pose proof (own_tagged g _ _ (ow_ok r Hr)) as F. split.
  - repeat split.
  - unfold m2, mo. cbn [setVerts m_verts]. rewrite tagMore_len. symmetry. clear - F. induction F; cbn; auto.
  - intros i v E. unfold m2, mo. cbn [setVerts m_verts]. rewrite tagMore_nth.
    assert (exists w, nth_error (own (ow r) (m_verts (m r))) i = Some w /\ v_coords w = v_coords v /\ v_glob w = v_glob v /\ v_tag w = v_tag v) as (w & E1 & A & B & C).
    { clear - F E. revert i E. induction F as [|x y la lb (A & B & C & _) F IH]; intros [|i] E; cbn in E; try discriminate.
      - injection E as <-. exists y. auto.
      - apply IH, E. }
    rewrite E1. exists (if nth i (extra r) false then tag w else w). split; [reflexivity|].
    destruct (nth i (extra r) false); cbn; rewrite ?A, ?B, ?C, ?orb_true_r, ?orb_false_r; auto.
Qed.
Lemma tagged_wf ex m0 m' : tagged_again ex m0 m' -> wf_mesh m0 -> wf_mesh m'.
Proof.
  intros [(D & E & T & Q) L V] W. assert (Nv : nVertices m' = nVertices m0) by (unfold nVertices; lia). split.
  - rewrite <- D. apply W.
  - intros w Hw. apply In_nth_error in Hw. destruct Hw as (i & Hi).
    destruct (nth_error (m_verts m0) i) as [v|] eqn:Ev.
    + destruct (V i v Ev) as (w' & E1 & E2 & _). rewrite Hi in E1. injection E1 as <-. rewrite E2, <- D. apply (wm_coords m0 W). eapply nth_error_In; eauto.
    + apply nth_error_None in Ev. assert (i < length (m_verts m')) by (apply nth_error_Some; congruence). lia.
  - intros a b H. rewrite <- E in H. rewrite Nv. apply (wm_edges m0 W), H.
  - intros a b c H. rewrite <- T in H. rewrite Nv. apply (wm_tris m0 W), H.
  - intros a b c d H. rewrite <- Q in H. rewrite Nv, <- D. apply (wm_tets m0 W), H.
Qed.
Lemma m3_ok r : r < n -> filterMesh (emptyMesh (m_dim (m r))) (m2 r) v_tag = Some (m3 r) /\ addMesh (emptyMesh (m_dim (m r))) (m3 r) = Some (m3 r) /\
  filtered v_tag (emptyMesh (m_dim (m r))) (m2 r) (m3 r).
Proof.
  intros Hr. pose proof (tagged_wf _ _ _ (m2_tagged r Hr) (Wf r Hr)) as W2.
  destruct (filterMesh_ok (emptyMesh (m_dim (m r))) (m2 r) v_tag W2 eq_refl) as (f & E & F).
  assert (E3 : m3 r = f) by (unfold m3; rewrite E; reflexivity). rewrite E3. split; auto. split; auto.
  assert (Wf' : wf_mesh f) by (apply (filtered_wf v_tag (m2 r)); auto).
  assert (D : m_dim f = m_dim (m r)) by apply (fl_dim _ _ _ _ F).
  destruct (addMesh_ok (emptyMesh (m_dim (m r))) f Wf') as (f' & E' & A); [rewrite D; reflexivity|].
  rewrite E'. f_equal. apply appended_empty. rewrite D. exact A.
Qed.

(** feedback and offsets *)
Definition dist : distribution := map (fun s => (s, ofInts (globalIDs (m3 s)))) (seq 0 n).
Definition rest (r : nat) : proc packet part :=
  bind (feedback n r (m3 r)) (fun vd => bind (computeOffsets n r (m3 r)) (fun offsets =>
  bind (check (negb (isEmpty offsets)) (EAssert 274)) (fun _ => bind (check (negb (isPrimary n r && isEmpty vd)) (EAssert 275)) (fun _ =>
  PRet (MkPart (m3 r) offsets (Z.of_nat N) vd))))).
Definition partR (r : nat) : part := MkPart (m3 r) (offs n (counts m3) n) (Z.of_nat N) (if r =? 0 then dist else []).
Lemma rest_phase : phase n 0 (secondaries n) (rest 0) rest (partR 0) partR.
Proof.
  destruct (secondaries_ok n) as (Nd & Nz & Lt). assert (Hz : 0 < n) by lia.
  assert (P0 : isPrimary n 0 = true) by (unfold isPrimary; cbn; apply negb_true_iff, Nat.eqb_neq; lia).
  assert (Ps : forall r, In r (secondaries n) -> isSecondary r = true /\ isPrimary n r = false).
  { intros r Hr. apply in_seq in Hr. unfold isSecondary, isPrimary. destruct (Nat.eqb_spec r 0); [lia|]. auto. }
  assert (Eo : negb (isEmpty (offs n (counts m3) n)) = true).
  { pose proof (offs_len n (counts m3) n (Nat.le_refl n)) as L. destruct (offs n (counts m3) n); [cbn in L; lia|reflexivity]. }
  assert (F : phase n 0 (secondaries n) (feedback n 0 (m3 0)) (fun r => feedback n r (m3 r)) dist (fun _ => [])).
  { eapply phase_ext with (q := fun r => bind (sendRangeInt 0 (globalIDs (m3 r))) (fun _ => PRet [])).
    - apply (phase_fold_seq n 0 (fun s vd => bind (receiveRangeInt s) (fun ids => PRet (vset s (ofInts ids) vd)))
        (fun r => bind (sendRangeInt 0 (globalIDs (m3 r))) (fun _ => PRet [])) (fun r => map (fun s => (s, ofInts (globalIDs (m3 s)))) (seq 0 r)) (fun _ => []) (n - 1) 1); auto; [lia|].
      intros r Hr. eapply talk_bind; [apply talk_sym, talk_rangeInt|]. cbv beta. rewrite vset_last.
      + rewrite seq_S, map_app. constructor.
      + intros x Hx. rewrite map_map in Hx. cbn [fst] in Hx. rewrite map_id in Hx. apply in_seq in Hx. lia.
    - reflexivity.
    - unfold dist. replace (1 + (n - 1)) with n by lia. reflexivity.
    - intros r Hr. unfold feedback. destruct (Ps r Hr) as (-> & _). reflexivity.
    - reflexivity. }
  assert (O : phase n 0 (secondaries n) (computeOffsets n 0 (m3 0)) (fun r => computeOffsets n r (m3 r)) (offs n (counts m3) n) (fun _ => offs n (counts m3) n)).
  { eapply phase_ext with (q := fun r => bind (sendInt 0 (sizeOf (m_verts (m3 r)))) (fun _ => bcastVecIntRecv 0)).
    - eapply (phase_bind n 0 (secondaries n) _ _ _ _ (fun offsets => bind (bcastVecInt (secondaries n) offsets) (fun _ => PRet offsets)) (fun r _ => bcastVecIntRecv 0)).
      + apply (phase_fold_seq n 0 (fun s offsets => bind (recvInt s) (fun k => bind (check (0 <=? k)%Z (EAssert 271)) (fun _ => PRet (upd s (k + nth (s - 1) offsets 0)%Z offsets))))
          (fun r => sendInt 0 (sizeOf (m_verts (m3 r)))) (fun r => offs n (counts m3) r) (fun _ => tt) (n - 1) 1); auto; [lia|].
        intros r Hr. eapply talk_bind_l; [apply talk_sym, talk_int|]. cbv beta. rewrite sizeOf_nonneg. cbn [check bind]. f_equal.
        apply offs_S; [lia|]. rewrite offs_nth by lia. replace (S (r - 1)) with r by lia. unfold sizeOf. rewrite before_S. unfold counts. lia.
      + cbv beta. replace (1 + (n - 1)) with n by lia. eapply phase_bind_z; [apply phase_bcastVecInt; auto|reflexivity].
    - unfold computeOffsets. cbn [isSecondary Nat.eqb negb]. rewrite P0. rewrite <- (offs_0 n (counts m3)) by lia. reflexivity.
    - reflexivity.
    - intros r Hr. unfold computeOffsets. destruct (Ps r Hr) as (-> & _). reflexivity.
    - reflexivity. }
  unfold rest. apply (phase_bind n 0 (secondaries n) _ _ _ _ _
     (fun r vd => bind (computeOffsets n r (m3 r)) (fun offsets =>
  bind (check (negb (isEmpty offsets)) (EAssert 274)) (fun _ => bind (check (negb (isPrimary n r && isEmpty vd)) (EAssert 275)) (fun _ =>
  PRet (MkPart (m3 r) offsets (Z.of_nat N) vd))))) _ _ F). cbv beta.
  apply (phase_bind n 0 (secondaries n) _ _ _ _ _ (fun r offsets =>
  bind (check (negb (isEmpty offsets)) (EAssert 274)) (fun _ => bind (check (negb (isPrimary n r && true)) (EAssert 275)) (fun _ =>
  PRet (MkPart (m3 r) offsets (Z.of_nat N) [])))) _ _ O). cbv beta. rewrite Eo. cbn [check bind].
  assert (Ed' : isEmpty dist = false) by (unfold dist; destruct n; [lia|reflexivity]). rewrite Ed', andb_false_r. cbn [negb check bind].
  eapply phase_ext; [apply (phase_ret n 0 (secondaries n) (partR 0) partR)| | | |]; try reflexivity.
  intros r Hr. destruct (Ps r Hr) as (_ & ->). cbn [andb negb check bind]. unfold partR. apply in_seq in Hr. destruct (Nat.eqb_spec r 0); [lia|]. reflexivity.
Qed.
Lemma received_phase : phase n 0 (secondaries n) (computeReceived n 0 N direct (extra 0) (m 0)) (fun r => computeReceived n r N direct (extra r) (m r)) (partR 0) partR.
Proof.
  assert (N1 : (n =? 1) = false) by (apply Nat.eqb_neq; lia). unfold computeReceived. rewrite N1.
  set (k := fun r m1 => bind (orErr (filterMesh (emptyMesh (m_dim (m r))) (setVerts m1 (tagMore (extra r) (m_verts m1))) v_tag) (EAssert 272)) (fun filtered =>
    bind (orErr (addMesh (emptyMesh (m_dim (m r))) filtered) (EAssert 273)) (fun m3 =>
    bind (feedback n r m3) (fun vd => bind (computeOffsets n r m3) (fun offsets =>
    bind (check (negb (isEmpty offsets)) (EAssert 274)) (fun _ => bind (check (negb (isPrimary n r && isEmpty vd)) (EAssert 275)) (fun _ =>
    PRet (MkPart m3 offsets (Z.of_nat N) vd)))))))).
  apply (phase_bind n 0 (secondaries n) _ _ _ _ (k 0) k (partR 0) partR owners_phase).
  assert (Ek : forall r, r < n -> k r (mo r) = rest r).
  { intros r Hr. unfold k. destruct (m3_ok r Hr) as (E1 & E2 & _). fold (m2 r). rewrite E1. cbn [orErr bind]. rewrite E2. reflexivity. }
  eapply phase_ext; [apply rest_phase|symmetry; apply Ek; lia|reflexivity| |reflexivity].
  intros r Hr. apply in_seq in Hr. symmetry. apply Ek. lia.
Qed.
Lemma received_ends : all_end n (fun r => computeReceived n r N direct (extra r) (m r)) partR.
Proof. eapply phase_all; [lia|exact received_phase| | | |]; reflexivity. Qed.

Lemma m3_verts r : r < n -> m_verts (m3 r) = filter v_tag (tagMore (extra r) (own (ow r) (m_verts (m r)))).
Proof. intros Hr. destruct (m3_ok r Hr) as (_ & _ & F). rewrite (fl_verts _ _ _ _ F). reflexivity. Qed.
Lemma keep_owned (gid : Z) : forall ws ex, (forall w, In w ws -> v_owner w = true -> v_tag w = true) ->
  length (filter (fun v => Z.eqb (v_glob v) gid && v_owner v) (filter v_tag (tagMore ex ws))) =
  length (filter (fun v => Z.eqb (v_glob v) gid && v_owner v) ws).
Proof.
  assert (G : forall ws, (forall w, In w ws -> v_owner w = true -> v_tag w = true) ->
    length (filter (fun v => Z.eqb (v_glob v) gid && v_owner v) (filter v_tag ws)) = length (filter (fun v => Z.eqb (v_glob v) gid && v_owner v) ws)).
  { induction ws as [|w ws IH]; intros H; [reflexivity|]. cbn [filter]. specialize (IH (fun x Hx => H x (or_intror Hx))).
    specialize (H w (or_introl eq_refl)). destruct (v_owner w) eqn:Eo.
    - rewrite H by reflexivity. cbn [filter]. rewrite Eo. destruct (Z.eqb (v_glob w) gid); cbn [andb length]; rewrite IH; reflexivity.
    - rewrite andb_false_r. destruct (v_tag w); [cbn [filter]; rewrite Eo, andb_false_r|]; apply IH. }
  induction ws as [|w ws IH]; intros [|b ex] H; cbn [tagMore]; try (apply G; exact H).
  specialize (IH ex (fun x Hx => H x (or_intror Hx))). specialize (H w (or_introl eq_refl)).
  set (w' := if b then tag w else w).
  assert (A : v_glob w' = v_glob w /\ v_owner w' = v_owner w /\ (v_owner w = true -> v_tag w' = true)) by (unfold w'; destruct b; auto).
  destruct A as (A1 & A2 & A3). cbn [filter]. rewrite <- A1, <- A2 at 1. destruct (v_owner w) eqn:Eo.
  - rewrite A3 by reflexivity. cbn [filter]. rewrite A2. destruct (Z.eqb (v_glob w') gid); cbn [andb length]; rewrite IH; reflexivity.
  - rewrite A2, andb_false_r. destruct (v_tag w'); [cbn [filter]; rewrite A2, andb_false_r|]; apply IH.
Qed.
Lemma own_in r w : r < n -> In w (own (ow r) (m_verts (m r))) -> exists v, In v (m_verts (m r)) /\ v_coords w = v_coords v /\ v_glob w = v_glob v /\ v_tag w = v_tag v /\ (v_owner w = true -> v_tag v = true).
Proof.
  intros Hr Hw. pose proof (own_tagged g _ _ (ow_ok r Hr)) as F. revert Hw. generalize dependent (own (ow r) (m_verts (m r))).
  generalize (m_verts (m r)). clear. intros l l' F. induction F as [|x y la lb H F IH]; intros Hw; [destruct Hw|].
  destruct Hw as [<-|Hw]; [exists x; split; [left; auto|exact H]|]. destruct (IH Hw) as (v & Hv & R). exists v. split; [right; auto|exact R].
Qed.
Lemma m3_count gid r : r < n -> length (filter (fun v => Z.eqb (v_glob v) gid && v_owner v) (m_verts (m3 r))) = ownCount gid (ow r) (map v_glob (m_verts (m r))).
Proof.
  intros Hr. rewrite m3_verts by exact Hr. rewrite keep_owned.
  - apply (own_count g gid _ _ _ (ow_ok r Hr)).
  - intros w Hw Ho. destruct (own_in r w Hr Hw) as (v & _ & _ & _ & E & T). rewrite E. auto.
Qed.
Lemma total_sum gid : forall k a l1, sameRanks (map (ab m) (seq a k)) l1 ->
  ownTotal gid l1 = list_sum (map (fun r => ownCount gid (ab_owners (nth (r - a) l1 (MkAbout [] [] []))) (map v_glob (m_verts (m r)))) (seq a k)).
Proof.
  induction k as [|k IH]; intros a l1 H; cbn [seq map] in *; inversion H as [|x y la lb (E1 & E2) H']; subst; [reflexivity|].
  cbn [ownTotal list_sum fold_right]. rewrite Nat.sub_diag. change (nth 0 (y :: lb) (MkAbout [] [] [])) with y. f_equal; [rewrite E1; reflexivity|].
  rewrite (IH _ _ H'). unfold list_sum. f_equal. apply map_ext_in. intros r Hr. apply in_seq in Hr. replace (r - a) with (S (r - S a)) by lia. reflexivity.
Qed.
Lemma filter_everywhere (P : vertex -> bool) (f : nat -> list vertex) k : forall a, length (filter P (flat_map f (seq a k))) = list_sum (map (fun r => length (filter P (f r))) (seq a k)).
Proof. induction k as [|k IH]; intros a; [reflexivity|]. cbn [seq flat_map map list_sum fold_right]. rewrite filter_app, app_length, IH. reflexivity. Qed.
Lemma total_is gid : length (filter (fun v => Z.eqb (v_glob v) gid && v_owner v) (everywhere n (fun r => m_verts (m3 r)))) = ownTotal gid l.
Proof.
  unfold everywhere. rewrite filter_everywhere, (total_sum gid n 0 l Same). f_equal. apply map_ext_in. intros r Hr. apply in_seq in Hr.
  rewrite m3_count by lia. rewrite Nat.sub_0_r. reflexivity.
Qed.
Lemma m3_in r w : r < n -> In w (m_verts (m3 r)) -> exists v, In v (m_verts (m r)) /\ v_glob w = v_glob v /\ (v_owner w = true -> v_tag v = true).
Proof.
  intros Hr Hw. rewrite m3_verts in Hw by exact Hr. apply filter_In in Hw. destruct Hw as (Hw & _).
  apply In_nth_error in Hw. destruct Hw as (i & Hi). rewrite tagMore_nth in Hi.
  destruct (nth_error (own (ow r) (m_verts (m r))) i) as [u|] eqn:E; [|discriminate]. injection Hi as <-.
  destruct (own_in r u Hr (nth_error_In _ _ E)) as (v & Hv & _ & B & _ & D). exists v. split; auto.
  destruct (nth i (extra r) false); cbn; auto.
Qed.
Hypothesis Own1 : forall i, (0 <= i)%Z -> wanted (map (ab m) (seq 0 n)) i -> ownTotal i l = 1.
Lemma received_ok : received_parts n N m extra partR.
Proof.
  assert (I3 : forall r v, r < n -> In v (m_verts (m3 r)) -> (0 <= v_glob v < Z.of_nat N)%Z).
  { intros r v Hr Hv. destruct (m3_in r v Hr Hv) as (u & Hu & -> & _). apply (Ids r); auto. }
  assert (Vd : forall r, r < n -> verts dist r = ofInts (globalIDs (m3 r))).
  { intros r Hr. unfold verts, dist. assert (G : forall k a, a <= r < a + k -> vfind r (map (fun s => (s, ofInts (globalIDs (m3 s)))) (seq a k)) = Some (ofInts (globalIDs (m3 r)))).
    { induction k as [|k IH]; intros a Ha; [lia|]. cbn [seq map vfind]. destruct (Nat.eqb_spec a r) as [->|]; [reflexivity|]. apply IH. lia. }
    rewrite (G n 0) by lia. reflexivity. }
  assert (Fd : map fst dist = seq 0 n) by (unfold dist; rewrite map_map; apply map_id).
  split; cbn [partR pt_mesh pt_number pt_offsets pt_dist Nat.eqb].
  - intros r Hr. exists (m2 r). split; [apply m2_tagged, Hr|]. apply m3_ok, Hr.
  - intros r gid Hr (v & Hv & <- & Ht).
    assert (E : ownTotal (v_glob v) l = 1).
    { apply Own1; [destruct (Ids r v Hr Hv); lia|]. apply In_nth_error in Hv. destruct Hv as (i & Hi).
      exists (ab m r), i. split; [apply in_map, in_seq; lia|]. cbn [ab ab_ids ab_tags]. unfold globalIDs, tagsOf.
      rewrite !nth_error_map, Hi. cbn. rewrite Ht. auto. }
    rewrite <- total_is in E. unfold one_owner. destruct (filter _ _) as [|w [|]]; cbn in E; try lia. exists w. reflexivity.
  - intros r gid Hr (w & Hw & <- & Ho). destruct (m3_in r w Hr Hw) as (v & Hv & E & T). exists v. auto.
  - reflexivity.
  - intros r Hr. apply offs_full.
  - split.
    + rewrite Fd. generalize 0. clear. induction n as [|k IH]; intros a; cbn [seq]; constructor; auto. apply Forall_forall. intros x Hx. apply in_seq in Hx. lia.
    + intros r Hr. rewrite Fd in Hr. apply in_seq in Hr. lia.
    + rewrite Fd. apply in_seq. lia.
    + intros r v Hv. destruct (Nat.lt_ge_cases r n) as [Hr|Hr].
      * rewrite Vd in Hv by exact Hr. unfold ofInts, globalIDs in Hv. rewrite map_map in Hv. apply in_map_iff in Hv. destruct Hv as (u & <- & Hu).
        specialize (I3 r u Hr Hu). lia.
      * exfalso. unfold verts in Hv. assert (G : forall k a, a + k <= r -> vfind r (map (fun s => (s, ofInts (globalIDs (m3 s)))) (seq a k)) = None).
        { induction k as [|k IH]; intros a Ha; [reflexivity|]. cbn [seq map vfind]. destruct (Nat.eqb_spec a r); [lia|]. apply IH. lia. }
        unfold dist in Hv. rewrite (G n 0) in Hv by lia. destruct Hv.
  - intros r Hr. rewrite Vd by exact Hr. unfold ofInts, globalIDs. rewrite !map_map. apply map_ext_in. intros v Hv. specialize (I3 r v Hr Hv). lia.
Qed.
End DECIDED.
Theorem received_all : exists p, all_end n (fun r => computeReceived n r N direct (extra r) (m r)) p /\ received_parts n N m extra p.
Proof.
  destruct (decideOwners_ok N (taggers m n) _ ab_ok (fun id => ab_zero (Z.of_nat id))) as (l & g & E & K & S0 & _ & W).
  exists (partR l). split; [apply (received_ends l g); auto|apply (received_ok l g); auto].
Qed.
End RECV.
