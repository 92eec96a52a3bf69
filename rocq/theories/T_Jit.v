(** C79: reading and writing at coordinates given with the call. *)
From Coq Require Import ZArith QArith Qabs Bool List Arith Lia Lqa Qfield.
From Verif Require Import M_Mesh M_Quad M_Map S_Mesh S_Map P_Bary P_Map P_MapFind P_MapTop M_Jit S_Jit P_Jit T_Map T_Gradient.
Import ListNotations.
Open Scope nat_scope.

Section History.
Variables (cv : mesh -> list Q -> nat) (inside : mesh -> list Q -> list nat) (kernel : Q -> Q) (radius : Q).
Variables (dims : nat) (substeps : bool).
Variable readAt : mesh -> list (list Q) -> list Q -> option (list Q).
Variable writeAt : mesh -> list (list Q) -> list Q -> list Q -> option (list Q).
Variables (m : mesh) (max : Q) (wave : Q -> list Q) (l : list op) (s : state).
Hypothesis Hcv : nearestSearches cv.
Hypothesis Hin : withinSearches inside radius.
Hypothesis Hk : forall a b, (a == b)%Q -> (kernel a == kernel b)%Q.
Hypothesis Hm : wf_mesh m.
Hypothesis Hwave : forall t, sized dims m (wave t).
Hypothesis Hl : saneAll dims (start m wave) l.
Notation p := (after (start m wave) l).

(** Reading gives for each of the coordinates the value of a nearest vertex of the mesh
    as it was received last, sampled from the data as it was received last at the
    requested time, or at a time read before in this window that differs by at most 1e-14. *)
Theorem C79_read : writeAt = nnWriteAt cv dims \/ writeAt = cgWriteAt inside kernel dims ->
  doOps dims substeps (nnReadAt cv dims) writeAt (initialized dims m max wave) l = Some s ->
  forall relative coordinates s' out, coordinatesOk (p_mesh p) coordinates ->
  mapAndReadData (nnReadAt cv dims) s relative coordinates = Some (s', out) ->
  length out = length coordinates * dims /\
  exists t, (Qabs (t - (p_time p + relative)) <= 1 # 100000000000000)%Q /\ (t = (p_time p + relative)%Q \/ In t (p_reads p)) /\
  forall i x, nth_error coordinates i = Some x ->
  exists j, nearest (p_mesh p) x j /\ forall d, d < dims -> val dims out i d = val dims (p_wave p t) j d.
Proof.
  intros W E relative coordinates s' out C R.
  assert (LW : exists share, linearWrite dims writeAt share).
  { destruct W as [->| ->]; [exists (nnShare cv); apply nn_linear; exact Hcv|exists (cgShare kernel radius); apply cg_linear; assumption]. }
  destruct LW as (share & LW). assert (IV := inv_run dims substeps (nnReadAt cv dims) writeAt share LW l _ _ s (inv_start dims share m max wave Hm Hwave) Hl E).
  unfold mapAndReadData in R. destruct (negb (jitSmallerEquals relative (s_max s))); [discriminate|]. destruct (Qle_bool 0 relative) eqn:RE; cbn [negb] in R; [|discriminate].
  destruct (isNil (m_verts (s_mesh s))) eqn:NE; [discriminate|]. apply nil_false in NE. destruct coordinates as [|x0 r].
  - injection R as <- <-. split; [reflexivity|]. exists (p_time p + relative)%Q. split; [setoid_replace (p_time p + relative - (p_time p + relative))%Q with 0%Q by ring; discriminate|].
    split; [left; reflexivity|]. intros [|i] x X; discriminate.
  - cbn [isNil] in R. assert (IV' := IV). destruct IV' as (I1 & I2 & I3 & I4 & I5 & I6 & _). apply Qle_bool_iff in RE. assert (P : (0 <= s_time s + relative)%Q) by (rewrite I2; lra).
    destruct (read_cache dims (nnReadAt cv dims) share p s _ _ _ _ IV P R) as (t & T1 & T2 & _ & _ & T5 & _). rewrite I1 in NE. rewrite I2 in T1, T2.
    destruct (nn_read cv dims (p_mesh p) (x0 :: r) (p_wave p t) Hcv I4 NE C (I6 t)) as (out' & E' & L & V). assert (out' = out) as -> by congruence.
    split; [exact L|]. exists t. split; [exact T1|]. split; [exact T2|exact V].
Qed.

(** What advance stores for the partner: the time and, if the mesh was not exchanged, for
    each vertex and component the sum of what was written since the last step at all
    coordinates that are mapped to this vertex, which is nearest to them. *)
Theorem C79_write : doOps dims substeps readAt (nnWriteAt cv dims) (initialized dims m max wave) l = Some s ->
  forall a, a_remesh a = None ->
  (a_atEnd a || substeps = false -> s_stored (doAdvance dims substeps s a) = s_stored s) /\
  (a_atEnd a || substeps = true -> exists b, s_stored (doAdvance dims substeps s a) = s_stored s ++ [((p_time p + a_dt a)%Q, b)] /\ sized dims (p_mesh p) b /\
   exists to, (forall i x, nth_error (p_at p) i = Some x -> nearest (p_mesh p) x (to i)) /\
   (forall j d, j < nVertices (p_mesh p) -> d < dims ->
     (val dims b j d == qsum (length (p_at p)) (fun i => if to i =? j then val dims (p_values p) i d else 0))%Q)).
Proof.
  intros E a NR. assert (IV := inv_run dims substeps readAt (nnWriteAt cv dims) (nnShare cv) (nn_linear cv dims Hcv) l _ _ s (inv_start dims (nnShare cv) m max wave Hm Hwave) Hl E).
  destruct IV as (I1 & I2 & I3 & I4 & I5 & I6 & I7 & I8 & I9 & I10 & I11 & I12). unfold doAdvance. rewrite NR.
  replace (if a_atEnd a then s else s) with s by (destruct (a_atEnd a); reflexivity).
  assert (ES : s_stored (handleDataAfterAdvance (handleDataBeforeAdvance substeps s (a_atEnd a) (s_time s + a_dt a)%Q) a) = if a_atEnd a || substeps then s_stored s ++ [((s_time s + a_dt a)%Q, s_buffer s)] else s_stored s).
  { unfold handleDataAfterAdvance, handleDataBeforeAdvance. destruct (a_atEnd a); reflexivity. }
  rewrite ES, I2. split; intros H; rewrite H; [reflexivity|]. exists (s_buffer s). split; [reflexivity|]. split; [exact I11|].
  exists (fun i => cv (p_mesh p) (nth i (p_at p) [])). split.
  - intros i x X. destruct I9 as (C & NE). rewrite (nth_error_nth _ _ [] X). apply Hcv; [|apply NE; intros N; rewrite N in X; destruct i; discriminate]. unfold coordinatesOk in C. rewrite Forall_forall in C. apply C. eapply nth_error_In; eauto.
  - intros j d J D. rewrite (I12 j d J D). apply qsum_ext. intros i I. unfold nnShare. destruct (_ =? j); ring.
Qed.
(** Nothing of it is lost: the sum over the vertices is the sum of what was written. *)
Theorem C79_write_total : doOps dims substeps readAt (nnWriteAt cv dims) (initialized dims m max wave) l = Some s ->
  forall a b, a_remesh a = None -> s_stored (doAdvance dims substeps s a) = s_stored s ++ [b] ->
  forall d, d < dims -> (qsum (nVertices (p_mesh p)) (fun j => val dims (snd b) j d) == qsum (length (p_at p)) (fun i => val dims (p_values p) i d))%Q.
Proof.
  intros E a b NR EB d D. destruct (C79_write E a NR) as (W1 & W2). destruct (a_atEnd a || substeps).
  - destruct (W2 eq_refl) as (b0 & E0 & _ & to & N & V). rewrite EB in E0. apply app_inj_tail in E0. destruct E0 as (_ & ->). cbn [snd].
    rewrite (qsum_ext _ _ _ (fun j J => V j d J D)). apply swap_sum. intros i I. destruct (nth_error (p_at p) i) as [x|] eqn:X; [|apply nth_error_None in X; lia]. apply (N i x X).
  - rewrite (W1 eq_refl) in EB. exfalso. apply (f_equal (@length _)) in EB. rewrite app_length in EB. cbn in EB. lia.
Qed.

(** With coarse graining each value goes, weighted by the function, to all vertices that
    are closer than the radius of the function. *)
Theorem C79_coarse_graining : doOps dims substeps readAt (cgWriteAt inside kernel dims) (initialized dims m max wave) l = Some s ->
  forall a, a_remesh a = None ->
  (a_atEnd a || substeps = false -> s_stored (doAdvance dims substeps s a) = s_stored s) /\
  (a_atEnd a || substeps = true -> exists b, s_stored (doAdvance dims substeps s a) = s_stored s ++ [((p_time p + a_dt a)%Q, b)] /\ sized dims (p_mesh p) b /\
   forall j d, j < nVertices (p_mesh p) -> d < dims ->
     (val dims b j d == qsum (length (p_at p)) (fun i =>
        let r := sqdist (m_dim (p_mesh p)) (position (p_mesh p) j) (nth i (p_at p) []) in
        if Qle_bool (radius * radius) r then 0 else kernel r * val dims (p_values p) i d))%Q).
Proof.
  intros E a NR. assert (IV := inv_run dims substeps readAt (cgWriteAt inside kernel dims) (cgShare kernel radius) (cg_linear inside kernel radius Hin Hk dims) l _ _ s (inv_start dims (cgShare kernel radius) m max wave Hm Hwave) Hl E).
  destruct IV as (I1 & I2 & I3 & I4 & I5 & I6 & I7 & I8 & I9 & I10 & I11 & I12). unfold doAdvance. rewrite NR.
  replace (if a_atEnd a then s else s) with s by (destruct (a_atEnd a); reflexivity).
  assert (ES : s_stored (handleDataAfterAdvance (handleDataBeforeAdvance substeps s (a_atEnd a) (s_time s + a_dt a)%Q) a) = if a_atEnd a || substeps then s_stored s ++ [((s_time s + a_dt a)%Q, s_buffer s)] else s_stored s).
  { unfold handleDataAfterAdvance, handleDataBeforeAdvance. destruct (a_atEnd a); reflexivity. }
  rewrite ES, I2. split; intros H; rewrite H; [reflexivity|]. exists (s_buffer s). split; [reflexivity|]. split; [exact I11|].
  intros j d J D. rewrite (I12 j d J D). apply qsum_ext. intros i I. unfold cgShare. cbv zeta. destruct (Qle_bool _ _); ring.
Qed.

(** Which calls are refused. *)
Theorem C79_accepted : writeAt = nnWriteAt cv dims \/ writeAt = cgWriteAt inside kernel dims ->
  doOps dims substeps (nnReadAt cv dims) writeAt (initialized dims m max wave) l = Some s ->
  forall coordinates, coordinatesOk (p_mesh p) coordinates ->
  (forall relative, mapAndReadData (nnReadAt cv dims) s relative coordinates <> None <->
     (0 <= relative <= lastMax max l + (1 # 100000000000000))%Q /\ m_verts (p_mesh p) <> []) /\
  (forall values, writeAndMapData dims writeAt s coordinates values <> None <->
     length values = length coordinates * dims /\ (m_verts (p_mesh p) <> [] \/ (coordinates = [] /\ values = []))).
Proof.
  intros W E coordinates C.
  assert (LW : exists share, linearWrite dims writeAt share).
  { destruct W as [->| ->]; [exists (nnShare cv); apply nn_linear; exact Hcv|exists (cgShare kernel radius); apply cg_linear; assumption]. }
  destruct LW as (share & LW). assert (IV := inv_run dims substeps (nnReadAt cv dims) writeAt share LW l _ _ s (inv_start dims share m max wave Hm Hwave) Hl E).
  assert (MX := max_run dims substeps (nnReadAt cv dims) writeAt l _ _ E). cbn [initialized s_max] in MX.
  destruct IV as (I1 & I2 & I3 & I4 & I5 & I6 & I7 & I8 & I9 & I10 & I11 & I12). split.
  - intros relative. unfold mapAndReadData, jitSmallerEquals. rewrite MX, I1. destruct (Qle_bool relative (lastMax max l + jitEps)) eqn:R1; cbn [negb].
    2:{ split; [congruence|]. intros ((_ & H) & _). apply Qle_bool_iff in H. change (1 # 100000000000000)%Q with jitEps in H. congruence. }
    destruct (Qle_bool 0 relative) eqn:R2; cbn [negb].
    2:{ split; [congruence|]. intros ((H & _) & _). apply Qle_bool_iff in H. congruence. }
    apply Qle_bool_iff in R1, R2. destruct (isNil (m_verts (p_mesh p))) eqn:NE.
    { split; [congruence|]. intros (_ & H). destruct (m_verts (p_mesh p)); [congruence|discriminate]. }
    apply nil_false in NE. split; [intros _; auto|intros _]. destruct coordinates as [|x0 r]; cbn [isNil]; [congruence|].
    unfold mapAndReadValues. destruct (jitEquals _ _) eqn:EQ; cbn [s_mesh s_cache]; rewrite I1.
    + destruct I8 as [X|(X & ->)].
      { exfalso. unfold jitEquals in EQ. apply Qle_bool_iff in EQ. rewrite X in EQ. apply Qabs_Qle_condition in EQ. destruct EQ as (EQ & _). assert (jitEps < 1)%Q by reflexivity. rewrite I2 in EQ. lra. }
      destruct (nn_read cv dims (p_mesh p) (x0 :: r) (p_wave p (s_cacheTime s)) Hcv I4 NE C (I6 _)) as (out & -> & _). congruence.
    + rewrite I3. destruct (nn_read cv dims (p_mesh p) (x0 :: r) (p_wave p (s_time s + relative)%Q) Hcv I4 NE C (I6 _)) as (out & -> & _). congruence.
  - intros values. unfold writeAndMapData. destruct (isNil coordinates && isNil values) eqn:NI.
    { destruct coordinates, values; try discriminate. split; [intros _; split; auto|congruence]. }
    destruct (Nat.eqb_spec (length coordinates * dims) (length values)) as [L|L]; cbn [negb]; [|split; [congruence|intros (H & _); congruence]]. rewrite I1.
    destruct (isNil (m_verts (p_mesh p))) eqn:NE.
    { split; [congruence|]. intros (_ & [H|(-> & ->)]); [destruct (m_verts (p_mesh p)); [congruence|discriminate]|discriminate]. }
    apply nil_false in NE. destruct (LW (p_mesh p) coordinates values (s_buffer s) I4 NE C (eq_sym L) I11) as (b & -> & _). split; [auto|congruence].
Qed.
End History.
Print Assumptions C79_read.
Print Assumptions C79_write.
Print Assumptions C79_write_total.
Print Assumptions C79_coarse_graining.
Print Assumptions C79_accepted.

(** * What does not hold *)
(** Data written in the last step of a window in which meshes are exchanged again does not
    reach the partner, even if this mesh did not change: zeros are stored. *)
Theorem C79_remesh_refuted : forall dims substeps s a m',
  a_atEnd a = true -> a_remesh a = Some m' ->
  s_stored (doAdvance dims substeps s a) = s_stored s ++ [((s_time s + a_dt a)%Q, repeat 0%Q (nVertices m' * dims))].
Proof. intros dims substeps s a m' E R. unfold doAdvance, handleDataAfterAdvance, handleDataBeforeAdvance. rewrite E, R. reflexivity. Qed.
Print Assumptions C79_remesh_refuted.

Definition within (radius : Q) (m : mesh) (u : list Q) : list nat :=
  filter (fun j => negb (Qle_bool (radius * radius) (sqdist (m_dim m) (position m j) u))) (seq 0 (nVertices m)).
Lemma within_ok radius : withinSearches (within radius) radius.
Proof.
  intros m u. split; [apply NoDup_filter, seq_NoDup|]. intros j. unfold within. rewrite filter_In, in_seq, negb_true_iff. split; intros (A & B).
  - split; [lia|]. apply Qnot_le_lt. intros H. apply Qle_bool_iff in H. congruence.
  - split; [lia|]. apply not_true_is_false. intros H. apply Qle_bool_iff in H. apply (Qlt_not_le _ _ B H).
Qed.
Lemma closest_searches : nearestSearches closest.
Proof. intros m u L NE. apply closest_ok; assumption. Qed.

(** Coarse graining has the constraint conservative, but whatever the function and its
    radius, values can be lost. *)
Theorem C79_coarse_graining_total_refuted : forall inside kernel radius, withinSearches inside radius ->
  (forall a b, (a == b)%Q -> (kernel a == kernel b)%Q) ->
  exists m x wave s a b, wf_mesh m /\ saneAll 1 (start m wave) [Write [x] [1%Q]; Advance a] /\
  doOps 1 false cgReadAt (cgWriteAt inside kernel 1) (initialized 1 m 1 wave) [Write [x] [1%Q]; Advance a] = Some s /\
  s_stored s = [(1%Q, b)] /\ (qsum (nVertices m) (fun j => val 1 b j 0) == 0)%Q.
Proof.
  intros inside kernel radius Hin Hk. set (R := (1 + Qabs radius)%Q).
  set (m := MkMesh 2 [MkVertex [0%Q; 0%Q] (-1) true false] [] [] []). set (wave := fun _ : Q => [0%Q]).
  set (a := AD 1 true 1 1 wave None).
  assert (Wm : wf_mesh m). { constructor; cbn; try tauto. intros v [<-|[]]. reflexivity. }
  assert (SW : forall t, sized 1 m (wave t)) by (intros t; reflexivity).
  assert (C : coordinatesOk m [[R; 0%Q]]) by (constructor; [reflexivity|constructor]).
  destruct (cg_linear inside kernel radius Hin Hk 1 m [[R; 0%Q]] [1%Q] (zeroBuffer 1 m) Wm) as (b & EB & SB & VB); [discriminate|exact C|reflexivity|reflexivity|].
  set (s1 := ST m 0 1 wave (-1) [] b []).
  assert (E1 : writeAndMapData 1 (cgWriteAt inside kernel 1) (initialized 1 m 1 wave) [[R; 0%Q]] [1%Q] = Some s1).
  { unfold writeAndMapData. cbn [isNil andb length Nat.mul Nat.add Nat.eqb negb initialized s_mesh m_verts m s_buffer]. fold m. rewrite EB. reflexivity. }
  exists m, [R; 0%Q], wave, (doAdvance 1 false s1 a), a, b.
  split; [exact Wm|]. split; [|split; [|split]].
  - cbn [saneAll sane]. split; [exact C|]. split; [|exact I]. split; [discriminate|]. split; [discriminate|]. split; [exact Wm|]. intros _ t. reflexivity.
  - cbn [doOps doOp]. rewrite E1. reflexivity.
  - reflexivity.
  - cbn [nVertices m m_verts length qsum]. rewrite (VB 0 0) by (cbn; lia). cbn [length qsum nth]. unfold cgShare.
    assert (D : (radius * radius <= sqdist (m_dim m) (position m 0) [R; 0])%Q).
    { unfold sqdist, m. cbn [m_dim position m_verts nth_error v_coords qsum nth]. unfold R. assert (B := Qabs_nonneg radius). assert (EQ : (Qabs radius * Qabs radius == radius * radius)%Q).
      { rewrite <- Qabs_Qmult. apply Qabs_pos. nra. } nra. }
    apply Qle_bool_iff in D. rewrite D. unfold val at 1. cbn. reflexivity.
Qed.
Print Assumptions C79_coarse_graining_total_refuted.

(** * An example *)
Definition strip : mesh := MkMesh 2 [MkVertex [0%Q; 0%Q] (-1) true false; MkVertex [2%Q; 0%Q] (-1) true false; MkVertex [4%Q; 1%Q] (-1) true false] [] [] [].
Definition rising (t : Q) : list Q := [t; (t + 10)%Q; (2 * t + 20)%Q].
Definition later (t : Q) : list Q := [(t + 100)%Q; (t + 110)%Q; (t + 120)%Q].
Definition steps : list op :=
  [Read 1 [[1 # 2; 0%Q]; [3%Q; 1%Q]]; Write [[1 # 2; 0%Q]; [4%Q; 4%Q]] [5%Q; 7%Q]; Read (1 + (1 # 1000000000000000)) [[2%Q; 2%Q]]; Write [[4%Q; 0%Q]] [1%Q];
   Advance (AD 1 false 1 1 rising None); Write [[0%Q; 1%Q]; [0%Q; 2%Q]] [3%Q; 4%Q]; Read 0 [[4%Q; 1%Q]]; Advance (AD 1 true 2 2 later None)].
Lemma strip_ok : wf_mesh strip.
Proof. constructor; cbn; try tauto. intros v [<-|[<-|[<-|[]]]]; reflexivity. Qed.
Example steps_sane : (forall t, sized 1 strip (rising t)) /\ saneAll 1 (start strip rising) steps.
Proof.
  split; [intros t; reflexivity|]. cbn [saneAll steps sane]. unfold coordinatesOk.
  repeat match goal with
  | |- _ /\ _ => split
  | |- Forall _ _ => repeat constructor
  | |- wf_mesh _ => exact strip_ok
  | |- _ => first [exact I|discriminate|reflexivity|intros _ t; reflexivity|intros X; discriminate]
  end.
Qed.
Definition sampleEq (a b : list (Q * list Q)) : bool :=
  (length a =? length b) && forallb (fun x => Qeq_bool (fst (fst x)) (fst (snd x)) && (length (snd (fst x)) =? length (snd (snd x))) &&
    forallb (fun y => Qeq_bool (fst y) (snd y)) (combine (snd (fst x)) (snd (snd x)))) (combine a b).
(** the sums of two writes in a step; what the first step wrote is not in the second sample *)
Example steps_stored :
  match doOps 1 true (nnReadAt closest 1) (nnWriteAt closest 1) (initialized 1 strip 2 rising) steps with
  | Some s => sampleEq (s_stored s) [(1%Q, [5%Q; 0%Q; 8%Q]); (2%Q, [7%Q; 0%Q; 0%Q])]
  | None => false
  end = true.
Proof. vm_compute. reflexivity. Qed.
(** without substeps only the last step of the window counts *)
Example steps_without_substeps :
  match doOps 1 false (nnReadAt closest 1) (nnWriteAt closest 1) (initialized 1 strip 2 rising) steps with
  | Some s => sampleEq (s_stored s) [(2%Q, [7%Q; 0%Q; 0%Q])]
  | None => false
  end = true.
Proof. vm_compute. reflexivity. Qed.
(** reading: at the time asked for, from the cache at nearly the same time, and from the
    newly received data in the next window, at the same time and coordinates *)
Definition readAfter (l : list op) (relative : Q) (coordinates : list (list Q)) : list (Q * list Q) :=
  match doOps 1 true (nnReadAt closest 1) (nnWriteAt closest 1) (initialized 1 strip 2 rising) l with
  | Some s => match mapAndReadData (nnReadAt closest 1) s relative coordinates with Some (_, out) => [(0%Q, out)] | None => [] end
  | None => []
  end.
Example steps_read :
  sampleEq (readAfter [] 1 [[1 # 2; 0%Q]; [3%Q; 1%Q]]) [(0%Q, [1%Q; 22%Q])] = true /\
  sampleEq (readAfter (firstn 1 steps) (1 + (1 # 1000000000000000)) [[2%Q; 2%Q]]) [(0%Q, [11%Q])] = true /\
  sampleEq (readAfter (firstn 1 steps) (1 # 2) [[2%Q; 2%Q]]) [(0%Q, [21 # 2])] = true /\
  sampleEq (readAfter steps 0 [[2%Q; 2%Q]]) [(0%Q, [112%Q])] = true.
Proof. vm_compute. repeat split. Qed.
(** coarse graining onto the vertices within a radius of 3 *)
Definition linearKernel (r : Q) : Q := (9 - r)%Q.
Example steps_coarse_graining :
  match doOps 1 false (nnReadAt closest 1) (cgWriteAt (within 3) linearKernel 1) (initialized 1 strip 2 rising) (firstn 2 steps ++ [Advance (AD 2 true 2 2 later None)]) with
  | Some s => sampleEq (s_stored s) [(2%Q, [175 # 4; 135 # 4; 0%Q])]
  | None => false
  end = true.
Proof. vm_compute. reflexivity. Qed.
(** the same with the mesh exchanged at the end of the window *)
Example steps_remesh :
  match doOps 1 false (nnReadAt closest 1) (nnWriteAt closest 1) (initialized 1 strip 2 rising) (firstn 2 steps ++ [Advance (AD 2 true 2 2 later (Some strip))]) with
  | Some s => sampleEq (s_stored s) [(2%Q, [0%Q; 0%Q; 0%Q])]
  | None => false
  end = true.
Proof. vm_compute. reflexivity. Qed.
