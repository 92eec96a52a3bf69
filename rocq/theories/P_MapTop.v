(** Whole mappings: proofs. *)
From Coq Require Import ZArith QArith Bool List Arith Lia Lqa Qfield.
From Verif Require Import M_Mesh M_Prep M_Box M_Quad M_Map S_Mesh S_Map P_Bary P_Map P_MapFind.
Import ListNotations.
Open Scope nat_scope.

Lemma nonempty_verts m : nVertices m > 0 -> m_verts m <> [].
Proof. unfold nVertices. destruct (m_verts m); cbn; [lia|discriminate]. Qed.
Lemma nonempty_true m : nVertices m > 0 -> nonempty (m_verts m) = true.
Proof. unfold nVertices. destruct (m_verts m); cbn; [lia|reflexivity]. Qed.
Lemma position_nth m i : i < nVertices m -> exists v, nth_error (m_verts m) i = Some v /\ position m i = v_coords v.
Proof.
  intro L. unfold position. destruct (nth_error (m_verts m) i) as [v|] eqn:E; [eauto|].
  apply nth_error_None in E. unfold nVertices in L. lia.
Qed.

(** * Nearest neighbour *)
Lemma indices_ok s o cv : wf_mesh o -> m_dim o = m_dim s -> (nVertices s > 0 \/ nVertices o = 0) ->
  (forall u, length u = m_dim s -> m_verts s <> [] -> nearest s u (cv u)) ->
  exists l, vertexIndices (getClosestVertex cv s) (m_verts o) = Some l /\ length l = nVertices o /\
  forall k, k < nVertices o -> exists j, nth_error l k = Some j /\ nearest s (position o k) j.
Proof.
  intros W D NE C.
  destruct (vertexIndices_some (getClosestVertex cv s) (m_verts o)) as (l & E).
  { intros v I. assert (nVertices o > 0) by (unfold nVertices; destruct (m_verts o); [destruct I|cbn; lia]).
    unfold getClosestVertex. rewrite nonempty_true by lia. discriminate. }
  exists l. split; auto. destruct (vertexIndices_spec _ _ _ E) as (L & N). split; auto. intros k K.
  destruct (position_nth o k K) as (v & EV & ->). destruct (N k v EV) as (j & EJ & CJ). exists j. split; auto.
  assert (NS : nVertices s > 0) by lia. unfold getClosestVertex in CJ. rewrite nonempty_true in CJ by lia. injection CJ as <-.
  apply C; [|apply nonempty_verts; lia]. rewrite <- D. apply (wm_coords o W). eapply nth_error_In; eauto.
Qed.

Lemma nnConsistent_ok s o cv dims inp : wf_mesh o -> m_dim o = m_dim s -> (nVertices s > 0 \/ nVertices o = 0) ->
  (forall u, length u = m_dim s -> m_verts s <> [] -> nearest s u (cv u)) -> sized dims s inp ->
  exists l out, vertexIndices (getClosestVertex cv s) (m_verts o) = Some l /\
  nnConsistent dims 0 l inp (zeros dims o) = Some out /\ sized dims o out /\
  forall i, i < nVertices o -> exists j, nearest s (position o i) j /\ forall d, d < dims -> val dims out i d = val dims inp j d.
Proof.
  intros W D NE C SI. destruct (indices_ok s o cv W D NE C) as (l & E & L & N).
  assert (FB : Forall (fun j => j * dims + dims <= length inp) l).
  { apply Forall_forall. intros j J. apply In_nth_error in J. destruct J as (k & J).
    assert (K : k < nVertices o). { rewrite <- L. apply nth_error_Some. congruence. }
    destruct (N k K) as (j' & J' & NJ & _). assert (j' = j) as -> by congruence.
    apply (seg_room (nVertices s)); auto. }
  destruct (nnConsistent_spec dims (nVertices o) inp l 0 (zeros dims o) FB) as (out & E' & L' & V).
  { apply sized_zeros. } { lia. }
  exists l, out. split; auto. split; auto. split. { unfold sized. rewrite L'. apply sized_zeros. }
  intros i I. destruct (N i I) as (j & J & NJ). exists j. split; auto. intros d DD. rewrite (V i d DD).
  replace (i <? 0) with false by (symmetry; apply Nat.ltb_ge; lia). rewrite Nat.sub_0_r, J. reflexivity.
Qed.

Lemma nnConservative_ok s o cv dims inp out0 : wf_mesh o -> m_dim o = m_dim s -> (nVertices s > 0 \/ nVertices o = 0) ->
  (forall u, length u = m_dim s -> m_verts s <> [] -> nearest s u (cv u)) -> sized dims o inp -> sized dims s out0 ->
  exists l out, vertexIndices (getClosestVertex cv s) (m_verts o) = Some l /\
  nnConservative dims 0 l inp out0 = Some out /\ sized dims s out /\
  (forall i, i < nVertices o -> nearest s (position o i) (nth i l 0)) /\
  forall j d, d < dims -> (val dims out j d == val dims out0 j d +
    qsum (nVertices o) (fun i => if nth i l 0%nat =? j then val dims inp i d else 0))%Q.
Proof.
  intros W D NE C SI SO. destruct (indices_ok s o cv W D NE C) as (l & E & L & N).
  assert (FB : Forall (fun j => j < nVertices s) l).
  { apply Forall_forall. intros j J. apply In_nth_error in J. destruct J as (k & J).
    assert (K : k < nVertices o). { rewrite <- L. apply nth_error_Some. congruence. }
    destruct (N k K) as (j' & J' & NJ & _). congruence. }
  destruct (nnConservative_spec dims (nVertices s) inp l 0 out0 FB SO) as (out & E' & L' & V).
  { rewrite L. unfold sized in SI. lia. }
  exists l, out. split; auto. split; auto. split; [unfold sized in *; lia|]. split.
  - intros i I. destruct (N i I) as (j & J & NJ). rewrite (nth_error_nth _ _ _ J). exact NJ.
  - intros j d DD. rewrite (V j d DD), L. reflexivity.
Qed.

(** * Barycentric mappings *)
Section Bary.
Variable eps : Q.
Hypothesis Heps : (0 <= eps)%Q.

Section Find.
Variables (s o : mesh) (find : list Q -> option polation).
Hypotheses (Ws : wf_mesh s) (Wo : wf_mesh o) (Do : m_dim o = m_dim s) (NE : nVertices s > 0 \/ nVertices o = 0).
Hypothesis F : forall u, length u = m_dim s -> m_verts s <> [] -> exists p, find u = Some p /\ pol_ok eps s u p.

Lemma pols_ok : exists pols, length pols = nVertices o /\
  collect eps find 0 (m_verts o) =
    Some (concat (map (fun kp => addPolation eps (fst kp) (snd kp)) (combine (seq 0 (length pols)) pols))) /\
  forall k, k < nVertices o -> find (position o k) = Some (nth k pols dflt) /\ pol_ok eps s (position o k) (nth k pols dflt).
Proof.
  assert (FV : forall v, In v (m_verts o) -> exists p, find (v_coords v) = Some p /\ pol_ok eps s (v_coords v) p).
  { intros v I. apply F; [rewrite <- Do; apply (wm_coords o Wo); auto|].
    apply nonempty_verts. assert (nVertices o > 0) by (unfold nVertices; destruct (m_verts o); [destruct I|cbn; lia]). lia. }
  destruct (collect_some eps find (m_verts o) 0) as (ops & E).
  { intros v I. destruct (FV v I) as (p & -> & _). discriminate. }
  destruct (collect_spec eps find _ _ _ E) as (pols & L & N & EO). exists pols. split; [exact L|]. split; [rewrite E, EO, L; reflexivity|].
  intros k K. destruct (position_nth o k K) as (v & EV & ->). assert (A := N k v EV). split; auto.
  destruct (FV v (nth_error_In _ _ EV)) as (p & EP & PO). rewrite A in EP. injection EP as <-. exact PO.
Qed.

Variable dims : nat.
Hypothesis KD : 1 <= dims <= 3.
Lemma known : knownDims dims = true.
Proof. unfold knownDims. apply andb_true_intro. split; apply Nat.leb_le; lia. Qed.

Lemma rows : exists pols, length pols = nVertices o /\
  (forall k, k < nVertices o -> find (position o k) = Some (nth k pols dflt) /\ pol_ok eps s (position o k) (nth k pols dflt)) /\
  exists ops, collect eps find 0 (m_verts o) = Some ops /\
  (forall x, sized dims s x -> exists out, baryConsistent dims ops x (zeros dims o) = Some out /\ sized dims o out /\
     forall k d, k < nVertices o -> d < dims -> (val dims out k d == rowsum eps (nth k pols dflt) (fun v => val dims x v d))%Q) /\
  (forall y, sized dims o y -> exists out, baryConservative dims (sortOps ops) y (zeros dims s) = Some out /\ sized dims s out /\
     forall g d, d < dims -> (qsum (nVertices s) (fun j => g j * val dims out j d) ==
       qsum (nVertices o) (fun k => rowsum eps (nth k pols dflt) g * val dims y k d))%Q).
Proof.
  destruct pols_ok as (pols & L & E & N). exists pols. split; auto. split; auto. eexists. split; [exact E|].
  assert (R : forall k we, k < nVertices o -> In we (p_elems (nth k pols dflt)) -> fst we < nVertices s).
  { intros k we K W. destruct (N k K) as (_ & PO). apply (po_in _ _ _ _ PO). exact W. }
  split.
  - intros x X. destruct (consistent_rows eps (nVertices s) (nVertices o) dims known pols x (zeros dims o) X (sized_zeros _ _) L R) as (out & EO & LO & V).
    exists out. split; auto. split; [unfold sized; rewrite LO; apply sized_zeros|].
    intros k d K D. rewrite (V k d K D), val_zeros. ring.
  - intros y Y. destruct (conservative_rows eps (nVertices o) (nVertices s) dims known pols y (zeros dims s) Y (sized_zeros _ _) L R) as (out & EO & LO & V).
    exists out. split; auto. split; [unfold sized; rewrite LO; apply sized_zeros|].
    intros g d D. rewrite (V g d D). rewrite (qsum_ext _ (fun j => g j * val dims (zeros dims s) j d)%Q (fun _ => 0)%Q).
    + rewrite qsum_zero. ring.
    + intros j J. rewrite val_zeros. ring.
Qed.
End Find.

Lemma linear_comb n c g : forall es (pos : nat -> list Q), (total (map snd es) == 1)%Q ->
  (total (map (fun we : nat * Q => snd we * linear n c g (pos (fst we))) es) ==
   linear n c g (combination n (map snd es) (map (fun we => pos (fst we)) es)))%Q.
Proof.
  intros es pos S.
  assert (A : (total (map (fun we : nat * Q => snd we * linear n c g (pos (fst we))) es) ==
     c * total (map snd es) + qsum n (fun k => nth k g 0 * combo (map snd es) (map (fun we => pos (fst we)) es) k))%Q).
  { clear S. induction es as [|[v w] es IH].
    - cbn [map]. rewrite (qsum_ext n _ (fun _ => 0)%Q) by (intros; unfold combo; cbn; ring). rewrite qsum_zero. cbn. ring.
    - cbn [map fst snd]. rewrite !total_cons, IH.
      rewrite (qsum_ext n (fun k => nth k g 0 * combo (w :: map snd es) (pos v :: map (fun we => pos (fst we)) es) k)%Q
        (fun k => w * (nth k g 0 * nth k (pos v) 0) + nth k g 0 * combo (map snd es) (map (fun we => pos (fst we)) es) k)%Q).
      + rewrite qsum_lin. unfold linear. ring.
      + intros k K. unfold combo. cbn [combine map fst snd]. rewrite total_cons. ring. }
  rewrite A, S. unfold linear. rewrite (qsum_ext n (fun k => nth k g 0 * nth k (combination _ _ _) 0)%Q
     (fun k => nth k g 0 * combo (map snd es) (map (fun we => pos (fst we)) es) k)%Q).
  - ring.
  - intros k K. rewrite nth_combination by auto. reflexivity.
Qed.
End Bary.

(** * Scaling *)
Lemma scaleValues_nth dims f : forall v k n, (nth n (scaleValues dims f k v) 0 == nth n v 0 * nth ((k + n) mod dims) f 1)%Q.
Proof.
  induction v as [|x v IH]; intros k n; cbn [scaleValues].
  - destruct n; cbn; ring.
  - destruct n as [|n]; cbn [nth]; [rewrite Nat.add_0_r; reflexivity|].
    rewrite IH. replace (S k + n) with (k + S n) by lia. reflexivity.
Qed.
Lemma scaleValues_length dims f : forall v k, length (scaleValues dims f k v) = length v.
Proof. induction v as [|x v IH]; intro k; cbn; auto. Qed.
Lemma scaleValues_val dims f v i d : d < dims -> (val dims (scaleValues dims f 0 v) i d == val dims v i d * nth d f 1)%Q.
Proof.
  intro D. unfold val. rewrite scaleValues_nth. cbn [Nat.add].
  replace ((i * dims + d) mod dims) with d; [reflexivity|].
  rewrite Nat.add_comm, Nat.mod_add by lia. symmetry. apply Nat.mod_small. exact D.
Qed.

Lemma fold_acc {A} (h : A -> Q) : forall l acc, (fold_left (fun a e => a + h e) l acc == acc + total (map h l))%Q.
Proof.
  induction l as [|x l IH]; intro acc; cbn [fold_left map]; [unfold total; cbn; ring|].
  rewrite IH, total_cons. ring.
Qed.
Lemma edges_integral len dims d v l : (integrateEdges len dims d v l == integral len corners2 l (fun i => val dims v i d))%Q.
Proof.
  unfold integrateEdges, integral. rewrite fold_acc. rewrite Qplus_0_l. apply total_map_ext. intros [a b] _.
  unfold mean, at_, val. cbn [corners2 map length fst snd]. rewrite total2. change (inject_Z (Z.of_nat 2)) with 2%Q. field.
Qed.
Lemma fold_tri {A} (f g : Q -> A -> Q) : (forall a e, f a e = g a e) -> forall l acc, fold_left f l acc = fold_left g l acc.
Proof. intros H l. induction l as [|x l IH]; intro acc; cbn; auto. rewrite H, IH. reflexivity. Qed.
Lemma tris_integral area dims d v l : (integrateTriangles area dims d v l == integral area corners3 l (fun i => val dims v i d))%Q.
Proof.
  unfold integrateTriangles, integral.
  rewrite (fold_tri _ (fun a t => a + (fun t => let '(v1, v2, v3) := t in area t / 3 * (at_ dims d v v1 + at_ dims d v v2 + at_ dims d v v3)) t)%Q)
    by (intros a [[v1 v2] v3]; reflexivity).
  rewrite fold_acc, Qplus_0_l. apply total_map_ext. intros [[a b] c] _.
  unfold mean, at_, val. cbn [corners3 map length fst snd]. rewrite total3. change (inject_Z (Z.of_nat 3)) with 3%Q. field.
Qed.
Lemma tets_integral vol dims d v l : (integrateTetrahedra vol dims d v l == integral vol corners4 l (fun i => val dims v i d))%Q.
Proof.
  unfold integrateTetrahedra, integral.
  rewrite (fold_tri _ (fun a t => a + (fun t => let '(v1, v2, v3, v4) := t in vol t / 4 * (at_ dims d v v1 + at_ dims d v v2 + at_ dims d v v3 + at_ dims d v v4)) t)%Q)
    by (intros a [[[v1 v2] v3] v4]; reflexivity).
  rewrite fold_acc, Qplus_0_l. apply total_map_ext. intros [[[a b] c] e] _.
  unfold mean, at_, val. cbn [corners4 map length fst snd]. rewrite total4. change (inject_Z (Z.of_nat 4)) with 4%Q. field.
Qed.
Lemma integral_scale {E} measure corners (l : list E) f g c : (forall i, (g i == f i * c)%Q) ->
  (integral measure corners l g == integral measure corners l f * c)%Q.
Proof.
  intro H. unfold integral. rewrite Qmult_comm. rewrite <- total_map_scale. apply total_map_ext. intros e _. unfold mean.
  rewrite !map_length.
  rewrite (total_map_ext g (fun i => c * f i)%Q) by (intros i _; rewrite H; ring). rewrite total_map_scale.
  unfold Qdiv. ring.
Qed.
Section Meas.
Variables (len : mesh -> nat * nat -> Q) (area : mesh -> nat * nat * nat -> Q) (vol : mesh -> nat * nat * nat * nat -> Q).
Definition the_integral (vm : bool) : mesh -> (nat -> Q) -> Q :=
  if vm then volume_integral area vol else surface_integral len area.
Lemma the_integral_scale vm m f g c : (forall i, (g i == f i * c)%Q) -> (the_integral vm m g == the_integral vm m f * c)%Q.
Proof.
  intro H. unfold the_integral, surface_integral, volume_integral. destruct vm; destruct (m_dim m =? 2); apply integral_scale; exact H.
Qed.
Lemma integrals_nth vm m dims v d : sized dims m v -> nVertices m > 0 -> d < dims ->
  (nth d (integrals len area vol vm m v) 0 == the_integral vm m (fun i => val dims v i d))%Q /\
  length (integrals len area vol vm m v) = dims.
Proof.
  intros S NV D. unfold integrals. cbv zeta.
  assert (DD : length v / nVertices m = dims) by (rewrite S, Nat.mul_comm, Nat.div_mul; lia).
  set (q := length v / nVertices m) in *. rewrite DD in *. clear q DD. split; [|rewrite map_length, seq_length; reflexivity].
  set (h := fun d0 => if vm then integrateVolume area vol m dims d0 v else integrateSurface len area m dims d0 v).
  rewrite (nth_indep _ 0%Q (h 0)) by (rewrite map_length, seq_length; exact D).
  rewrite (map_nth h), seq_nth by exact D. cbn [Nat.add]. unfold h, the_integral, integrateVolume, integrateSurface, volume_integral, surface_integral.
  destruct vm; destruct (m_dim m =? 2); auto using edges_integral, tris_integral, tets_integral.
Qed.
Lemma map2_nth {A B} (f : A -> B -> Q) da db : forall l r d, length l = length r -> d < length l ->
  forall z, nth d (map2 f l r) z = f (nth d l da) (nth d r db).
Proof.
  induction l as [|x l IH]; intros [|y r] d L D z; cbn [length] in *; try lia.
  destruct d as [|d]; cbn; auto. apply (IH r d); lia.
Qed.

Lemma scale_ok vm inM outM dims inp out out' : 1 <= dims -> sized dims inM inp -> sized dims outM out ->
  nVertices inM > 0 -> nVertices outM > 0 ->
  scaleConsistentMapping len area vol vm inM outM inp out = Some out' ->
  sized dims outM out' /\ forall d, d < dims -> exists factor,
    (forall i, (val dims out' i d == val dims out i d * factor)%Q) /\
    (~ (the_integral vm outM (fun i => val dims out i d) == 0)%Q ->
       (the_integral vm outM (fun i => val dims out' i d) == the_integral vm inM (fun i => val dims inp i d))%Q) /\
    ((the_integral vm outM (fun i => val dims out i d) == 0)%Q -> factor = 1%Q).
Proof.
  intros D1 SI SO NI NO H. unfold scaleConsistentMapping in H.
  replace (length inp =? 0) with false in H by (symmetry; apply Nat.eqb_neq; unfold sized in SI; nia).
  replace (length out =? 0) with false in H by (symmetry; apply Nat.eqb_neq; unfold sized in SO; nia). cbn [orb] in H.
  destruct (negb _); [discriminate|].
  destruct (length (integrals len area vol vm inM inp) =? length (integrals len area vol vm outM out)) eqn:LE; [|discriminate].
  assert (DD : length inp / nVertices inM = dims) by (rewrite SI, Nat.mul_comm, Nat.div_mul; lia).
  rewrite DD in H. injection H as <-.
  split; [unfold sized in *; rewrite scaleValues_length; exact SO|]. intros d D.
  destruct (integrals_nth vm inM dims inp d SI NI D) as (VI & LI). destruct (integrals_nth vm outM dims out d SO NO D) as (VO & LO).
  set (fs := scalingFactor _ _). exists (nth d fs 1%Q).
  assert (EF : nth d fs 1%Q = let lhs := nth d (integrals len area vol vm inM inp) 0%Q in
                              let rhs := nth d (integrals len area vol vm outM out) 0%Q in
                              if Qeq_bool rhs 0 then 1%Q else (lhs / rhs)%Q).
  { unfold fs, scalingFactor. rewrite (map2_nth _ 0%Q 0%Q) by lia. reflexivity. }
  cbv zeta in EF.
  split; [|split].
  - intro i. apply scaleValues_val. exact D.
  - intro NZ. rewrite (the_integral_scale vm outM (fun i => val dims out i d) _ (nth d fs 1%Q)) by (intro i; apply scaleValues_val; exact D).
    rewrite EF. replace (Qeq_bool _ 0) with false.
    + rewrite VI, VO. field. exact NZ.
    + symmetry. apply Qeq_bool_false. rewrite VO. exact NZ.
  - intro Z. rewrite EF. replace (Qeq_bool _ 0) with true; auto. symmetry. apply Qeq_eq_bool. rewrite VO. exact Z.
Qed.
Lemma scale_some vm inM outM dims inp out : 1 <= dims -> sized dims inM inp -> sized dims outM out ->
  nVertices inM > 0 -> nVertices outM > 0 -> hasConnectivity vm inM = true -> hasConnectivity vm outM = true ->
  exists out', scaleConsistentMapping len area vol vm inM outM inp out = Some out'.
Proof.
  intros D1 SI SO NI NO HI HO. unfold scaleConsistentMapping.
  destruct ((length inp =? 0) || (length out =? 0)); [eauto|]. rewrite HI, HO. cbn [andb negb].
  destruct (integrals_nth vm inM dims inp 0 SI NI) as (_ & LI); [lia|].
  destruct (integrals_nth vm outM dims out 0 SO NO) as (_ & LO); [lia|]. rewrite LI, LO, Nat.eqb_refl. eauto.
Qed.
End Meas.
