(** Theorems about connectivity (C57) and direct access to received meshes (C58). *)
From Coq Require Import ZArith QArith Bool List Arith Lia Permutation Sorted.
From Verif Require Import M_Time M_Mesh M_Prep M_Box M_Quad M_Api S_Mesh S_Api S_ApiMesh P_Box P_Api P_ApiEff P_ApiInv P_ApiVal P_ApiThm P_ApiMesh T_Api.
Import ListNotations.
Open Scope nat_scope.

(** ** C57 *)
(** A successful call that sets edges, triangles or tetrahedra appends exactly
    the given elements, in order, if the mesh needs connectivity, and nothing
    otherwise; the vertices stay. *)
Theorem C57_connectivity_is_appended :
  forall (C : Type) (W : world C) s c s' r m x, step W s c = Done s' r -> sets_elements c -> edits c = Some m ->
  lookup m (st_meshes s) = Some x ->
  exists y, lookup m (st_meshes s') = Some y /\
  if mx_full x then
    let n := nVertices (mx_mesh x) in
    exists es ts us, mx_mesh y = MkMesh (m_dim (mx_mesh x)) (m_verts (mx_mesh x)) (m_edges (mx_mesh x) ++ es) (m_tris (mx_mesh x) ++ ts) (m_tets (mx_mesh x) ++ us) /\
    Forall2 (fun e g => element n (corners2 e) g) es (edges_of c) /\
    Forall2 (fun e g => element n (corners3 e) g) ts (triangles_of c) /\
    Forall2 (fun e g => element n (corners4 e) g) us (tetrahedra_of c)
  else mx_mesh y = mx_mesh x.
Proof.
  intros C W s c s' r m x E SE ED LX.
  assert (PU : forall y, lookup m (st_meshes (putMesh s m y)) = Some (setMesh x y)) by (intros; rewrite lookup_put, Nat.eqb_refl, LX; reflexivity).
  assert (H : ends (step W s c) (Some r) s') by exact E.
  destruct c; try destruct SE; cbn in ED; injection ED as ->; cbn [step] in H;
    (apply ends_modify in H; destruct H as [_ [[? _]|[x2 [[_ [LX2 _]] H]]]]; [discriminate|]; rewrite LX in LX2; injection LX2 as <-).
  - apply ends_full in H. destruct H as [[-> [_ ->]]|[-> H]]; [eauto|].
    apply ends_guard in H. destruct H as [[_ [? _]]|[G H]]; [discriminate|]. apply ends_done in H. destruct H as [_ ->]. apply valid_range in G.
    rewrite PU. eexists. split; [reflexivity|]. cbv zeta. exists [sort2 (Z.to_nat a) (Z.to_nat b)], [], []. rewrite !app_nil_r.
    split; [reflexivity|]. split; [|split; constructor]. constructor; [|constructor]. apply elem2. exact G.
  - apply ends_full in H. destruct H as [[-> [_ ->]]|[-> H]]; [eauto|].
    do 2 (apply ends_guard in H; destruct H as [[_ [? _]]|[? H]]; [discriminate|]). apply ends_done in H. destruct H as [_ ->].
    match goal with K : validIDs _ _ = true |- _ => apply valid_range in K; rename K into G end.
    match goal with K : (_ =? 0) = true |- _ => apply Nat.eqb_eq in K; rename K into M end.
    destruct (edges_added (nVertices (mx_mesh x)) ids G M (mx_mesh x)) as [es [Q1 Q2]].
    rewrite PU. eexists. split; [reflexivity|]. cbv zeta. exists es, [], []. rewrite !app_nil_r. cbn [setMesh mx_mesh]. rewrite Q1.
    split; [reflexivity|]. split; [exact Q2|split; constructor].
  - apply ends_full in H. destruct H as [[-> [_ ->]]|[-> H]]; [eauto|].
    do 2 (apply ends_guard in H; destruct H as [[_ [? _]]|[? H]]; [discriminate|]). apply ends_done in H. destruct H as [_ ->].
    match goal with K : validIDs _ _ = true |- _ => apply valid_range in K; rename K into G end.
    rewrite PU. eexists. split; [reflexivity|]. cbv zeta. exists [], [sort3 (Z.to_nat a) (Z.to_nat b) (Z.to_nat c)], []. rewrite !app_nil_r.
    split; [reflexivity|]. split; [constructor|split; [|constructor]]. constructor; [|constructor]. apply elem3. exact G.
  - apply ends_full in H. destruct H as [[-> [_ ->]]|[-> H]]; [eauto|].
    do 2 (apply ends_guard in H; destruct H as [[_ [? _]]|[? H]]; [discriminate|]). apply ends_done in H. destruct H as [_ ->].
    match goal with K : validIDs _ _ = true |- _ => apply valid_range in K; rename K into G end.
    match goal with K : (_ =? 0) = true |- _ => apply Nat.eqb_eq in K; rename K into M end.
    destruct (tris_added (nVertices (mx_mesh x)) ids G M (mx_mesh x)) as [es [Q1 Q2]].
    rewrite PU. eexists. split; [reflexivity|]. cbv zeta. exists [], es, []. rewrite !app_nil_r. cbn [setMesh mx_mesh]. rewrite Q1.
    split; [reflexivity|]. split; [constructor|split; [exact Q2|constructor]].
  - apply ends_guard in H; destruct H as [[_ [? _]]|[_ H]]; [discriminate|].
    apply ends_full in H. destruct H as [[-> [_ ->]]|[-> H]]; [eauto|].
    apply ends_guard in H; destruct H as [[_ [? _]]|[G H]]; [discriminate|].
    destruct (createTetrahedron _ _ _ _ _) as [y|] eqn:Y; [|discriminate]. apply ends_done in H. destruct H as [_ ->]. apply valid_range in G.
    unfold createTetrahedron in Y. destruct (_ && _); [|discriminate]. injection Y as <-.
    rewrite PU. eexists. split; [reflexivity|]. cbv zeta. exists [], [], [sort4 (Z.to_nat a) (Z.to_nat b) (Z.to_nat c) (Z.to_nat d)]. rewrite !app_nil_r.
    split; [reflexivity|]. split; [constructor|split; [constructor|]]. constructor; [|constructor]. apply elem4. exact G.
  - apply ends_guard in H; destruct H as [[_ [? _]]|[_ H]]; [discriminate|].
    apply ends_full in H. destruct H as [[-> [_ ->]]|[-> H]]; [eauto|].
    do 2 (apply ends_guard in H; destruct H as [[_ [? _]]|[? H]]; [discriminate|]).
    match goal with K : validIDs _ _ = true |- _ => apply valid_range in K; rename K into G end.
    match goal with K : (_ =? 0) = true |- _ => apply Nat.eqb_eq in K; rename K into M end.
    destruct (addTetrahedra _ _) as [y|] eqn:Y; [|discriminate]. apply ends_done in H. destruct H as [_ ->].
    destruct (tets_added (nVertices (mx_mesh x)) ids G M _ _ Y) as [es [Q1 Q2]].
    rewrite PU. eexists. split; [reflexivity|]. cbv zeta. exists [], [], es. rewrite !app_nil_r. cbn [setMesh mx_mesh]. rewrite Q1.
    split; [reflexivity|]. split; [constructor|split; [constructor|exact Q2]].
Qed.
Print Assumptions C57_connectivity_is_appended.

(** Every mesh is well-formed at any time: elements refer to existing vertices,
    in ascending order, and the corners of a tetrahedron are different -- if the
    meshes received from others are. *)
Theorem C57_meshes_stay_well_formed :
  forall (C : Type) (W : world C) s0 h s dim m x, started s0 -> happens W s0 h s ->
  (forall m x, lookup m (st_meshes s0) = Some x -> dim m = Some (m_dim (mx_mesh x)) /\ (m_dim (mx_mesh x) = 2 \/ m_dim (mx_mesh x) = 3)) ->
  received_wf dim h -> lookup m (st_meshes s) = Some x -> wf_mesh (mx_mesh x) /\ dim m = Some (m_dim (mx_mesh x)).
Proof.
  intros C W s0 h s dim m x ST H D R L. eapply happens_wf; [exact ST|exact H| |exact R|exact L].
  intros k z LZ. destruct (D k z LZ) as [D1 D2]. destruct (sd_empty _ ST k z LZ) as (EM&_). split; [|exact D1].
  rewrite EM. constructor; cbn; try contradiction. exact D2.
Qed.
Print Assumptions C57_meshes_stay_well_formed.

Definition conCalls : list (call nat) :=
  [ SetMeshVertices 1 4 [0; 0; 1; 0; 1; 1; 0; 1]%Q; SetMeshEdges 1 [3; 1; 0; 2]%Z; SetMeshTriangles 1 [3; 1; 0]%Z; SetMeshQuad 1 0 1 2 3;
    SetMeshEdge 1 0 4; Initialize (Some (exIn 0)) ].
Definition conHist : list (call nat * option result) := match play exStart conCalls with Some (h, _) => h | None => [] end.
Lemma conHist_calls : map fst conHist = conCalls.
Proof. vm_compute. reflexivity. Qed.
Example C57_example : option_map (fun x => option_map mx_mesh (lookup 1 (st_meshes (snd x)))) (play exStart conCalls) =
  Some (Some (MkMesh 2 (map (fun p => MkVertex p (-1) true false) [[0; 0]; [1; 0]; [1; 1]; [0; 1]]%Q)
    [(0, 2); (1, 3); (0, 1); (1, 2); (0, 3); (2, 3)] [(0, 1, 2); (0, 1, 3); (0, 2, 3)] [])) /\
  received_wf (fun _ => Some 2) conHist.
Proof.
  split; [vm_compute; reflexivity|]. intros c r m d H D e K. injection D as <-.
  apply (in_map fst) in H. revert H. rewrite conHist_calls. intros H.
  assert (e = exIn 0) as ->.
  { unfold conCalls in H. cbn [In] in H.
    destruct K as [->|[dt [p ->]]]; cbn [fst] in H; repeat (destruct H as [H|H]; [first [discriminate H|injection H as <-; reflexivity]|]); destruct H. }
  split; [|reflexivity]. constructor; cbn; try contradiction; auto.
  intros v [<-|[<-|[]]]; reflexivity.
Qed.

(** ** C58 *)
(** getMeshVertexIDsAndCoordinates() returns exactly the vertices of the
    received mesh inside the access region, in ascending order of their IDs,
    each with its own coordinates, and getMeshVertexSize() their number.  The
    IDs are valid for writeData() and readData(). *)
Theorem C58_direct_access_returns_the_region :
  forall (C : Type) (W : world C) s0 h s dim m x nIds nCoords s' l, started s0 -> happens W s0 h s ->
  (forall m x, lookup m (st_meshes s0) = Some x -> dim m = Some (m_dim (mx_mesh x)) /\ (m_dim (mx_mesh x) = 2 \/ m_dim (mx_mesh x) = 3)) ->
  received_wf dim h -> lookup m (st_meshes s) = Some x ->
  step W s (GetMeshVertexIDsAndCoordinates m nIds nCoords) = Done s' (RVertices l) -> nIds <> 0 ->
  s' = s /\ length l = nIds /\ StronglySorted lt (map fst l) /\
  (forall i p, In (i, p) l <-> exists v, nth_error (m_verts (mx_mesh x)) i = Some v /\ p = v_coords v /\ in_region (region m h) p) /\
  step W s (GetMeshVertexSize m) = Done s (RNat nIds) /\
  validIDs (mx_mesh x) (map (fun q => Z.of_nat (fst q)) l) = true.
Proof.
  intros C W s0 h s dim m x nIds nCoords s' l ST H D R L E NZ.
  assert (AW0 : all_wf dim s0).
  { intros k z LZ. destruct (D k z LZ) as [D1 D2]. destruct (sd_empty _ ST k z LZ) as (EM&_). split; [|exact D1].
    rewrite EM. constructor; cbn; try contradiction. exact D2. }
  destruct (happens_wf W _ _ _ _ ST H AW0 R _ _ L) as [WX DX].
  destruct (happens_regions W _ _ _ _ ST H AW0 R _ _ L) as [RX LR].
  assert (E' : ends (getVertices s m nIds nCoords) (Some (RVertices l)) s') by exact E. unfold getVertices in E'.
  apply ends_use in E'. destruct E' as [PF [[_ [? _]]|[x2 [L2 E']]]]; [discriminate|]. rewrite L in L2. injection L2 as <-.
  do 3 (apply ends_guard in E'; destruct E' as [[_ [? _]]|[? E']]; [discriminate|]).
  destruct (Nat.eqb_spec nIds 0) as [|_]; [contradiction|]. cbn [andb] in E'.
  do 2 (apply ends_guard in E'; destruct E' as [[_ [? _]]|[? E']]; [discriminate|]).
  apply ends_done in E'. destruct E' as [EL ->]. injection EL as ->.
  repeat match goal with K : (_ =? _) = true |- _ => apply Nat.eqb_eq in K end.
  match goal with K : nIds = _ |- _ => rename K into NI end.
  match goal with K : negb (mx_provided x) && mx_direct x = true |- _ => rename K into PD end.
  match goal with K : phase_eqb _ Initialized = true |- _ => rename K into PI end.
  match goal with K : match mx_region x with _ => _ end = true |- _ => rename K into SP end.
  assert (MEM : forall i v, In (i, v) (accessible x) <-> nth_error (m_verts (mx_mesh x)) i = Some v /\ in_region (region m h) (v_coords v)).
  { intros i v. unfold accessible. rewrite RX. destruct (region m h) as [b|] eqn:RG; cbn [option_map].
    - destruct (LR b eq_refl) as [d [Dd Lb]]. assert (d = m_dim (mx_mesh x)) by congruence. subst d.
      rewrite filter_In, numbered_in. cbn [snd]. split.
      + intros [K1 K2]. split; [exact K1|]. apply (inRegion_iff (m_dim (mx_mesh x))); auto. apply (wm_coords _ WX). eapply nth_error_In; eauto.
      + intros [K1 K2]. split; [exact K1|]. apply (inRegion_iff (m_dim (mx_mesh x))); auto. apply (wm_coords _ WX). eapply nth_error_In; eauto.
    - rewrite numbered_in. cbn. tauto. }
  assert (MF : map fst (map (fun p => (fst p, v_coords (snd p))) (accessible x)) = map fst (accessible x)).
  { rewrite map_map. apply map_ext. reflexivity. }
  split; [reflexivity|]. split; [rewrite map_length; congruence|]. split; [|split; [|split]].
  - rewrite MF. unfold accessible. destruct (mx_region x); [apply filter_sorted|]; rewrite numbered_fst; apply seq_sorted.
  - intros i p. rewrite in_map_iff. split.
    + intros [[j v] [Q K]]. cbn in Q. injection Q as <- <-. apply MEM in K. exists v. intuition.
    + intros [v (K1&->&K2)]. exists (i, v). split; [reflexivity|]. apply MEM. auto.
  - cbn [step]. unfold getMeshVertexSize, mesh_use, guardFail. rewrite L, PI. assert (phase_eqb (st_phase s) Finalized = false) as ->.
    { apply phase_true in PI. rewrite PI. reflexivity. }
    apply andb_true_iff in PD. destruct PD as [PD1 PD2]. rewrite PD1, PD2. cbn [orb andb]. rewrite NI.
    unfold accessible, countIf in *. destruct (mx_region x) as [b|].
    + rewrite (numbered_filter (inRegion b)). reflexivity.
    + apply negb_true_iff in SP. rewrite SP. unfold numbered. rewrite combine_length, seq_length, Nat.min_id. reflexivity.
  - unfold validIDs. apply forallb_forall. intros z K. apply in_map_iff in K. destruct K as [[i p] [<- K]]. cbn [fst].
    apply in_map_iff in K. destruct K as [[j v] [Q K]]. cbn in Q. injection Q as <- <-. apply MEM in K. destruct K as [K _].
    assert (j < nVertices (mx_mesh x)) by (apply nth_error_Some; congruence).
    unfold isValidVertexID. apply andb_true_iff. split; [apply Z.leb_le|apply Z.ltb_lt]; lia.
Qed.
Print Assumptions C58_direct_access_returns_the_region.

(** The region can be set once, before initialize(). *)
Theorem C58_region_is_set_once_before_initialize :
  forall (C : Type) (W : world C) s0 h s dim m b s' r, started s0 -> happens W s0 h s ->
  (forall m x, lookup m (st_meshes s0) = Some x -> dim m = Some (m_dim (mx_mesh x)) /\ (m_dim (mx_mesh x) = 2 \/ m_dim (mx_mesh x) = 3)) ->
  received_wf dim h -> step W s (SetMeshAccessRegion m b) = Done s' r ->
  life h = Constructed /\ region m h = None /\ exists d, dim m = Some d /\ length b = 2 * d /\
  forall i, i < d -> (nth (2 * i) b 0 <= nth (2 * i + 1) b 0)%Q.
Proof.
  intros C W s0 h s dim m b s' r ST H D R E. destruct (happens_inv W _ _ _ ST H) as [I _].
  assert (AW0 : all_wf dim s0).
  { intros k z LZ. destruct (D k z LZ) as [D1 D2]. destruct (sd_empty _ ST k z LZ) as (EM&_). split; [|exact D1].
    rewrite EM. constructor; cbn; try contradiction. exact D2. }
  assert (E' : ends (setRegionOf s m b) (Some r) s') by exact E. unfold setRegionOf in E'.
  apply ends_use in E'. destruct E' as [PF [[_ [? _]]|[x [L E']]]]; [discriminate|].
  destruct (happens_wf W _ _ _ _ ST H AW0 R _ _ L) as [WX DX].
  destruct (happens_regions W _ _ _ _ ST H AW0 R _ _ L) as [RX LR].
  do 5 (apply ends_guard in E'; destruct E' as [[_ [? _]]|[? E']]; [discriminate|]).
  repeat match goal with K : (_ =? _) = true |- _ => apply Nat.eqb_eq in K end.
  match goal with K : phase_eqb _ Constructed = true |- _ => apply phase_true in K; rewrite (i_phase _ _ _ I) in K; split; [exact K|] end.
  rewrite RX in *. destruct (region m h); [discriminate|]. split; [reflexivity|].
  match goal with K : ordered2 b = true |- _ => rename K into OB end.
  match goal with K : length b = _ |- _ => rename K into LB end.
  exists (m_dim (mx_mesh x)). split; [exact DX|]. split; [lia|]. intros i LI.
  destruct (evens_odds b (m_dim (mx_mesh x)) LB) as (L1&L2&N). rewrite <- (proj1 (N i)), <- (proj2 (N i)).
  unfold ordered2 in OB. rewrite forallb_forall in OB.
  apply Qle_bool_iff. apply (OB (nth i (evens b) 0%Q, nth i (odds b) 0%Q)).
  rewrite <- combine_nth by congruence. apply nth_In. rewrite combine_length. lia.
Qed.
Print Assumptions C58_region_is_set_once_before_initialize.

Definition regCalls : list (call nat) :=
  [ SetMeshAccessRegion 2 [1; 2; -1; 1]%Q; SetMeshAccessRegion 2 [0; 2; 0; 1]%Q; Initialize (Some (exIn 0)) ].
Example C58_example : match play exStart regCalls with
  | Some (h, s) => map snd h = [Some RUnit; None; Some (RStored [(1, 7, 0%Z, [])])] /\ region 2 h = Some [1; 2; -1; 1]%Q /\
      step exWorld s (GetMeshVertexIDsAndCoordinates 2 1 2) = Done s (RVertices [(1, [1; 0]%Q)])
  | None => False
  end.
Proof. vm_compute. repeat split. Qed.
