(** Mappings: the theorems for C40-C44 and C61.

    Throughout, [len], [area], [vol] are the measures of the elements, [cv], [ce],
    [ct] and [et] the results of the spatial searches and [eps] the tolerance of
    the comparisons. *)
From Coq Require Import ZArith QArith Bool List Arith Lia Lqa Qfield.
From Verif Require Import M_Mesh M_Prep M_Box M_Quad M_Map S_Mesh S_Map P_Bary P_Map P_MapFind P_MapTop P_MapGrad P_MapClose.
Import ListNotations.
Open Scope nat_scope.

(** * C43: barycentric coordinates *)
Theorem C43_edge : forall n a b u,
  length a = n -> length b = n -> length u = n -> ~ degenerate n [a; b] ->
  exists w0 w1, baryEdge a b u = Some (w0, w1) /\
    (w0 + w1 == 1)%Q /\ foot n u [w0; w1] [a; b] /\
    ((0 <= w0 /\ 0 <= w1)%Q <-> projects_into n u [a; b]).
Proof. exact edge_ok. Qed.
Print Assumptions C43_edge.

Theorem C43_triangle_in_space : forall a b c u,
  length a = 3 -> length b = 3 -> length c = 3 -> length u = 3 -> ~ degenerate 3 [a; b; c] ->
  exists w0 w1 w2, baryTriangle a b c u = Some (w0, w1, w2) /\
    (w0 + w1 + w2 == 1)%Q /\ foot 3 u [w0; w1; w2] [a; b; c] /\
    ((0 <= w0 /\ 0 <= w1 /\ 0 <= w2)%Q <-> projects_into 3 u [a; b; c]).
Proof. exact tri3_ok. Qed.
Print Assumptions C43_triangle_in_space.

Theorem C43_triangle_in_the_plane : forall a b c u,
  length a = 2 -> length b = 2 -> length c = 2 -> length u = 2 -> ~ degenerate 2 [a; b; c] ->
  exists w0 w1 w2, baryTriangle a b c u = Some (w0, w1, w2) /\
    (w0 + w1 + w2 == 1)%Q /\
    (forall k, k < 2 -> (combo [w0; w1; w2] [a; b; c] k == nth k u 0)%Q) /\
    ((0 <= w0 /\ 0 <= w1 /\ 0 <= w2)%Q <-> inside 2 u [a; b; c]).
Proof. exact tri2_ok. Qed.
Print Assumptions C43_triangle_in_the_plane.

Theorem C43_tetrahedron : forall a b c d u,
  length a = 3 -> length b = 3 -> length c = 3 -> length d = 3 -> length u = 3 -> ~ degenerate 3 [a; b; c; d] ->
  exists w0 w1 w2 w3, baryTetra a b c d u = Some (w0, w1, w2, w3) /\
    (w0 + w1 + w2 + w3 == 1)%Q /\
    (forall k, k < 3 -> (combo [w0; w1; w2; w3] [a; b; c; d] k == nth k u 0)%Q) /\
    ((0 <= w0 /\ 0 <= w1 /\ 0 <= w2 /\ 0 <= w3)%Q <-> inside 3 u [a; b; c; d]).
Proof. exact tetra_ok. Qed.
Print Assumptions C43_tetrahedron.

Section Mappings.
Variables (len : mesh -> nat * nat -> Q) (area : mesh -> nat * nat * nat -> Q) (vol : mesh -> nat * nat * nat * nat -> Q).
Variable cv : mesh -> list Q -> nat.
Variables ce ct : mesh -> list Q -> nat -> list nat.
Variable et : mesh -> list Q -> list nat.
Variable eps : Q.

(** the searches on the mesh [s] work *)
Definition searches (s : mesh) : Prop := search_ok s (cv s) (ce s) (ct s) (et s).

(** * C40: consistent nearest neighbour *)
Theorem C40_value_of_a_nearest_vertex : forall inM outM dims inp,
  wf_mesh inM -> wf_mesh outM -> m_dim outM = m_dim inM -> searches inM ->
  (nVertices inM > 0 \/ nVertices outM = 0) -> sized dims inM inp ->
  exists out, mapNN len area vol cv Consistent inM outM dims inp (zeros dims outM) = Some out /\ sized dims outM out /\
  forall i, i < nVertices outM ->
  exists j, nearest inM (position outM i) j /\ forall d, d < dims -> val dims out i d = val dims inp j d.
Proof.
  intros inM outM dims inp WI WO D S NE SI.
  destruct (nnConsistent_ok inM outM (cv inM) dims inp WO D NE (so_vertex _ _ _ _ _ S) SI) as (l & out & E & EN & SO & V).
  exists out. split; auto. unfold mapNN. cbn [searchSpaceOf originsOf isConservative]. rewrite E, EN. reflexivity.
Qed.

Theorem C40_constants_and_range : forall inM outM dims inp out,
  wf_mesh inM -> wf_mesh outM -> m_dim outM = m_dim inM -> searches inM ->
  (nVertices inM > 0 \/ nVertices outM = 0) -> sized dims inM inp ->
  mapNN len area vol cv Consistent inM outM dims inp (zeros dims outM) = Some out ->
  forall d lo hi, d < dims -> (forall j, j < nVertices inM -> (lo <= val dims inp j d <= hi)%Q) ->
  forall i, i < nVertices outM -> (lo <= val dims out i d <= hi)%Q.
Proof.
  intros inM outM dims inp out WI WO D S NE SI H d lo hi DD R i I.
  destruct (C40_value_of_a_nearest_vertex inM outM dims inp WI WO D S NE SI) as (out' & E & _ & V).
  rewrite H in E. injection E as <-. destruct (V i I) as (j & (JL & _) & EQ). rewrite (EQ d DD). apply R. exact JL.
Qed.

(** reading at any coordinates, without a mesh there *)
Theorem C40_reading_at_coordinates : forall inM coordinates dims inp,
  wf_mesh inM -> (forall v, In v coordinates -> length (v_coords v) = m_dim inM) -> searches inM ->
  (nVertices inM > 0 \/ coordinates = []) -> sized dims inM inp ->
  exists out, mapNNConsistentAt cv inM dims coordinates inp (repeat 0%Q (length coordinates * dims)) = Some out /\
  length out = length coordinates * dims /\
  forall i v, nth_error coordinates i = Some v ->
  exists j, nearest inM (v_coords v) j /\ forall d, d < dims -> val dims out i d = val dims inp j d.
Proof.
  intros inM coordinates dims inp WI LC S NE SI.
  set (o := MkMesh (m_dim inM) coordinates [] [] []).
  assert (WO : wf_mesh o). { split; cbn; try contradiction; [apply (wm_dim inM WI)|auto]. }
  destruct (nnConsistent_ok inM o (cv inM) dims inp WO eq_refl) as (l & out & E & EN & SO & V).
  - unfold nVertices at 2. cbn. destruct NE as [?| ->]; [left; assumption|right; reflexivity].
  - exact (so_vertex _ _ _ _ _ S).
  - exact SI.
  - exists out. split; [|split].
    + unfold mapNNConsistentAt. change coordinates with (m_verts o). rewrite E. exact EN.
    + exact SO.
    + intros i v EV. assert (I : i < nVertices o) by (apply nth_error_Some; cbn; congruence).
      destruct (V i I) as (j & NJ & EQ). exists j. split; auto. unfold position in NJ. cbn in NJ. rewrite EV in NJ. exact NJ.
Qed.

(** * C41: conservative nearest neighbour *)
Theorem C41_each_value_goes_to_one_nearest_vertex : forall inM outM dims inp,
  wf_mesh inM -> wf_mesh outM -> m_dim inM = m_dim outM -> searches outM ->
  (nVertices outM > 0 \/ nVertices inM = 0) -> sized dims inM inp ->
  exists out target, mapNN len area vol cv Conservative inM outM dims inp (zeros dims outM) = Some out /\ sized dims outM out /\
  (forall i, i < nVertices inM -> nearest outM (position inM i) (target i)) /\
  forall j d, d < dims -> (val dims out j d == qsum (nVertices inM) (fun i => if Nat.eqb (target i) j then val dims inp i d else 0))%Q.
Proof.
  intros inM outM dims inp WI WO D S NE SI.
  destruct (nnConservative_ok outM inM (cv outM) dims inp (zeros dims outM) WI D NE (so_vertex _ _ _ _ _ S) SI (sized_zeros _ _))
    as (l & out & E & EN & SO & N & V).
  exists out, (fun i => nth i l 0). split; [|split; [exact SO|split; [exact N|]]].
  - unfold mapNN. cbn [searchSpaceOf originsOf isConservative]. rewrite E, EN. reflexivity.
  - intros j d DD. rewrite (V j d DD), val_zeros. ring.
Qed.

Lemma swap_sum (f : nat -> nat) (g : nat -> Q) n m : (forall i, i < m -> f i < n) ->
  (qsum n (fun j => qsum m (fun i => if Nat.eqb (f i) j then g i else 0)) == qsum m g)%Q.
Proof.
  induction m as [|m IH]; intro H; cbn [qsum].
  - apply qsum_zero.
  - rewrite qsum_plus. rewrite IH by (intros; apply H; lia).
    rewrite (qsum_ext n (fun j => if f m =? j then g m else 0)%Q (fun j => if j =? f m then g m else 0)%Q)
      by (intros j J; rewrite Nat.eqb_sym; reflexivity).
    rewrite qsum_pick by (apply H; lia). reflexivity.
Qed.

Theorem C41_sum_is_preserved : forall inM outM dims inp out,
  wf_mesh inM -> wf_mesh outM -> m_dim inM = m_dim outM -> searches outM ->
  (nVertices outM > 0 \/ nVertices inM = 0) -> sized dims inM inp ->
  mapNN len area vol cv Conservative inM outM dims inp (zeros dims outM) = Some out ->
  forall d, d < dims ->
  (qsum (nVertices outM) (fun j => val dims out j d) == qsum (nVertices inM) (fun i => val dims inp i d))%Q.
Proof.
  intros inM outM dims inp out WI WO D S NE SI H d DD.
  destruct (C41_each_value_goes_to_one_nearest_vertex inM outM dims inp WI WO D S NE SI) as (out' & t & E & _ & N & V).
  rewrite H in E. injection E as <-.
  rewrite (qsum_ext _ _ _ (fun j _ => V j d DD)). apply swap_sum. intros i I. apply (N i I).
Qed.

(** writing from any coordinates adds to what is there *)
Theorem C41_writing_from_coordinates : forall outM coordinates dims source target,
  wf_mesh outM -> (forall v, In v coordinates -> length (v_coords v) = m_dim outM) -> searches outM ->
  (nVertices outM > 0 \/ coordinates = []) -> length source = length coordinates * dims -> sized dims outM target ->
  exists out to, mapNNConservativeAt cv outM dims coordinates source target = Some out /\ sized dims outM out /\
  (forall i v, nth_error coordinates i = Some v -> nearest outM (v_coords v) (to i)) /\
  forall j d, d < dims -> (val dims out j d == val dims target j d +
     qsum (length coordinates) (fun i => if Nat.eqb (to i) j then val dims source i d else 0))%Q.
Proof.
  intros outM coordinates dims source target WO LC S NE LS ST.
  set (o := MkMesh (m_dim outM) coordinates [] [] []).
  assert (Wo : wf_mesh o). { split; cbn; try contradiction; [apply (wm_dim outM WO)|auto]. }
  destruct (nnConservative_ok outM o (cv outM) dims source target Wo eq_refl) as (l & out & E & EN & SO & N & V).
  - unfold nVertices at 2. cbn. destruct NE as [?| ->]; [left; assumption|right; reflexivity].
  - exact (so_vertex _ _ _ _ _ S).
  - exact LS.
  - exact ST.
  - exists out, (fun i => nth i l 0). split; [|split; [exact SO|split; [|exact V]]].
    + unfold mapNNConservativeAt. change coordinates with (m_verts o). rewrite E. exact EN.
    + intros i v EV. assert (I : i < nVertices o) by (apply nth_error_Some; cbn; congruence).
      assert (NI := N i I). unfold position in NI. cbn in NI. rewrite EV in NI. exact NI.
Qed.

(** * C42: nearest projection and linear cell interpolation *)
Definition mapBy (cells : bool) (c : constraint) : mesh -> mesh -> nat -> list Q -> list Q -> option (list Q) :=
  if cells then mapCell eps len area vol cv ce ct et c else mapNP eps len area vol cv ce ct c.
Definition findBy (cells : bool) (s : mesh) : list Q -> option polation :=
  if cells then cellFind eps cv ce ct et s else npFind eps cv ce ct s.

Lemma forall_of {A} (P : A -> Prop) (l : list A) : (forall x, In x l -> P x) -> Forall P l.
Proof. apply Forall_forall. Qed.
Lemma tris_of s : proper_triangles s -> forall a b c, In (a, b, c) (m_tris s) ->
  ~ degenerate (m_dim s) [position s a; position s b; position s c].
Proof. intros P a b c I. exact (P (a, b, c) I). Qed.

Lemma findBy_ok cells s : (0 <= eps)%Q -> wf_mesh s -> searches s -> proper_triangles s ->
  forall u, length u = m_dim s -> m_verts s <> [] -> exists p, findBy cells s u = Some p /\ pol_ok eps s u p.
Proof.
  intros E W S P u U NE. destruct S as [S1 S2 S3 S4]. unfold findBy. destruct cells.
  - apply findCell; auto using tris_of; intros; apply forall_of; eauto.
  - destruct (findNearest eps E s W (cv s) (ce s) (ct s) S1) with (u := u) (n := nnearest) as (p & EP & PO & _);
      auto using tris_of; try (intros; apply forall_of; eauto). exists p. auto.
Qed.

Lemma mapBy_unfold cells c inM outM dims inp out : mapBy cells c inM outM dims inp out =
  match collect eps (findBy cells (searchSpaceOf c inM outM)) 0 (m_verts (originsOf c inM outM)) with
  | None => None
  | Some ops => if isConservative c then baryConservative dims (sortOps ops) inp out
                else scaled len area vol c inM outM inp (baryConsistent dims ops inp out)
  end.
Proof. unfold mapBy, findBy. destruct cells; reflexivity. Qed.

Theorem C42_constants_are_reproduced : forall cells inM outM dims inp,
  (0 <= eps)%Q -> wf_mesh inM -> wf_mesh outM -> m_dim outM = m_dim inM -> searches inM -> proper_triangles inM ->
  (nVertices inM > 0 \/ nVertices outM = 0) -> 1 <= dims <= 3 -> sized dims inM inp ->
  exists out, mapBy cells Consistent inM outM dims inp (zeros dims outM) = Some out /\ sized dims outM out /\
  forall d c, d < dims -> (forall j, j < nVertices inM -> (val dims inp j d == c)%Q) ->
  forall i, i < nVertices outM -> (absQ (val dims out i d - c) <= 4 * eps * absQ c)%Q.
Proof.
  intros cells inM outM dims inp HE WI WO D S P NE KD SI.
  destruct (rows eps inM outM (findBy cells inM) WO D NE (findBy_ok cells inM HE WI S P) dims KD)
    as (pols & LP & N & ops & EC & CONS & _).
  destruct (CONS inp SI) as (out & EO & SO & V). exists out. split; [|split; [exact SO|]].
  { rewrite mapBy_unfold. cbn [searchSpaceOf originsOf isConservative]. rewrite EC, EO. reflexivity. }
  intros d c DD HC i I. destruct (N i I) as (_ & PO).
  eapply Qle_trans; [|apply (rowsum_const eps HE (nth i pols dflt) c (po_sum _ _ _ _ PO) (po_len _ _ _ _ PO))].
  apply absQ_comp. rewrite (V i d I DD). rewrite (rowsum_ext eps _ _ (fun _ => c)); [reflexivity|].
  intros we W. apply HC. apply (po_in _ _ _ _ PO). exact W.
Qed.

Theorem C42_sum_is_preserved : forall cells inM outM dims inp,
  (0 <= eps)%Q -> wf_mesh inM -> wf_mesh outM -> m_dim inM = m_dim outM -> searches outM -> proper_triangles outM ->
  (nVertices outM > 0 \/ nVertices inM = 0) -> 1 <= dims <= 3 -> sized dims inM inp ->
  exists out, mapBy cells Conservative inM outM dims inp (zeros dims outM) = Some out /\ sized dims outM out /\
  forall d, d < dims ->
  (absQ (qsum (nVertices outM) (fun j => val dims out j d) - qsum (nVertices inM) (fun i => val dims inp i d)) <=
   4 * eps * qsum (nVertices inM) (fun i => absQ (val dims inp i d)))%Q.
Proof.
  intros cells inM outM dims inp HE WI WO D S P NE KD SI.
  destruct (rows eps outM inM (findBy cells outM) WI D NE (findBy_ok cells outM HE WO S P) dims KD)
    as (pols & LP & N & ops & EC & _ & CONS).
  destruct (CONS inp SI) as (out & EO & SO & V). exists out. split; [|split; [exact SO|]].
  { rewrite mapBy_unfold. cbn [searchSpaceOf originsOf isConservative]. rewrite EC, EO. reflexivity. }
  intros d DD. assert (A := V (fun _ => 1)%Q d DD).
  rewrite (qsum_ext _ (fun j => 1 * val dims out j d)%Q (fun j => val dims out j d)) in A by (intros; ring).
  apply absQ_le. rewrite A. clear A V EO SO out.
  assert (R : forall k, k < nVertices inM ->
    (absQ (rowsum eps (nth k pols dflt) (fun _ => 1) * val dims inp k d - val dims inp k d) <= 4 * eps * absQ (val dims inp k d))%Q).
  { intros k K. destruct (N k K) as (_ & PO).
    assert (B := rowsum_const eps HE (nth k pols dflt) 1 (po_sum _ _ _ _ PO) (po_len _ _ _ _ PO)).
    setoid_replace (4 * eps * absQ 1)%Q with (4 * eps)%Q in B by (unfold absQ; cbn; ring).
    eapply Qle_trans; [|apply (absQ_mult_le _ _ _ _ B (Qle_refl (absQ (val dims inp k d))))].
    apply absQ_comp. ring. }
  revert R. generalize (nVertices inM). induction n as [|n IH]; intro R; cbn [qsum].
  - lra.
  - assert (B := R n (Nat.lt_succ_diag_r n)). apply absQ_le in B.
    destruct (IH (fun k K => R k (Nat.lt_lt_succ_r _ _ K))) as (C1 & C2). lra.
Qed.

(** the conservative mapping from A to B is the transpose of the consistent
    mapping from B to A *)
Theorem C42_consistent_and_conservative_are_transposes : forall cells A B dims x y,
  (0 <= eps)%Q -> wf_mesh A -> wf_mesh B -> m_dim A = m_dim B -> searches B -> proper_triangles B ->
  (nVertices B > 0 \/ nVertices A = 0) -> 1 <= dims <= 3 -> sized dims B x -> sized dims A y ->
  exists x' y', mapBy cells Consistent B A dims x (zeros dims A) = Some x' /\
    mapBy cells Conservative A B dims y (zeros dims B) = Some y' /\
    forall d, d < dims ->
    (qsum (nVertices A) (fun i => val dims x' i d * val dims y i d) == qsum (nVertices B) (fun j => val dims x j d * val dims y' j d))%Q.
Proof.
  intros cells A B dims x y HE WA WB D S P NE KD SX SY.
  destruct (rows eps B A (findBy cells B) WA D NE (findBy_ok cells B HE WB S P) dims KD)
    as (pols & LP & N & ops & EC & CONS & CONV).
  destruct (CONS x SX) as (x' & EX & _ & VX). destruct (CONV y SY) as (y' & EY & _ & VY).
  exists x', y'. split; [|split].
  - rewrite mapBy_unfold. cbn [searchSpaceOf originsOf isConservative]. rewrite EC, EX. reflexivity.
  - rewrite mapBy_unfold. cbn [searchSpaceOf originsOf isConservative]. rewrite EC, EY. reflexivity.
  - intros d DD. rewrite (VY (fun j => val dims x j d) d DD). apply qsum_ext. intros k K. rewrite (VX k d K DD). reflexivity.
Qed.

(** * C44: scaled consistent mappings *)
Definition scaling (volume : bool) : constraint := if volume then ScaledVolume else ScaledSurface.
Definition integral_over (volume : bool) (m : mesh) (f : nat -> Q) : Q :=
  if volume then volume_integral area vol m f else surface_integral len area m f.
Definition connected (volume : bool) (m : mesh) : Prop :=
  if volume then (if m_dim m =? 2 then m_tris m <> [] else m_tets m <> [])
  else (if m_dim m =? 2 then m_edges m <> [] else m_tris m <> []).

Lemma connected_has volume m : connected volume m -> hasConnectivity volume m = true.
Proof.
  unfold connected, hasConnectivity. intro H. apply orb_true_iff. right.
  destruct volume; destruct (m_dim m =? 2);
   match goal with |- nonempty ?l = true => destruct l; [congruence|reflexivity] end.
Qed.
Lemma scaled_scaling volume inM outM inp o :
  scaled len area vol (scaling volume) inM outM inp (Some o) = scaleConsistentMapping len area vol volume inM outM inp o.
Proof. destruct volume; reflexivity. Qed.
Lemma scaling_search volume inM outM : searchSpaceOf (scaling volume) inM outM = inM /\ originsOf (scaling volume) inM outM = outM /\
  isConservative (scaling volume) = false.
Proof. destruct volume; auto. Qed.

(** what scaling does to the unscaled values *)
Definition scaled_from (volume : bool) (inM outM : mesh) (dims : nat) (inp unscaled out : list Q) : Prop :=
  sized dims outM out /\
  forall d, d < dims -> exists factor,
    (forall i, (val dims out i d == val dims unscaled i d * factor)%Q) /\
    (~ (integral_over volume outM (fun i => val dims unscaled i d) == 0)%Q ->
       (integral_over volume outM (fun i => val dims out i d) == integral_over volume inM (fun i => val dims inp i d))%Q) /\
    ((integral_over volume outM (fun i => val dims unscaled i d) == 0)%Q -> factor = 1%Q).

Theorem C44_integral_is_preserved_nearest_neighbor : forall volume inM outM dims inp,
  wf_mesh inM -> wf_mesh outM -> m_dim outM = m_dim inM -> searches inM ->
  nVertices inM > 0 -> nVertices outM > 0 -> 1 <= dims -> sized dims inM inp ->
  connected volume inM -> connected volume outM ->
  exists unscaled out, mapNN len area vol cv Consistent inM outM dims inp (zeros dims outM) = Some unscaled /\
    mapNN len area vol cv (scaling volume) inM outM dims inp (zeros dims outM) = Some out /\
    scaled_from volume inM outM dims inp unscaled out.
Proof.
  intros volume inM outM dims inp WI WO D S NI NO D1 SI CI CO.
  destruct (nnConsistent_ok inM outM (cv inM) dims inp WO D (or_introl NI) (so_vertex _ _ _ _ _ S) SI) as (l & uns & E & EN & SO & _).
  destruct (scale_some len area vol volume inM outM dims inp uns D1 SI SO NI NO (connected_has _ _ CI) (connected_has _ _ CO)) as (out & ES).
  exists uns, out. split; [|split].
  - unfold mapNN. cbn [searchSpaceOf originsOf isConservative]. rewrite E, EN. reflexivity.
  - unfold mapNN. destruct (scaling_search volume inM outM) as (-> & -> & ->). rewrite E, EN, scaled_scaling. exact ES.
  - destruct (scale_ok len area vol volume inM outM dims inp uns out D1 SI SO NI NO ES) as (SO' & F). split; auto.
    unfold integral_over, the_integral in *. destruct volume; exact F.
Qed.

Theorem C44_integral_is_preserved : forall cells volume inM outM dims inp,
  (0 <= eps)%Q -> wf_mesh inM -> wf_mesh outM -> m_dim outM = m_dim inM -> searches inM -> proper_triangles inM ->
  nVertices inM > 0 -> nVertices outM > 0 -> 1 <= dims <= 3 -> sized dims inM inp ->
  connected volume inM -> connected volume outM ->
  exists unscaled out, mapBy cells Consistent inM outM dims inp (zeros dims outM) = Some unscaled /\
    mapBy cells (scaling volume) inM outM dims inp (zeros dims outM) = Some out /\
    scaled_from volume inM outM dims inp unscaled out.
Proof.
  intros cells volume inM outM dims inp HE WI WO D S P NI NO KD SI CI CO.
  destruct (rows eps inM outM (findBy cells inM) WO D (or_introl NI) (findBy_ok cells inM HE WI S P) dims KD)
    as (pols & LP & N & ops & EC & CONS & _).
  destruct (CONS inp SI) as (uns & EO & SO & V).
  destruct (scale_some len area vol volume inM outM dims inp uns (proj1 KD) SI SO NI NO (connected_has _ _ CI) (connected_has _ _ CO)) as (out & ES).
  exists uns, out. split; [|split].
  - rewrite mapBy_unfold. cbn [searchSpaceOf originsOf isConservative]. rewrite EC, EO. reflexivity.
  - rewrite mapBy_unfold. destruct (scaling_search volume inM outM) as (-> & -> & ->). rewrite EC, EO, scaled_scaling. exact ES.
  - destruct (scale_ok len area vol volume inM outM dims inp uns out (proj1 KD) SI SO NI NO ES) as (SO' & F). split; auto.
    unfold integral_over, the_integral in *. destruct volume; exact F.
Qed.

(** * C61: where the values come from *)
(** each value is a weighted mean at a point of the source mesh that is no
    farther away than any vertex, and no farther away than any point of the edges
    (in three dimensions triangles) that the search returns and that the target
    vertex projects into *)
Theorem C61_projection_is_as_close_as_any_vertex_or_candidate : forall inM outM dims inp out b,
  (0 <= eps)%Q -> wf_mesh inM -> wf_mesh outM -> m_dim outM = m_dim inM -> searches inM -> proper_triangles inM ->
  (nVertices inM > 0 \/ nVertices outM = 0) -> 1 <= dims <= 3 -> sized dims inM inp ->
  mapNP eps len area vol cv ce ct Consistent inM outM dims inp (zeros dims outM) = Some out ->
  (forall j d, j < nVertices inM -> d < dims -> (absQ (val dims inp j d) <= b)%Q) ->
  forall i, i < nVertices outM -> exists vs ws,
  let ps := map (position inM) vs in
  let u := position outM i in
  length ws = length vs /\ Forall (fun v => v < nVertices inM) vs /\ Forall (fun w => (- eps <= w)%Q) ws /\ (total ws == 1)%Q /\
  foot (m_dim inM) u ws ps /\
  (forall k, k < nVertices inM -> (sqdist (m_dim inM) u (combination (m_dim inM) ws ps) <= sqdist (m_dim inM) u (position inM k))%Q) /\
  (forall k cs q, In k (if m_dim inM =? 2 then ce inM u 4 else ct inM u 4) -> facet inM k = Some cs ->
     ~ degenerate (m_dim inM) cs -> projects_into (m_dim inM) u cs -> inside (m_dim inM) q cs ->
     (sqdist (m_dim inM) u (combination (m_dim inM) ws ps) <= sqdist (m_dim inM) u q)%Q) /\
  forall d, d < dims ->
  (absQ (val dims out i d - total (map (fun vw => snd vw * val dims inp (fst vw) d) (combine vs ws))) <= 4 * eps * b)%Q.
Proof.
  intros inM outM dims inp out b HE WI WO D S P NE KD SI H BD i I.
  destruct S as [S1 S2 S3 S4].
  assert (FB := findBy_ok false inM HE WI (Build_search_ok _ _ _ _ _ S1 S2 S3 S4) P).
  destruct (rows eps inM outM (findBy false inM) WO D NE FB dims KD) as (pols & LP & N & ops & EC & CONS & _).
  destruct (CONS inp SI) as (out' & EO & SO & V).
  change (mapNP eps len area vol cv ce ct Consistent inM outM dims inp (zeros dims outM)) with
    (mapBy false Consistent inM outM dims inp (zeros dims outM)) in H.
  rewrite mapBy_unfold in H. cbn [searchSpaceOf originsOf isConservative] in H. rewrite EC, EO in H. injection H as <-.
  destruct (N i I) as (EF & PO).
  assert (NV : nVertices inM > 0) by (destruct NE as [?|E0]; [assumption|rewrite E0 in I; lia]).
  assert (LU : length (position outM i) = m_dim inM) by (rewrite <- D; apply position_length; auto).
  destruct (findNearest eps HE inM WI (cv inM) (ce inM) (ct inM) S1) with (u := position outM i) (n := nnearest) as (p & EP & _ & CL);
    auto using tris_of; try (intros; apply forall_of; eauto). { apply nonempty_verts. exact NV. }
  unfold findBy, npFind in EF. rewrite EP in EF. injection EF as EF.
  rewrite <- EF in PO.
  exists (map fst (p_elems p)), (map snd (p_elems p)). cbv zeta.
  rewrite map_map. rewrite !map_length. split; [reflexivity|].
  split. { apply Forall_map, Forall_forall. intros we W. apply (po_in _ _ _ _ PO). exact W. }
  split. { apply Forall_map, Forall_forall. intros we W. apply (po_pos _ _ _ _ PO). exact W. }
  split. { exact (po_sum _ _ _ _ PO). }
  split. { exact (po_foot _ _ _ _ PO). }
  split. { intros k K. assert (A := CL k K). assert (B := po_dist _ _ _ _ PO). rewrite B in A. exact A. }
  split. { intros k cs q IK CS ND PI IQ. assert (B := po_dist _ _ _ _ PO).
    assert (A := findNearest_close eps HE inM WI (cv inM) (ce inM) (ct inM) (tris_of inM P) (position outM i) nnearest p k cs
      LU (nonempty_verts _ NV) EP IK CS ND PI q IQ). rewrite B in A. exact A. }
  intros d DD.
  assert (EC2 : combine (map fst (p_elems p)) (map snd (p_elems p)) = p_elems p).
  { clear. induction (p_elems p) as [|[v w] l IH]; cbn; auto. rewrite IH. reflexivity. }
  rewrite EC2. clear EC2.
  assert (B0 : (0 <= b)%Q). { eapply Qle_trans; [|apply (BD 0 d NV DD)]. apply absQ_nonneg. }
  assert (R := rowsum_full eps HE p (fun v => val dims inp v d) b B0 (fun we W => BD (fst we) d (po_in _ _ _ _ PO we W) DD)).
  assert (LE : (inject_Z (Z.of_nat (length (p_elems p))) * (eps * b) <= 4 * (eps * b))%Q).
  { apply Qmult_le_compat_r; [|apply Qmult_le_0_compat; auto]. change 4%Q with (inject_Z 4). rewrite <- Zle_Qle.
    assert (L := po_len _ _ _ _ PO). lia. }
  apply absQ_le in R. apply absQ_le. assert (VV := V i d I DD). rewrite <- EF in VV. rewrite VV. unfold fullsum in R. lra.
Qed.

(** a linear function of the position is reproduced at every point in one of the
    cells that the search returns *)
Theorem C61_linear_functions_in_cells : forall inM outM dims inp out b,
  (0 <= eps)%Q -> wf_mesh inM -> wf_mesh outM -> m_dim outM = m_dim inM -> searches inM -> proper_triangles inM ->
  (nVertices inM > 0 \/ nVertices outM = 0) -> 1 <= dims <= 3 -> sized dims inM inp ->
  mapCell eps len area vol cv ce ct et Consistent inM outM dims inp (zeros dims outM) = Some out ->
  (forall j d, j < nVertices inM -> d < dims -> (absQ (val dims inp j d) <= b)%Q) ->
  forall i k cs, i < nVertices outM ->
  In k (if m_dim inM =? 2 then ct inM (position outM i) 4 else et inM (position outM i)) ->
  cell inM k = Some cs -> ~ degenerate (m_dim inM) cs -> inside (m_dim inM) (position outM i) cs ->
  forall d c g, d < dims ->
  (forall j, j < nVertices inM -> (val dims inp j d == linear (m_dim inM) c g (position inM j))%Q) ->
  (absQ (val dims out i d - linear (m_dim inM) c g (position outM i)) <= 4 * eps * b)%Q.
Proof.
  intros inM outM dims inp out b HE WI WO D S P NE KD SI H BD i k cs I IK CC ND IN d c g DD LIN.
  destruct S as [S1 S2 S3 S4].
  assert (FB := findBy_ok true inM HE WI (Build_search_ok _ _ _ _ _ S1 S2 S3 S4) P).
  destruct (rows eps inM outM (findBy true inM) WO D NE FB dims KD) as (pols & LP & N & ops & EC & CONS & _).
  destruct (CONS inp SI) as (out' & EO & SO & V).
  change (mapCell eps len area vol cv ce ct et Consistent inM outM dims inp (zeros dims outM)) with
    (mapBy true Consistent inM outM dims inp (zeros dims outM)) in H.
  rewrite mapBy_unfold in H. cbn [searchSpaceOf originsOf isConservative] in H. rewrite EC, EO in H. injection H as <-.
  destruct (N i I) as (EF & PO).
  assert (NV : nVertices inM > 0) by (destruct NE as [?|E0]; [assumption|rewrite E0 in I; lia]).
  assert (LU : length (position outM i) = m_dim inM) by (rewrite <- D; apply position_length; auto).
  assert (NEV := nonempty_verts _ NV). unfold cell in CC.
  destruct (findCell_exact eps HE inM WI (cv inM) (ce inM) (ct inM) (et inM)) with (u := position outM i) (n := nnearest) (i := k) (cs := cs)
    as (p & EP & _ & EX); auto using tris_of; try (intros; apply forall_of; eauto).
  unfold findBy, cellFind in EF. rewrite EP in EF. injection EF as EF.
  assert (VV := V i d I DD). rewrite <- EF in PO, VV. clear EP V.
  assert (B0 : (0 <= b)%Q). { eapply Qle_trans; [|apply (BD 0 d NV DD)]. apply absQ_nonneg. }
  assert (R := rowsum_full eps HE p (fun v => val dims inp v d) b B0 (fun we W => BD (fst we) d (po_in _ _ _ _ PO we W) DD)).
  assert (LE : (inject_Z (Z.of_nat (length (p_elems p))) * (eps * b) <= 4 * (eps * b))%Q).
  { apply Qmult_le_compat_r; [|apply Qmult_le_0_compat; auto]. change 4%Q with (inject_Z 4). rewrite <- Zle_Qle.
    assert (L := po_len _ _ _ _ PO). lia. }
  assert (FS : (fullsum p (fun v => val dims inp v d) == linear (m_dim inM) c g (position outM i))%Q).
  { unfold fullsum. rewrite (total_map_ext _ (fun we => snd we * linear (m_dim inM) c g (position inM (fst we)))%Q).
    2:{ intros we W. rewrite (LIN (fst we) (po_in _ _ _ _ PO we W)). reflexivity. }
    rewrite linear_comb by exact (po_sum _ _ _ _ PO).
    unfold linear. rewrite (qsum_ext _ (fun k0 => nth k0 g 0 * nth k0 (combination _ _ _) 0)%Q (fun k0 => nth k0 g 0 * nth k0 (position outM i) 0)%Q); [reflexivity|].
    intros q Q0. rewrite nth_combination by auto. unfold ws, ps in EX. rewrite (EX q Q0). reflexivity. }
  apply absQ_le in R. apply absQ_le. rewrite VV. rewrite FS in R. lra.
Qed.

(** nearest neighbour with gradients reproduces linear functions everywhere *)
Theorem C61_gradients_reproduce_linear_functions : forall inM outM dims inp gradients,
  wf_mesh inM -> wf_mesh outM -> m_dim outM = m_dim inM -> searches inM ->
  (nVertices inM > 0 \/ nVertices outM = 0) -> sized dims inM inp ->
  length gradients = nVertices inM * dims -> (forall g, In g gradients -> length g = m_dim inM) ->
  exists out, mapNNG len area vol cv Consistent inM outM dims inp gradients = Some out /\ sized dims outM out /\
  forall d c g, d < dims ->
  (forall j, j < nVertices inM -> (val dims inp j d == linear (m_dim inM) c g (position inM j))%Q /\
     forall k, k < m_dim inM -> (nth k (nth (j * dims + d) gradients []) 0 == nth k g 0)%Q) ->
  forall i, i < nVertices outM -> (val dims out i d == linear (m_dim inM) c g (position outM i))%Q.
Proof.
  intros inM outM dims inp gradients WI WO D S NE SI LG WG.
  destruct (indices_ok inM outM (cv inM) WO D NE (so_vertex _ _ _ _ _ S)) as (l & E & L & N).
  assert (FB : Forall (fun j => j * dims + dims <= length inp /\ j * dims + dims <= length gradients) l).
  { apply Forall_forall. intros j J. apply In_nth_error in J. destruct J as (k & J).
    assert (K : k < nVertices outM). { rewrite <- L. apply nth_error_Some. congruence. }
    destruct (N k K) as (j' & J' & NJ & _). assert (j' = j) as -> by congruence.
    split; [apply (seg_room (nVertices inM)); auto|]. nia. }
  destruct (nngLoop_spec dims inp gradients l (offsetsMatched outM inM l) 0) as (out & EO & LO & V).
  { unfold offsetsMatched. rewrite map_length, combine_length, seq_length. lia. } { exact FB. }
  exists out. split; [|split; [unfold sized; rewrite LO, L; reflexivity|]].
  { unfold mapNNG. cbn [isConservative]. rewrite E, EO. reflexivity. }
  intros d c g DD LIN i I. destruct (N i I) as (j & J & (JL & _)).
  rewrite (V i d j _ DD J (offsets_nth outM inM l i j J)).
  destruct (LIN j JL) as (LV & LGR). rewrite LV.
  assert (LPO : length (position outM i) = m_dim inM) by (rewrite <- D; apply position_length; auto).
  assert (LPI := position_length inM WI j JL).
  assert (LGJ : length (nth (j * dims + d) gradients []) = m_dim inM) by (apply WG, nth_In; nia).
  rewrite vdot_qsum by (rewrite vsub_length; congruence). rewrite vsub_length, LPO by congruence. unfold linear.
  rewrite (qsum_ext _ (fun k => nth k (vsub _ _) 0 * _)%Q
    (fun k => (- (1)) * (nth k g 0 * nth k (position inM j) 0) + nth k g 0 * nth k (position outM i) 0)%Q).
  - rewrite qsum_lin. ring.
  - intros k K. rewrite vsub_nth by congruence. rewrite (LGR k K). ring.
Qed.
End Mappings.
Print Assumptions C40_value_of_a_nearest_vertex.
Print Assumptions C40_constants_and_range.
Print Assumptions C40_reading_at_coordinates.
Print Assumptions C41_each_value_goes_to_one_nearest_vertex.
Print Assumptions C41_sum_is_preserved.
Print Assumptions C41_writing_from_coordinates.
Print Assumptions C42_constants_are_reproduced.
Print Assumptions C42_sum_is_preserved.
Print Assumptions C42_consistent_and_conservative_are_transposes.
Print Assumptions C44_integral_is_preserved_nearest_neighbor.
Print Assumptions C44_integral_is_preserved.
Print Assumptions C61_projection_is_as_close_as_any_vertex_or_candidate.
Print Assumptions C61_linear_functions_in_cells.
Print Assumptions C61_gradients_reproduce_linear_functions.
