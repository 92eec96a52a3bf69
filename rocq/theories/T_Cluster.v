(** C80: the clusters of partition-of-unity mappings. *)
From Coq Require Import ZArith QArith Qminmax Bool List Arith Lia Lqa Qfield.
From Verif Require Import M_Quad S_Mesh S_Map P_Bary P_Map M_Cluster S_Cluster P_Cluster M_Rbf M_Pum S_Pum P_Pum.
Import ListNotations.
Open Scope nat_scope.

Lemma qsum_const n z : (qsum n (fun _ => z) == inject_Z (Z.of_nat n) * z)%Q.
Proof.
  induction n as [|n IH]; cbn [qsum]; [change (0 == 0 * z)%Q; ring|]. rewrite IH, Nat2Z.inj_succ. unfold Z.succ. rewrite inject_Z_plus. change (inject_Z 1) with 1%Q. ring.
Qed.

Section Theorems.
Variable closestVertex : list point -> point -> nat.
Variable closestVertices : list point -> point -> nat -> list nat.
Variables (dim : nat) (inMesh outMesh : list point) (just : bool) (overlap : Q) (k : nat).
Hypothesis Pin : points dim inMesh.
Hypothesis Pout : points dim outMesh.
Notation clustering project := (createClustering closestVertex closestVertices dim inMesh outMesh just overlap k project).

Definition radius2 : Q := estimateClusterRadius closestVertex closestVertices dim k inMesh.
Definition maximum2 : Q := ((4 # 1) / inject_Z (Z.of_nat dim) * radius2 * ((1 - overlap) * (1 - overlap)))%Q.
Definition plain : list center :=
  let c1 := tagEmptyClusters radius2 inMesh (map (fun p => Ce p false) (grid (map (axisCenters false inMesh maximum2) (seq 0 dim)))) in
  if just then c1 else tagEmptyClusters radius2 outMesh c1.

(** in the grid of clusters *)
Lemma plain_covers x : inMesh <> [] -> (0 < overlap)%Q -> (overlap < 1)%Q -> (0 < radius2)%Q -> inBox dim inMesh x -> (just = true \/ In x outMesh) ->
  (exists y, In y inMesh /\ (sqdist dim x y < overlap * overlap * radius2)%Q) -> exists c, In (Ce c false) plain /\ length c = dim /\ (sqdist dim c x < radius2)%Q.
Proof.
  intros NE O0 O1 R B J (y & Y & D). destruct Pin as (DD & LI). destruct Pout as (_ & LO).
  assert (DQ : (0 < inject_Z (Z.of_nat dim))%Q) by (destruct DD as [->| ->]; reflexivity).
  assert (MP : (0 < maximum2)%Q).
  { unfold maximum2. apply Qmult_lt_0_compat; [apply Qmult_lt_0_compat; [|exact R]|apply Qmult_lt_0_compat; lra]. apply Qlt_shift_div_l; [exact DQ|]. rewrite Qmult_0_l. reflexivity. }
  destruct (grid_covers dim inMesh maximum2 x NE MP B LI) as (c & C & LC & S).
  assert (S' : (sqdist dim c x <= (1 - overlap) * (1 - overlap) * radius2)%Q).
  { eapply Qle_trans; [exact S|]. unfold maximum2. setoid_replace (inject_Z (Z.of_nat dim) * ((4 # 1) / inject_Z (Z.of_nat dim) * radius2 * ((1 - overlap) * (1 - overlap)) / 4))%Q with ((1 - overlap) * (1 - overlap) * radius2)%Q; [apply Qle_refl|field; lra]. }
  assert (SX : (sqdist dim c x < radius2)%Q).
  { eapply Qle_lt_trans; [exact S'|]. assert (Z : ((1 - overlap) * (1 - overlap) < 1)%Q) by nra. setoid_replace radius2 with (1 * radius2)%Q at 2 by ring. apply Qmult_lt_compat_r; auto. }
  assert (SY := stay_close dim overlap radius2 c x y O0 O1 R S' D).
  exists c. split; [|split; [exact LC|exact SX]]. unfold plain. cbv zeta.
  assert (K1 : In (Ce c false) (tagEmptyClusters radius2 inMesh (map (fun p => Ce p false) (grid (map (axisCenters false inMesh maximum2) (seq 0 dim)))))).
  { apply (tagEmpty_keep dim); auto; [apply in_map_iff; exists c; auto|exists y; auto]. }
  destruct J as [->|X]; [exact K1|]. destruct just; [exact K1|]. apply (tagEmpty_keep dim); auto. exists x. auto.
Qed.
(** the single cluster of a small mesh *)
Lemma single_covers x : inMesh <> [] -> inBox dim inMesh x ->
  let r := (if Qeq_bool (longestEdge dim inMesh) 0 then 1 * 2 else longestEdge dim inMesh * 2)%Q in
  (sqdist dim (boxCenter dim inMesh) x < r * r)%Q.
Proof.
  intros NE B r. destruct Pin as (DD & LI). set (L := longestEdge dim inMesh) in *.
  assert (L0 : (0 <= L)%Q) by (eapply Qle_trans; [apply (edge_nonneg 0 inMesh NE)|apply longest_ge; lia]).
  assert (AX : forall d, d < dim -> ((nth d (boxCenter dim inMesh) 0 - nth d x 0) * (nth d (boxCenter dim inMesh) 0 - nth d x 0) <= L * L)%Q).
  { intros d D. assert (E : nth d (boxCenter dim inMesh) 0%Q = ((upper d inMesh + lower d inMesh) * (1 # 2))%Q).
    { unfold boxCenter. rewrite (nth_indep _ 0%Q ((upper 0 inMesh + lower 0 inMesh) * (1 # 2))%Q) by (rewrite map_length, seq_length; exact D).
      rewrite (map_nth (fun d => ((upper d inMesh + lower d inMesh) * (1 # 2))%Q)). rewrite seq_nth by exact D. reflexivity. }
    rewrite E. destruct (inBox_bounds dim inMesh x d B D) as (A1 & A2). assert (LE := longest_ge dim inMesh d D). fold L in LE. unfold edgeLength in LE. nra. }
  assert (S : (sqdist dim (boxCenter dim inMesh) x <= inject_Z (Z.of_nat dim) * (L * L))%Q).
  { unfold sqdist. apply Qle_trans with (qsum dim (fun _ => (L * L)%Q)); [apply qsum_le; exact AX|].
    clear. generalize (L * L)%Q. intros z. generalize dim as n. intros n. rewrite qsum_const. apply Qle_refl. }
  assert (DQ : (inject_Z (Z.of_nat dim) <= 3)%Q) by (destruct DD as [->| ->]; discriminate).
  eapply Qle_lt_trans; [exact S|]. unfold r. destruct (Qeq_bool L 0) eqn:Z.
  - apply Qeq_bool_iff in Z. rewrite Z. setoid_replace (inject_Z (Z.of_nat dim) * (0 * 0))%Q with 0%Q by ring. reflexivity.
  - assert (LP : (0 < L)%Q). { apply Qnot_le_lt. intros H. assert (X : (L == 0)%Q) by (apply Qle_antisym; assumption). apply Qeq_bool_iff in X. congruence. }
    nra.
Qed.

(** Without projection, each output vertex (or, for just-in-time mappings, each coordinate)
    in the bounding box of the input mesh that has an input vertex closer than the overlap
    is in a cluster. *)
Theorem C80_covers : forall r2 centers x, clustering false = Done r2 centers -> (0 < overlap)%Q -> inMesh <> [] ->
  (just = true \/ In x outMesh) -> inBox dim inMesh x ->
  (exists y, In y inMesh /\ (sqdist dim x y < overlap * overlap * r2)%Q) ->
  exists c, In c centers /\ inCluster dim r2 c x.
Proof.
  intros r2 centers x E O0 NE J B Y. unfold createClustering in E. destruct (Qle_bool 1 overlap) eqn:O1; [discriminate|]. cbn [orb] in E.
  assert (O1' : (overlap < 1)%Q) by (apply Qnot_le_lt; intros H; apply Qle_bool_iff in H; congruence). destruct (k =? 0) eqn:K0; [discriminate|].
  destruct inMesh as [|p0 m0] eqn:EM; [congruence|]. rewrite <- EM in *. cbn [orb] in E.
  assert (NO : match outMesh with [] => true | _ => false end && negb just = false) by (destruct J as [->|J]; [apply andb_false_r|destruct outMesh; [contradiction|reflexivity]]).
  rewrite NO in E. destruct (length inMesh <? k * 2).
  - injection E as <- <-. exists (boxCenter dim inMesh). split; [left; reflexivity|]. apply single_covers; [rewrite EM; discriminate|exact B].
  - fold radius2 in E. destruct (Qeq_bool radius2 0) eqn:R0; [destruct (Qeq_bool (longestEdge dim inMesh) 0); discriminate|].
    assert (R : (0 < radius2)%Q). { apply Qnot_le_lt. intros H. assert (X : (radius2 == 0)%Q) by (apply Qle_antisym; [exact H|apply radius_nonneg]). apply Qeq_bool_iff in X. congruence. }
    cbv zeta in E. fold maximum2 in E. change (match removeTagged plain with [] => Filtered | l => Done radius2 l end = Done r2 centers) in E.
    assert (X : r2 = radius2 /\ centers = removeTagged plain) by (destruct (removeTagged plain); [discriminate|injection E as <- <-; auto]). destruct X as (-> & ->).
    destruct (plain_covers x) as (c & C & LC & S); auto; try (rewrite EM; discriminate). exists c. split; [apply removeTagged_in, C|exact S].
Qed.

(** So there is no error if all output vertices are also input vertices (just-in-time
    mappings have none), and no place is shared by as many vertices as go into a cluster. *)
Theorem C80_no_error : searchesOk closestVertex closestVertices -> (0 < overlap < 1)%Q -> inMesh <> [] -> (just = true \/ outMesh <> []) -> incl outMesh inMesh ->
  (forall i, i < length inMesh -> sharing dim inMesh i < k) ->
  exists r2 centers, clustering false = Done r2 centers /\ (0 < r2)%Q /\ centers <> [] /\
  forall x, (In x outMesh \/ (just = true /\ In x inMesh)) -> exists c, In c centers /\ inCluster dim r2 c x.
Proof.
  intros HS (O0 & O1) NE J IN SH.
  assert (SELF : forall x z, In x inMesh -> (0 < z)%Q -> exists y, In y inMesh /\ (sqdist dim x y < overlap * overlap * z)%Q).
  { intros x z X Z. exists x. split; [exact X|]. unfold sqdist. rewrite (qsum_ext dim _ (fun _ => 0%Q)) by (intros i _; ring). rewrite qsum_zero. apply Qmult_lt_0_compat; [nra|exact Z]. }
  assert (BOX : forall x, In x inMesh -> inBox dim inMesh x).
  { intros x X. split; [apply Pin, X|]. intros d _. exists x, x. repeat split; auto; apply Qle_refl. }
  assert (HD : exists r2 centers, clustering false = Done r2 centers /\ (0 < r2)%Q /\ centers <> []).
  { unfold createClustering. destruct (Qle_bool 1 overlap) eqn:O2; [apply Qle_bool_iff in O2; lra|]. cbn [orb].
    destruct (Nat.eqb_spec k 0) as [K0|K0].
    { exfalso. destruct inMesh as [|p0 m0]; [congruence|]. specialize (SH 0 ltac:(cbn; lia)). lia. }
    destruct inMesh as [|p0 m0] eqn:EM; [congruence|]. rewrite <- EM in *. cbn [orb].
    assert (NO : match outMesh with [] => true | _ => false end && negb just = false) by (destruct J as [->|J]; [apply andb_false_r|destruct outMesh; [congruence|reflexivity]]).
    rewrite NO. destruct (Nat.ltb_spec (length inMesh) (k * 2)) as [LT|LT].
    - do 2 eexists. split; [reflexivity|]. split; [|discriminate]. destruct (Qeq_bool (longestEdge dim inMesh) 0) eqn:Z; [reflexivity|].
      assert (ZN : ~ (longestEdge dim inMesh == 0)%Q) by (intros X; apply Qeq_bool_iff in X; congruence).
      assert (L0 : (0 <= longestEdge dim inMesh)%Q). { destruct Pin as (DD & _). eapply Qle_trans; [apply (edge_nonneg 0 inMesh); rewrite EM; discriminate|apply longest_ge; lia]. }
      nra.
    - fold radius2. assert (R : (0 < radius2)%Q). { unfold radius2. apply (radius_pos closestVertex closestVertices HS); auto; try apply Pin; try (rewrite EM; discriminate). eapply Nat.le_trans; [|exact LT]. lia. }
      destruct (Qeq_bool radius2 0) eqn:R0; [apply Qeq_bool_iff in R0; rewrite R0 in R; discriminate|].
      cbv zeta. fold maximum2. exists radius2, (removeTagged plain).
      change ((match removeTagged plain with [] => Filtered | l => Done radius2 l end) = Done radius2 (removeTagged plain) /\ (0 < radius2)%Q /\ removeTagged plain <> []).
      assert (NP : removeTagged plain <> []).
      { assert (X : exists x, In x inMesh /\ (just = true \/ In x outMesh)).
        { destruct J as [J|J]; [exists p0; rewrite EM; split; [left; reflexivity|left; exact J]|]. destruct outMesh as [|q o']; [congruence|]. exists q. split; [apply IN; left; reflexivity|right; left; reflexivity]. }
        destruct X as (x & X1 & X2). destruct (plain_covers x) as (c & C & _); auto; try (rewrite EM; discriminate). apply removeTagged_in in C. intros N. rewrite N in C. contradiction. }
      split; [|split; [exact R|exact NP]]. destruct (removeTagged plain); [congruence|reflexivity]. }
  destruct HD as (r2 & centers & E & R & NC). exists r2, centers. split; [exact E|]. split; [exact R|]. split; [exact NC|].
  intros x X. assert (XI : In x inMesh) by (destruct X as [X|(_ & X)]; auto). apply (C80_covers r2 centers x E O0 NE); auto. destruct X as [X|(X & _)]; auto.
Qed.

(** With and without projection: no cluster is empty, and projected centers are input vertices. *)
Theorem C80_used : forall project r2 centers c, searchesOk closestVertex closestVertices -> clustering project = Done r2 centers -> k * 2 <= length inMesh -> In c centers ->
  (exists y, In y inMesh /\ inCluster dim r2 c y) /\ (just = false -> exists x, In x outMesh /\ inCluster dim r2 c x) /\ (project = true -> In c inMesh) /\ length c = dim.
Proof.
  intros project r2 centers c HS E KL C. unfold createClustering in E. destruct (Qle_bool 1 overlap) eqn:O1; [discriminate|]. cbn [orb] in E. destruct (Nat.eqb_spec k 0) as [K0|K0]; [discriminate|].
  destruct (match inMesh with [] => true | _ => false end || _) eqn:EE; [injection E as <- <-; contradiction|]. apply orb_false_iff in EE. destruct EE as (EI & EO).
  assert (NE : inMesh <> []) by (destruct inMesh; congruence). destruct (Nat.ltb_spec (length inMesh) (k * 2)) as [LT|_]; [lia|].
  fold radius2 in E. destruct (Qeq_bool radius2 0) eqn:R0; [destruct (Qeq_bool (longestEdge dim inMesh) 0); discriminate|].
  assert (R : (0 < radius2)%Q). { apply Qnot_le_lt. intros H. assert (X : (radius2 == 0)%Q) by (apply Qle_antisym; [exact H|apply radius_nonneg]). apply Qeq_bool_iff in X. congruence. }
  cbv zeta in E. fold maximum2 in E. destruct Pin as (DD & LI). destruct Pout as (_ & LO).
  set (c0 := map (fun p => Ce p false) (grid (map (axisCenters project inMesh maximum2) (seq 0 dim)))) in *.
  set (c2 := if just then tagEmptyClusters radius2 inMesh c0 else tagEmptyClusters radius2 outMesh (tagEmptyClusters radius2 inMesh c0)) in *.
  assert (GL : forall a, In (Ce a false) c0 -> length a = dim). { intros a A. unfold c0 in A. apply in_map_iff in A. destruct A as (q & Q1 & Q2). injection Q1 as ->. eapply grid_length; eauto. }
  assert (TL : forall m' cs a, In (Ce a false) (tagEmptyClusters radius2 m' cs) -> In (Ce a false) cs).
  { intros m' cs a A. unfold tagEmptyClusters in A. apply in_map_iff in A. destruct A as ([b t] & E1 & A). cbn [c_tag c_at] in E1. destruct t; [discriminate|]. injection E1 as -> _. exact A. }
  destruct project.
  - set (dup := tagDuplicateCenters _ _ _) in E.
    assert (X : r2 = radius2 /\ In (Ce c false) (if just then dup else tagEmptyClusters radius2 outMesh dup)).
    { destruct (removeTagged (if just then dup else tagEmptyClusters radius2 outMesh dup)) as [|a l] eqn:RT; [discriminate|]. injection E as <- <-. split; [reflexivity|]. apply removeTagged_in. rewrite RT. exact C. }
    destruct X as (-> & C'). assert (CD : In (Ce c false) dup) by (destruct just; [exact C'|apply TL in C'; exact C']).
    assert (CP : In (Ce c false) (projectCenters closestVertex inMesh c2)). { unfold dup, tagDuplicateCenters in CD. apply tagDuplicate_in in CD; [exact CD|reflexivity]. }
    assert (CI : In c inMesh). { unfold projectCenters in CP. apply in_map_iff in CP. destruct CP as ([a t] & E1 & _). cbn [c_tag c_at] in E1. destruct t; [discriminate|]. injection E1 as <-. unfold pointOf. apply nth_In. apply HS, NE. }
    split; [|split; [|split; [intros _; exact CI|apply LI, CI]]].
    + exists c. split; [exact CI|]. unfold inCluster, sqdist. rewrite (qsum_ext dim _ (fun _ => 0%Q)) by (intros i _; ring). rewrite qsum_zero. exact R.
    + intros J. rewrite J in C'. apply (tagEmpty_spec dim) in C'; [|exact LO|apply LI, CI]. apply C'.
  - assert (X : r2 = radius2 /\ In (Ce c false) c2).
    { destruct (removeTagged c2) as [|a l] eqn:RT; [discriminate|]. injection E as <- <-. split; [reflexivity|]. apply removeTagged_in. rewrite RT. exact C. }
    destruct X as (-> & C'). unfold c2 in C'. assert (LC : length c = dim) by (apply GL; destruct just; repeat (apply TL in C'); exact C'). split; [|split; [|split; [discriminate|exact LC]]].
    + destruct just; [|apply TL in C']; apply (tagEmpty_spec dim) in C'; auto; apply C'.
    + intros J. rewrite J in C'. apply (tagEmpty_spec dim) in C'; auto. apply C'.
Qed.

(** The mapping then reports an error for a coordinate exactly if no cluster has it. *)
Definition toVertex (p : point) : vertex := Vx (nth 0 p 0%Q) (nth 1 p 0%Q) (nth 2 p 0%Q).
Lemma distance_same c x : length c = dim -> length x = dim -> (S_Pum.distance2 (toVertex c) (toVertex x) == sqdist dim c x)%Q.
Proof.
  intros LC LX. destruct Pin as ([-> | ->] & _); unfold S_Pum.distance2, sqdist, toVertex; cbn [v_x v_y v_z qsum].
  - rewrite (nth_overflow c 0%Q (n := 2)), (nth_overflow x 0%Q (n := 2)) by lia. ring.
  - ring.
Qed.
Theorem C80_error_iff : forall project r2 centers omega ax pol radius margin dec outV x, searchesOk closestVertex closestVertices ->
  clustering project = Done r2 centers -> (radius * radius == r2)%Q -> length x = dim ->
  (computeNormalizedWeight omega radius (makeClusters ax pol radius margin dec (map toVertex inMesh) outV (map toVertex centers)) (toVertex x) = None <->
   forall c, In c centers -> ~ inCluster dim r2 c x).
Proof.
  intros project r2 centers omega ax pol radius margin dec outV x HS E RR LX.
  assert (CO : forall c, In c centers -> length c = dim /\ exists y, In y inMesh /\ inCluster dim r2 c y).
  { intros c C. destruct (le_lt_dec (k * 2) (length inMesh)) as [KL|KL].
    - destruct (C80_used project r2 centers c HS E KL C) as (A & _ & _ & L). auto.
    - unfold createClustering in E. destruct (Qle_bool 1 overlap || (k =? 0)); [discriminate|]. destruct (match inMesh with [] => true | _ => false end || _) eqn:EE; [injection E as <- <-; contradiction|].
      apply orb_false_iff in EE. destruct EE as (EI & EO). assert (NE : inMesh <> []) by (destruct inMesh; congruence). apply Nat.ltb_lt in KL. rewrite KL in E. injection E as <- <-.
      destruct C as [<-|[]]. split; [unfold boxCenter; rewrite map_length; apply seq_length|]. destruct inMesh as [|p0 m0] eqn:EM; [congruence|]. rewrite <- EM in *. exists p0. split; [rewrite EM; left; reflexivity|].
      apply single_covers; [exact NE|]. split; [apply Pin; rewrite EM; left; reflexivity|]. intros d _. exists p0, p0. rewrite EM. repeat split; try (left; reflexivity); apply Qle_refl. }
  assert (CL : forall c y, length c = dim -> length y = dim -> (closer (toVertex c) (toVertex y) radius = true <-> inCluster dim r2 c y)).
  { intros c y LC LY. rewrite P_Pum.closer_iff, (distance_same c y LC LY), RR. reflexivity. }
  assert (IN : forall c, In c centers -> In (makeCluster ax pol radius margin dec (map toVertex inMesh) outV (toVertex c)) (makeClusters ax pol radius margin dec (map toVertex inMesh) outV (map toVertex centers))).
  { intros c C. unfold makeClusters. apply filter_In. split; [apply in_map, in_map, C|]. destruct (CO c C) as (LC & y & Y & D). unfold makeCluster. cbn [c_in]. destruct (insideBox (map toVertex inMesh) (toVertex c) radius) eqn:IB; [|reflexivity]. exfalso.
    destruct (In_nth inMesh y [] Y) as (i & Hi & Ei). assert (X : In i (insideBox (map toVertex inMesh) (toVertex c) radius)).
    { unfold insideBox. apply filter_In. rewrite map_length. split; [apply in_seq; lia|]. assert (V : vtx (map toVertex inMesh) i = toVertex y). { unfold vtx. rewrite (nth_indep _ _ (toVertex [])) by (rewrite map_length; exact Hi). rewrite (map_nth toVertex). rewrite Ei. reflexivity. }
      rewrite V. apply CL; auto. apply Pin, Y. }
    rewrite IB in X. contradiction. }
  set (cl := makeClusters _ _ _ _ _ _ _ _) in *. unfold computeNormalizedWeight. set (ids := filter _ _). split.
  - intros N c C D. assert (Z : ids = []) by (destruct ids; [reflexivity|]; destruct (Qle_bool _ 0); discriminate). destruct (In_nth cl _ noCluster (IN c C)) as (j & Hj & Ej).
    assert (X : In j ids). { unfold ids. apply filter_In. split; [apply in_seq; lia|]. rewrite Ej. unfold makeCluster. cbn [c_center]. rewrite P_Pum.closer_sym. apply CL; auto. apply CO, C. }
    rewrite Z in X. contradiction.
  - intros N. destruct ids as [|j r] eqn:Z; [reflexivity|]. exfalso. assert (X : In j ids) by (rewrite Z; left; reflexivity). unfold ids in X. apply filter_In in X. destruct X as (Hj & D). apply in_seq in Hj.
    assert (M : In (nth j cl noCluster) cl) by (apply nth_In; lia). unfold cl at 2, makeClusters in M. apply filter_In in M. destruct M as (M & _). rewrite map_map in M. apply in_map_iff in M. destruct M as (c & EC & C).
    rewrite <- EC in D. unfold makeCluster in D. cbn [c_center] in D. rewrite P_Pum.closer_sym in D. apply CL in D; [|apply CO, C|exact LX]. exact (N c C D).
Qed.
End Theorems.
Print Assumptions C80_error_iff.
Print Assumptions C80_covers.
Print Assumptions C80_no_error.
Print Assumptions C80_used.

(** Removing duplicates: of two centers of adjacent cells of the grid that are closer than
    the threshold one is removed, and the last of several is kept. *)
Definition position (n1 n2 x y z : nat) : nat := (x * n1 + y) * n2 + z.
Definition near (a b : nat) : Prop := a <= S b /\ b <= S a.
Lemma tagAt_nth cs id i : nth_error (tagAt cs id) i = option_map (fun c => if i =? id then Ce (c_at c) true else c) (nth_error cs i).
Proof.
  unfold tagAt. rewrite nth_error_map. assert (G : forall a, nth_error (combine (seq a (length cs)) cs) i = option_map (fun c => (a + i, c)) (nth_error cs i)).
  { revert i. induction cs as [|c cs IH]; intros i a; [destruct i; reflexivity|]. cbn [length seq combine]. destruct i as [|i]; cbn [nth_error option_map]; [rewrite Nat.add_0_r; reflexivity|]. rewrite IH. destruct (nth_error cs i); cbn [option_map]; [|reflexivity]. do 2 f_equal. lia. }
  rewrite G. destruct (nth_error cs i); cbn [option_map fst snd plus]; reflexivity.
Qed.
Definition dupStep (offsets : list Z) (t : Q) (cs : list center) (id : nat) : list center :=
  match nth_error cs id with
  | Some c => if negb (c_tag c) && hasNeighborWithin cs id t offsets then tagAt cs id else cs
  | None => cs
  end.
Lemma dupStep_length offsets t cs id : length (dupStep offsets t cs id) = length cs.
Proof. unfold dupStep. destruct (nth_error cs id) as [c|]; [|reflexivity]. destruct (negb (c_tag c) && _); [|reflexivity]. unfold tagAt. rewrite map_length, combine_length, seq_length. apply Nat.min_id. Qed.
Lemma dupStep_back offsets t cs id i p : nth_error (dupStep offsets t cs id) i = Some (Ce p false) -> nth_error cs i = Some (Ce p false).
Proof.
  unfold dupStep. destruct (nth_error cs id) as [c|]; [|auto]. destruct (negb (c_tag c) && _); [|auto]. rewrite tagAt_nth. destruct (nth_error cs i) as [d|]; cbn [option_map]; [|discriminate]. destruct (i =? id); [discriminate|auto].
Qed.
Lemma dup_back offsets t ids : forall cs i p, nth_error (fold_left (dupStep offsets t) ids cs) i = Some (Ce p false) -> nth_error cs i = Some (Ce p false).
Proof. induction ids as [|a ids IH]; intros cs i p H; [exact H|]. cbn [fold_left] in H. eapply dupStep_back, IH, H. Qed.
Lemma dup_length offsets t ids : forall cs, length (fold_left (dupStep offsets t) ids cs) = length cs.
Proof. induction ids as [|a ids IH]; intros cs; [reflexivity|]. cbn [fold_left]. rewrite IH. apply dupStep_length. Qed.
Lemma dup_apart offsets t cs i j p q : In (Z.of_nat j - Z.of_nat i)%Z offsets -> i <> j ->
  nth_error (tagDuplicateCenters offsets t cs) i = Some (Ce p false) -> nth_error (tagDuplicateCenters offsets t cs) j = Some (Ce q false) -> closerThan t p q = false.
Proof.
  intros O N Hi Hj. change (tagDuplicateCenters offsets t cs) with (fold_left (dupStep offsets t) (seq 0 (length cs)) cs) in Hi, Hj.
  assert (I : i < length cs) by (rewrite <- (dup_length offsets t (seq 0 (length cs)) cs); apply nth_error_Some; congruence).
  assert (J : j < length cs) by (rewrite <- (dup_length offsets t (seq 0 (length cs)) cs); apply nth_error_Some; congruence).
  assert (E : seq 0 (length cs) = seq 0 i ++ i :: seq (S i) (length cs - S i)). { replace (length cs) with (i + S (length cs - S i)) at 1 by lia. rewrite seq_app. reflexivity. }
  rewrite E, fold_left_app in Hi, Hj. cbn [fold_left] in Hi, Hj. apply dup_back in Hi. apply dup_back in Hj.
  assert (LB : length (fold_left (dupStep offsets t) (seq 0 i) cs) = length cs) by apply dup_length.
  set (b := fold_left (dupStep offsets t) (seq 0 i) cs) in *. clearbody b. assert (Bi := dupStep_back _ _ _ _ _ _ Hi). assert (Bj := dupStep_back _ _ _ _ _ _ Hj).
  destruct (closerThan t p q) eqn:C; [|reflexivity]. exfalso. unfold dupStep in Hi. rewrite Bi in Hi. cbn [c_tag negb andb] in Hi.
  assert (W : hasNeighborWithin b i t offsets = true).
  { unfold hasNeighborWithin. apply existsb_exists. exists (Z.of_nat j - Z.of_nat i)%Z. split; [exact O|]. cbv zeta. replace (Z.of_nat i + (Z.of_nat j - Z.of_nat i))%Z with (Z.of_nat j) by lia. rewrite Nat2Z.id, Bi, Bj. cbn [c_tag c_at negb andb]. rewrite C.
    rewrite !andb_true_iff, negb_true_iff, Z.eqb_neq, Z.leb_le, Z.ltb_lt. lia. }
  rewrite W, tagAt_nth, Bi, Nat.eqb_refl in Hi. discriminate.
Qed.
Theorem C80_neighbours_apart : forall n1 n2 threshold2 centers x y z x' y' z' p q, near x x' -> near y y' -> near z z' -> z < n2 -> z' < n2 ->
  let cs := tagDuplicateCenters (neighborOffsets (negb (Z.of_nat n2 =? 1)%Z) (Z.of_nat n1) (Z.of_nat n2)) threshold2 centers in
  position n1 n2 x y z <> position n1 n2 x' y' z' ->
  nth_error cs (position n1 n2 x y z) = Some (Ce p false) -> nth_error cs (position n1 n2 x' y' z') = Some (Ce q false) ->
  (threshold2 <= dist2 p q)%Q.
Proof.
  intros n1 n2 t centers x y z x' y' z' p q X Y Z Hz Hz' cs N Hi Hj.
  assert (A : forall a b, near a b -> In (Z.of_nat b - Z.of_nat a)%Z around).
  { intros a b (H1 & H2). unfold around. cbn [In]. lia. }
  assert (C : closerThan t p q = false).
  { eapply dup_apart; [|exact N|exact Hi|exact Hj]. unfold neighborOffsets. apply in_flat_map. exists (Z.of_nat x' - Z.of_nat x)%Z. split; [apply A, X|]. apply in_flat_map. exists (Z.of_nat y' - Z.of_nat y)%Z. split; [apply A, Y|].
    apply in_map_iff. exists (Z.of_nat z' - Z.of_nat z)%Z. split; [unfold zCurve, position; lia|]. destruct (Z.eqb_spec (Z.of_nat n2) 1) as [E|E]; cbn [negb]; [|apply A, Z]. assert (z = 0 /\ z' = 0) as (-> & ->) by lia. left. reflexivity. }
  unfold closerThan in C. apply negb_false_iff, Qle_bool_iff in C. exact C.
Qed.
(** nothing else is removed *)
Theorem C80_only_duplicates_removed : forall offsets threshold2 centers i p,
  nth_error centers i = Some (Ce p false) -> nth_error (tagDuplicateCenters offsets threshold2 centers) i <> Some (Ce p false) ->
  exists j q, j <> i /\ nth_error centers j = Some (Ce q false) /\ closerThan threshold2 p q = true /\ In (Z.of_nat j - Z.of_nat i)%Z offsets.
Proof.
  intros offsets t centers i p H K. change (tagDuplicateCenters offsets t centers) with (fold_left (dupStep offsets t) (seq 0 (length centers)) centers) in K. revert K.
  assert (G : forall ids cs, (forall k q, nth_error cs k = Some (Ce q false) -> nth_error centers k = Some (Ce q false)) -> nth_error cs i = Some (Ce p false) ->
     nth_error (fold_left (dupStep offsets t) ids cs) i <> Some (Ce p false) -> exists j q, j <> i /\ nth_error centers j = Some (Ce q false) /\ closerThan t p q = true /\ In (Z.of_nat j - Z.of_nat i)%Z offsets).
  { induction ids as [|a ids IH]; intros cs B Hi K; cbn [fold_left] in K; [congruence|].
    destruct (match nth_error (dupStep offsets t cs a) i with Some (Ce p' false) => true | _ => false end) eqn:D.
    - apply (IH (dupStep offsets t cs a)); [intros k q Hk; apply B; eapply dupStep_back, Hk| |exact K].
      destruct (nth_error (dupStep offsets t cs a) i) as [[p' [|]]|] eqn:E; [discriminate| |discriminate]. apply dupStep_back in E. congruence.
    - clear IH K. unfold dupStep in D. destruct (nth_error cs a) as [c|] eqn:Ea; [|rewrite Hi in D; discriminate]. destruct (negb (c_tag c) && hasNeighborWithin cs a t offsets) eqn:W; [|rewrite Hi in D; discriminate].
      rewrite tagAt_nth, Hi in D. cbn [option_map] in D. destruct (Nat.eqb_spec i a) as [<-|NA]; [|discriminate]. rewrite Hi in Ea. injection Ea as <-. apply andb_true_iff in W. destruct W as (_ & W).
      unfold hasNeighborWithin in W. apply existsb_exists in W. destruct W as (off & O & W). cbv zeta in W. rewrite !andb_true_iff, negb_true_iff, Z.eqb_neq, Z.leb_le, Z.ltb_lt in W. destruct W as (((W1 & W2) & W3) & W4).
      rewrite Hi in W4. destruct (nth_error cs (Z.to_nat (Z.of_nat i + off))) as [[q [|]]|] eqn:Ej; cbn [c_tag c_at negb andb] in W4; try discriminate.
      exists (Z.to_nat (Z.of_nat i + off)), q. split; [lia|]. split; [apply B, Ej|]. split; [exact W4|]. replace (Z.of_nat (Z.to_nat (Z.of_nat i + off)) - Z.of_nat i)%Z with off by lia. exact O. }
  apply G; auto.
Qed.
Print Assumptions C80_neighbours_apart.
Print Assumptions C80_only_duplicates_removed.

(** A search for nearest vertices: sorted by distance, the first ones. *)
Fixpoint insertBy (key : nat -> Q) (i : nat) (l : list nat) : list nat :=
  match l with [] => [i] | j :: r => if Qle_bool (key i) (key j) then i :: l else j :: insertBy key i r end.
Definition byDistance (m : list point) (p : point) : list nat := fold_right (insertBy (fun i => dist2 (nth i m []) p)) [] (seq 0 (length m)).
Definition nearest (m : list point) (p : point) : nat := hd 0 (byDistance m p).
Definition nearestOnes (m : list point) (p : point) (k : nat) : list nat := firstn k (byDistance m p).
Lemma insertBy_in key i l j : In j (insertBy key i l) <-> i = j \/ In j l.
Proof. induction l as [|a l IH]; cbn [insertBy In]; [tauto|]. destruct (Qle_bool (key i) (key a)); cbn [In]; [tauto|]. rewrite IH. tauto. Qed.
Lemma insertBy_length key i l : length (insertBy key i l) = S (length l).
Proof. induction l as [|a l IH]; cbn [insertBy]; [reflexivity|]. destruct (Qle_bool (key i) (key a)); cbn [length]; [reflexivity|]. now rewrite IH. Qed.
Lemma insertBy_nodup key i l : ~ In i l -> NoDup l -> NoDup (insertBy key i l).
Proof.
  induction l as [|a l IH]; cbn [insertBy]; intros N D; [constructor; auto|]. inversion D as [|a' l' NA DL]; subst. destruct (Qle_bool (key i) (key a)); [constructor; auto|].
  constructor; [|apply IH; auto; intros H; apply N; right; exact H]. rewrite insertBy_in. intros [->|H]; [apply N; left; reflexivity|auto].
Qed.
Lemma sorted_all key l : NoDup l -> let s := fold_right (insertBy key) [] l in NoDup s /\ length s = length l /\ forall i, In i s <-> In i l.
Proof.
  induction l as [|a l IH]; intros D; cbn [fold_right]; [split; [constructor|split; [reflexivity|tauto]]|]. inversion D as [|a' l' NA DL]; subst. destruct (IH DL) as (S1 & S2 & S3).
  split; [apply insertBy_nodup; auto; rewrite S3; exact NA|]. split; [rewrite insertBy_length, S2; reflexivity|]. intros i. rewrite insertBy_in, S3. cbn [In]. tauto.
Qed.
Lemma sorted_head key l i : In i l -> (key (hd 0%nat (fold_right (insertBy key) [] l)) <= key i)%Q.
Proof.
  revert i. induction l as [|a l IH]; intros i I; [contradiction|]. cbn [fold_right]. set (s := fold_right (insertBy key) [] l) in *. assert (H : s = [] -> l = []). { intros E. destruct l as [|b l']; [reflexivity|]. unfold s in E. cbn [fold_right] in E. apply (f_equal (@length nat)) in E. rewrite insertBy_length in E. discriminate. }
  destruct s as [|b r]; cbn [insertBy hd] in *.
  - rewrite (H eq_refl) in I. destruct I as [<-|[]]. apply Qle_refl.
  - destruct (Qle_bool (key a) (key b)) eqn:E; cbn [hd].
    + apply Qle_bool_iff in E. destruct I as [<-|I]; [apply Qle_refl|]. eapply Qle_trans; [exact E|apply IH, I].
    + destruct I as [<-|I]; [|apply IH, I]. apply Qlt_le_weak, Qnot_le_lt. intros X. apply Qle_bool_iff in X. congruence.
Qed.
Lemma searches_ok : searchesOk nearest nearestOnes.
Proof.
  assert (A : forall m p, let s := byDistance m p in NoDup s /\ length s = length m /\ forall i, In i s <-> In i (seq 0 (length m))).
  { intros m p. destruct (sorted_all (fun i => dist2 (nth i m []) p) (seq 0 (length m)) (seq_NoDup _ _)) as (S1 & S2 & S3). unfold byDistance. split; [exact S1|]. split; [rewrite S2; apply seq_length|exact S3]. }
  split.
  - intros m p NE. destruct (A m p) as (_ & L & I). unfold nearest. destruct (byDistance m p) as [|i r]; [destruct m; [congruence|discriminate]|]. assert (X := proj1 (I i) (or_introl eq_refl)). apply in_seq in X. cbn [hd]. lia.
  - intros m p k NE. destruct (A m p) as (D & L & I). unfold nearestOnes. rewrite <- (firstn_skipn k (byDistance m p)) in D, I. split; [|split; [rewrite firstn_length, L; reflexivity|]].
    + clear -D. induction (firstn k (byDistance m p)) as [|a l IH]; [constructor|]. cbn [app] in D. inversion D as [|a' l' NA DL]; subst. constructor; [|auto]. intros X. apply NA, in_or_app. auto.
    + intros i X. assert (Y := proj1 (I i) (in_or_app _ _ _ (or_introl X))). apply in_seq in Y. lia.
Qed.
Lemma nearest_closest m p i : i < length m -> (dist2 (nth (nearest m p) m []) p <= dist2 (nth i m []) p)%Q.
Proof. intros H. apply (sorted_head (fun i => dist2 (nth i m []) p)). apply in_seq. lia. Qed.

(** With one vertex per cluster the radius is zero, and the number of clusters is infinity
    converted to an unsigned integer. *)
Theorem C80_one_vertex_per_cluster_refuted : forall closestVertex closestVertices dim inMesh outMesh just overlap project,
  searchesOk closestVertex closestVertices ->
  (forall i j, i < length inMesh -> In j (closestVertices inMesh (nth i inMesh []) 1) -> (dist2 (nth j inMesh []) (nth i inMesh []) == 0)%Q) ->
  2 <= length inMesh -> ~ (longestEdge dim inMesh == 0)%Q -> (just = true \/ outMesh <> []) ->
  createClustering closestVertex closestVertices dim inMesh outMesh just overlap 1 project = Undefined.
Proof.
  intros cV cVs dim inMesh outMesh just overlap project HS H L2 LE J. unfold createClustering. destruct (Qle_bool 1 overlap); [reflexivity|]. cbn [orb Nat.eqb].
  destruct inMesh as [|p0 m0] eqn:EM; [cbn in L2; lia|]. rewrite <- EM in *. cbn [orb]. assert (NE : inMesh <> []) by (rewrite EM; discriminate).
  assert (NO : match outMesh with [] => true | _ => false end && negb just = false) by (destruct J as [->|J]; [apply andb_false_r|destruct outMesh; [congruence|reflexivity]]). rewrite NO.
  destruct (Nat.ltb_spec (length inMesh) (1 * 2)) as [LT|_]; [lia|].
  assert (R : (estimateClusterRadius cV cVs dim 1 inMesh == 0)%Q).
  { unfold estimateClusterRadius. set (l := map _ _). assert (I : In (middle l) l) by (apply middle_in; unfold l; discriminate). apply in_map_iff in I. destruct I as (p & E & _). rewrite <- E. unfold sampledRadius. cbv zeta.
    assert (A : cV inMesh p < length inMesh) by (apply HS, NE). unfold pointOf. generalize (fun j => H _ j A). generalize (cVs inMesh (nth (cV inMesh p) inMesh []) 1) as l'. intros l'.
    induction l' as [|j l' IH]; intros X; cbn [fold_right]; [reflexivity|]. rewrite IH by (intros j' X'; apply X; right; exact X'). rewrite (X j (or_introl eq_refl)). reflexivity. }
  apply Qeq_bool_iff in R. rewrite R. destruct (Qeq_bool (longestEdge dim inMesh) 0) eqn:Z; [apply Qeq_bool_iff in Z; contradiction|reflexivity].
Qed.
Print Assumptions C80_one_vertex_per_cluster_refuted.

(** Examples, with the search for nearest vertices above *)
Definition p2 (x y : Z) : point := [inject_Z x; inject_Z y].
Definition run (m out : list point) (just : bool) (overlap : Q) (k : nat) (project : bool) : outcome := createClustering nearest nearestOnes 2 m out just overlap k project.
Definition outside (o : outcome) (x : point) : bool := match o with Done r2 cs => negb (match cs with [] => true | _ => false end) && forallb (fun c => (length c =? 2) && negb (closerThan r2 c x)) cs | _ => false end.
Lemma outside_spec o x : length x = 2 -> outside o x = true -> exists r2 cs, o = Done r2 cs /\ cs <> [] /\ forall c, In c cs -> ~ inCluster 2 r2 c x.
Proof.
  intros LX H. destruct o as [r2 cs| |]; [|discriminate|discriminate]. cbn [outside] in H. apply andb_true_iff in H. destruct H as (H1 & H). rewrite forallb_forall in H.
  exists r2, cs. split; [reflexivity|]. split; [destruct cs; [discriminate|discriminate]|]. intros c C D. specialize (H c C). apply andb_true_iff in H. destruct H as (L & H). apply Nat.eqb_eq in L. apply negb_true_iff in H.
  assert (X : closerThan r2 c x = true) by (apply (closerThan_iff 2); auto). congruence.
Qed.
(** With projection, the default, clusters may leave out vertices of the input mesh, even if
    the output mesh is the same. *)
Definition meshP : list point := [p2 5 10; p2 6 10; p2 10 10; p2 1 7; p2 7 10].
Theorem C80_projected_refuted : points 2 meshP /\ NoDup meshP /\ In (p2 6 10) meshP /\
  exists r2 centers, run meshP meshP false (3 # 20) 2 true = Done r2 centers /\ centers <> [] /\ forall c, In c centers -> ~ inCluster 2 r2 c (p2 6 10).
Proof.
  split; [split; [left; reflexivity|]; intros p H; repeat (destruct H as [<-|H]; [reflexivity|]); contradiction|].
  split; [repeat constructor; cbn; intros H; repeat (destruct H as [H|H]; [discriminate|]); exact H|]. split; [right; left; reflexivity|].
  apply outside_spec; [reflexivity|]. vm_compute. reflexivity.
Qed.
(** Without overlap the corners of the grid are left out. *)
Definition meshO : list point := [p2 1 3; p2 4 1; p2 0 0; p2 4 4; p2 0 2; p2 2 4].
Theorem C80_no_overlap_refuted : points 2 meshO /\ NoDup meshO /\ In (p2 4 4) meshO /\
  exists r2 centers, run meshO meshO false 0 2 false = Done r2 centers /\ centers <> [] /\ forall c, In c centers -> ~ inCluster 2 r2 c (p2 4 4).
Proof.
  split; [split; [left; reflexivity|]; intros p H; repeat (destruct H as [<-|H]; [reflexivity|]); contradiction|].
  split; [repeat constructor; cbn; intros H; repeat (destruct H as [H|H]; [discriminate|]); exact H|]. split; [right; right; right; left; reflexivity|].
  apply outside_spec; [reflexivity|]. vm_compute. reflexivity.
Qed.
(** If the vertices lie on a line along an axis (or in a plane), no duplicates are removed: two clusters are the same. *)
Definition meshL : list point := [p2 8 0; p2 3 0; p2 10 0; p2 7 0].
Theorem C80_duplicates_refuted : points 2 meshL /\ NoDup meshL /\
  exists r2 centers i j, run meshL meshL false (3 # 20) 2 true = Done r2 centers /\ i < j < length centers /\ nth i centers [] = nth j centers [].
Proof.
  split; [split; [left; reflexivity|]; intros p H; repeat (destruct H as [<-|H]; [reflexivity|]); contradiction|].
  split; [repeat constructor; cbn; intros H; repeat (destruct H as [H|H]; [discriminate|]); exact H|].
  destruct (run meshL meshL false (3 # 20) 2 true) as [r2 cs| |] eqn:E; [|exfalso; vm_compute in E; discriminate|exfalso; vm_compute in E; discriminate].
  exists r2, cs, 2, 3. split; [reflexivity|]. vm_compute in E. injection E as _ <-. split; [cbn; lia|reflexivity].
Qed.
Print Assumptions C80_projected_refuted.
Print Assumptions C80_no_overlap_refuted.
Print Assumptions C80_duplicates_refuted.

(** The hypotheses of C80_no_error are met by the mesh of C80_projected_refuted: without
    projection it is covered. *)
Example no_error_applies : exists r2 centers, run meshP meshP false (3 # 20) 2 false = Done r2 centers /\ (0 < r2)%Q /\ centers <> [] /\
  forall x, In x meshP -> exists c, In c centers /\ inCluster 2 r2 c x.
Proof.
  destruct C80_projected_refuted as (P & _). destruct (C80_no_error nearest nearestOnes 2 meshP meshP false (3 # 20) 2 P P searches_ok) as (r2 & cs & E & R & N & C).
  - split; reflexivity.
  - discriminate.
  - right. discriminate.
  - intros x X. exact X.
  - intros i Hi. apply Nat.ltb_lt. cbn in Hi. do 5 (destruct i as [|i]; [vm_compute; reflexivity|]). lia.
  - exists r2, cs. split; [exact E|]. split; [exact R|]. split; [exact N|]. intros x X. apply C. left. exact X.
Qed.
(** more than one cluster *)
Example several_clusters : match run meshP meshP false (3 # 20) 2 false with Done _ cs => length cs | _ => 0 end = 5. Proof. vm_compute. reflexivity. Qed.
(** a small mesh: one cluster; a just-in-time mapping *)
Example one_cluster : match run [p2 0 0; p2 4 1] [] true (3 # 20) 2 true with Done r2 [c] => Qeq_bool r2 64 && Qeq_bool (dist2 c [2%Q; (1 # 2)%Q]) 0 | _ => false end = true. Proof. vm_compute. reflexivity. Qed.
(** all vertices at the same place *)
Example filtered_out : run [p2 1 1; p2 1 1; p2 1 1; p2 1 1] [p2 1 1] false (3 # 20) 2 false = Filtered. Proof. vm_compute. reflexivity. Qed.
