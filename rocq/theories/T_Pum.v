(** Partition-of-unity mappings (C66). *)
From Coq Require Import List Arith Bool QArith Lia Setoid.
From Verif Require Import M_Rbf S_Rbf P_Rbf P_RbfPar P_RbfLin M_Pum S_Pum P_PumLocal P_Pum P_PumJit P_PumRun.
Import ListNotations.
Open Scope Q_scope.

Section T.
Variable phi omega : Q -> Q.
Variable ax : axes.
Variable pol : polynomial.
Variable radius margin : Q.
Variable dec : list vertex -> decomposition.
Variable inM outM centers : list vertex.
Notation proper := (proper_pum phi ax pol radius margin dec inM outM centers).
Notation compute := (computeMapping omega ax pol radius margin dec inM outM centers).
Notation clusters := (makeClusters ax pol radius margin dec inM outM centers).

(** C66: the weights of a vertex are those of the clusters it lies in; they sum
    up to one *)
Theorem C66_partition_of_unity : forall cl y ws, computeNormalizedWeight omega radius cl y = Some ws ->
  NoDup (map fst ws) /\ (forall k, In k (map fst ws) <-> exists c, nth_error cl k = Some c /\ distance2 (c_center c) y < radius * radius) /\
  total (map snd ws) == 1.
Proof.
  intros cl y ws E. destruct (nw_spec omega radius cl y ws E) as (ND & MEM & S). split; [exact ND|]. split.
  - intros k. rewrite MEM. split.
    + intros (Hk & C). exists (nth k cl noCluster). split; [apply nth_error_nth'; exact Hk|]. rewrite closer_sym in C. apply closer_iff in C. exact C.
    + intros (c & Ec & D). split; [apply nth_error_Some; congruence|]. rewrite (nth_error_nth _ _ noCluster Ec), closer_sym. apply closer_iff. exact D.
  - rewrite <- S. clear. induction ws as [|(k, w) ws IH]; cbn [map lsum total snd]; [reflexivity|]. rewrite IH. reflexivity.
Qed.

(** C66: the mapping can be computed if every vertex lies in a cluster and none
    within the tolerance of the edge of a cluster *)
Theorem C66_can_be_computed :
  (forall d, 0 <= d -> d < radius * radius -> 0 < omega d) -> (forall x y, x == y -> omega x == omega y) ->
  (forall g, (g < length outM)%nat -> (exists c, In c clusters /\ distance2 (c_center c) (vtx outM g) < radius * radius) /\
     forall c, In c clusters -> distance2 (c_center c) (vtx outM g) < radius * radius -> distance2 (c_center c) (vtx outM g) < (radius - margin) * (radius - margin)) ->
  exists m, compute = Some m.
Proof. intros P X H. exact (computes omega ax pol radius margin dec inM outM centers P X H). Qed.
(** C66: within the tolerance it fails (refutes that every covered vertex is mapped) *)
Theorem C66_edge_of_a_cluster_refuted : 0 <= margin -> margin < radius -> forall g c, (g < length outM)%nat -> In c clusters ->
  distance2 (c_center c) (vtx outM g) < radius * radius -> ~ distance2 (c_center c) (vtx outM g) < (radius - margin) * (radius - margin) -> compute = None.
Proof. intros M1 M2 g c Hg IC D ND. exact (margin_fails omega ax pol radius margin dec inM outM centers (conj M1 M2) g c Hg IC D ND). Qed.

(** C66: an output vertex at the place of an input vertex gets its value *)
Theorem C66_exact_at_input_vertices : forall m v g i, proper -> compute = Some m -> (g < length outM)%nat -> (i < length inM)%nat ->
  same_place ax (vtx outM g) (vtx inM i) -> at_ (pumConsistent phi m v (length outM)) g == at_ v i.
Proof.
  intros m v g i (PE & M1 & M2 & NO & FI & FO & G) E Hg Hi SP. pose proof (m_clusters omega ax pol radius margin dec inM outM centers m E) as MC.
  destruct (consistent_value phi omega PE ax pol radius margin dec inM outM centers m E (conj M1 M2) NO G FI FO v g Hg) as (ws & EW & V).
  rewrite V. destruct (nw_spec omega radius _ _ _ EW) as (_ & MEM & S). apply (mean ws (value phi m v (vtx outM g))); [exact S|]. intros p I.
  destruct (MEM (fst p)) as (K1 & _). destruct (K1 (in_map fst _ _ I)) as (Hk & C). unfold value. rewrite MC in *.
  exact (valueAt_exact phi PE ax pol radius margin dec inM centers NO FI outM G v (vtx outM g) (fst p) i Hk C (FO _ (nth_In _ _ Hg)) Hi SP).
Qed.

(** C66: with a polynomial, linear functions are mapped exactly *)
Theorem C66_linear_functions_are_exact : forall m a0 a1 a2 a3 g, proper -> compute = Some m -> pol = SEPARATE -> seen_by_all (p_clusters m) a1 a2 a3 ->
  (g < length outM)%nat -> at_ (pumConsistent phi m (map (linear a0 a1 a2 a3) inM) (length outM)) g == linear a0 a1 a2 a3 (vtx outM g).
Proof.
  intros m a0 a1 a2 a3 g (PE & M1 & M2 & NO & FI & FO & G) E ES D Hg. pose proof (m_clusters omega ax pol radius margin dec inM outM centers m E) as MC.
  destruct (consistent_value phi omega PE ax pol radius margin dec inM outM centers m E (conj M1 M2) NO G FI FO (map (linear a0 a1 a2 a3) inM) g Hg) as (ws & EW & V).
  rewrite V. destruct (nw_spec omega radius _ _ _ EW) as (_ & MEM & S). apply (mean ws (value phi m (map (linear a0 a1 a2 a3) inM) (vtx outM g))); [exact S|]. intros p I.
  destruct (MEM (fst p)) as (K1 & _). destruct (K1 (in_map fst _ _ I)) as (Hk & C). unfold value. rewrite MC in *.
  apply (valueAt_linear phi PE ax pol radius margin dec inM centers FI outM G a0 a1 a2 a3 (vtx outM g) (fst p) Hk ES); [|apply FO, nth_In, Hg].
  apply D. apply nth_In. exact Hk.
Qed.

(** C66: the conservative mapping is the transposed consistent mapping *)
Theorem C66_conservative_is_transposed_consistent : forall m v u, proper -> compute = Some m -> length v = length inM -> length u = length outM ->
  dot v (pumConservative phi m u (length inM)) == dot (pumConsistent phi m v (length outM)) u.
Proof.
  intros m v u (PE & M1 & M2 & NO & FI & FO & G) E Lv Lu.
  rewrite !dot_sumn; [|rewrite (consistent_length_all phi outM m v); congruence|rewrite (proj2 (conservative_sum phi omega ax pol radius margin dec inM outM centers m E NO G (fun _ => 0) u)); exact Lv].
  rewrite Lv, (consistent_length_all phi outM m v). rewrite (pum_transposed phi omega ax pol radius margin dec inM outM centers m E NO G v u). apply sumn_ext. intros i _. ring.
Qed.

(** C66: with a polynomial, a conservative mapping keeps the sum of the values
    (a0 = 1, others 0) and their first moments *)
Theorem C66_conservative_keeps_sum_and_moments : forall m u a0 a1 a2 a3, proper -> compute = Some m -> pol = SEPARATE -> seen_by_all (p_clusters m) a1 a2 a3 ->
  length u = length outM ->
  weighted (linear a0 a1 a2 a3) (combine inM (pumConservative phi m u (length inM))) == weighted (linear a0 a1 a2 a3) (combine outM u).
Proof.
  intros m u a0 a1 a2 a3 P E ES D Lu. pose proof P as (PE & M1 & M2 & NO & FI & FO & G).
  assert (length (pumConservative phi m u (length inM)) = length inM) as LC by exact (proj2 (conservative_sum phi omega ax pol radius margin dec inM outM centers m E NO G (fun _ => 0) u)).
  rewrite !weighted_sumn by assumption. rewrite (pum_transposed phi omega ax pol radius margin dec inM outM centers m E NO G (map (linear a0 a1 a2 a3) inM) u).
  apply sumn_ext. intros g Hg. rewrite (C66_linear_functions_are_exact m a0 a1 a2 a3 g P E ES D Hg).
  assert (at_ (map (linear a0 a1 a2 a3) outM) g = linear a0 a1 a2 a3 (vtx outM g)) as ->; [|ring].
  unfold at_, vtx. rewrite (nth_indep _ 0 (linear a0 a1 a2 a3 origin)) by (rewrite map_length; exact Hg). apply map_nth.
Qed.

(** C66: reading at coordinates gives what a mapping to a mesh with a vertex
    there gives; [out'] is the mesh the clusters were made with *)
Theorem C66_reading_at_coordinates_as_mapping : forall m v g out', proper -> compute = Some m -> (g < length outM)%nat ->
  let cl := makeClusters ax pol radius margin dec inM out' centers in
  exists x, mapConsistentAt phi omega radius cl (updateCache cl v) (vtx outM g) = Some x /\ x == at_ (pumConsistent phi m v (length outM)) g.
Proof.
  intros m v g out' (PE & M1 & M2 & NO & FI & FO & G) E Hg cl. pose proof (m_clusters omega ax pol radius margin dec inM outM centers m E) as MC.
  destruct (consistent_value phi omega PE ax pol radius margin dec inM outM centers m E (conj M1 M2) NO G FI FO v g Hg) as (ws & EW & V).
  rewrite MC in EW. pose proof EW as EW0. rewrite <- (nw_reout omega ax pol radius margin dec inM centers outM out') in EW.
  destruct (readAt phi omega ax pol radius margin dec inM centers out' v (vtx outM g) ws EW) as (x & Ex & X). exists x. split; [exact Ex|]. rewrite X, V. apply lsum_ext. intros p I.
  destruct (nw_spec omega radius _ _ _ EW) as (_ & MEM & _). destruct (MEM (fst p)) as (K1 & _). destruct (K1 (in_map fst _ _ I)) as (Hk & _).
  rewrite (valueAt_reout phi ax pol radius margin dec inM centers out' outM) by exact Hk. unfold value. rewrite MC. reflexivity.
Qed.
End T.

Section W.
Variable phi omega : Q -> Q.
Variable ax : axes.
Variable pol : polynomial.
Variable radius margin : Q.
Variable dec : list vertex -> decomposition.
Variable inM outM centers : list vertex.
Notation proper := (proper_pum phi ax pol radius margin dec inM outM centers).
Notation compute := (computeMapping omega ax pol radius margin dec inM outM centers).
Notation clusters := (makeClusters ax pol radius margin dec inM outM centers).

(** C66: writing at coordinates is transposed reading at coordinates, if no
    cluster forgets loads *)
Theorem C66_writing_is_transposed_reading : forall loads cache v, proper -> length v = length inM ->
  writeAll phi omega radius clusters (emptyCache pol clusters) loads = Some cache -> (forall ca, In ca cache -> nothing_lost ca) ->
  dot v (completeJustInTime clusters cache (length inM)) ==
  weighted (fun y => match mapConsistentAt phi omega radius clusters (updateCache clusters v) y with Some x => x | None => 0 end) loads.
Proof.
  intros loads cache v (PE & M1 & M2 & NO & FI & FO & G) Lv E NL.
  destruct (writeAll_ok phi omega ax pol radius margin dec inM centers outM loads _ _ [] (cache_empty phi omega ax pol radius margin dec inM centers NO FI outM G) E) as (CO & HN). cbn [app] in CO.
  destruct (complete_sum phi omega ax pol radius margin dec inM centers NO FI outM G loads cache v CO HN NL) as (LC & S).
  rewrite dot_sumn by congruence. rewrite Lv, S, weighted_lsum. apply lsum_ext. intros (y, x) I. cbn [fst snd]. specialize (HN _ I). cbn [fst] in HN.
  destruct (computeNormalizedWeight omega radius clusters y) as [ws|] eqn:EW; [|congruence].
  destruct (readAt phi omega ax pol radius margin dec inM centers outM v y ws EW) as (r & Er & R). rewrite Er, R. rewrite (wk_read phi omega ax pol radius margin dec inM centers outM v y ws EW). ring.
Qed.
(** C66: then, with a polynomial, writing keeps the sum and the first moments *)
Theorem C66_writing_keeps_sum_and_moments : forall loads cache a0 a1 a2 a3, proper -> pol = SEPARATE -> seen_by_all clusters a1 a2 a3 ->
  (forall l, In l loads -> flat ax (fst l)) ->
  writeAll phi omega radius clusters (emptyCache pol clusters) loads = Some cache -> (forall ca, In ca cache -> nothing_lost ca) ->
  weighted (linear a0 a1 a2 a3) (combine inM (completeJustInTime clusters cache (length inM))) == weighted (linear a0 a1 a2 a3) loads.
Proof.
  intros loads cache a0 a1 a2 a3 P ES D FL E NL. pose proof P as (PE & M1 & M2 & NO & FI & FO & G).
  destruct (writeAll_ok phi omega ax pol radius margin dec inM centers outM loads _ _ [] (cache_empty phi omega ax pol radius margin dec inM centers NO FI outM G) E) as (CO & HN). cbn [app] in CO.
  destruct (complete_sum phi omega ax pol radius margin dec inM centers NO FI outM G loads cache (map (linear a0 a1 a2 a3) inM) CO HN NL) as (LC & S).
  rewrite weighted_sumn by exact LC. rewrite S, weighted_lsum. apply lsum_ext. intros (y, x) I. cbn [fst snd]. pose proof (HN _ I) as H. cbn [fst] in H.
  destruct (computeNormalizedWeight omega radius clusters y) as [ws|] eqn:EW; [|congruence]. rewrite (wk_read phi omega ax pol radius margin dec inM centers outM _ y ws EW).
  destruct (nw_spec omega radius _ _ _ EW) as (_ & MEM & S1). rewrite (mean ws (valueAt phi ax pol radius margin dec inM centers outM (map (linear a0 a1 a2 a3) inM) y) (linear a0 a1 a2 a3 y)); [ring|exact S1|].
  intros p Ip. destruct (MEM (fst p)) as (K1 & _). destruct (K1 (in_map fst _ _ Ip)) as (Hk & C).
  apply (valueAt_linear phi PE ax pol radius margin dec inM centers FI outM G a0 a1 a2 a3 y (fst p) Hk ES); [|apply (FL _ I)]. apply D, nth_In, Hk.
Qed.
(** C66: and the result is that of a conservative mapping from a mesh with these vertices *)
Theorem C66_writing_at_coordinates_as_mapping : forall m loads cache out', proper -> compute = Some m -> map fst loads = outM ->
  let cl := makeClusters ax pol radius margin dec inM out' centers in
  proper_pum phi ax pol radius margin dec inM out' centers ->
  writeAll phi omega radius cl (emptyCache pol cl) loads = Some cache -> (forall ca, In ca cache -> nothing_lost ca) ->
  forall i, (i < length inM)%nat -> at_ (completeJustInTime cl cache (length inM)) i == at_ (pumConservative phi m (map snd loads) (length inM)) i.
Proof.
  intros m loads cache out' P E EL cl P' EWr NL i Hi. pose proof P as (PE & M1 & M2 & NO & FI & FO & G). pose proof P' as (_ & _ & _ & _ & _ & _ & G').
  destruct (writeAll_ok phi omega ax pol radius margin dec inM centers out' loads _ _ [] (cache_empty phi omega ax pol radius margin dec inM centers NO FI out' G') EWr) as (CO & HN). cbn [app] in CO.
  set (v := map (fun j => if (j =? i)%nat then 1 else 0) (seq 0 (length inM))).
  assert (forall o, sumn (length inM) (fun g => at_ v g * at_ o g) == at_ o i) as UNIT.
  { intros o. rewrite (sumn_single _ i); [|exact Hi|].
    - unfold v. rewrite at_map, (proj2 (Nat.ltb_lt i _) Hi), Nat.eqb_refl. ring.
    - intros j Hj NE. unfold v. rewrite at_map, (proj2 (Nat.ltb_lt j _) Hj), (proj2 (Nat.eqb_neq j i) NE). ring. }
  destruct (complete_sum phi omega ax pol radius margin dec inM centers NO FI out' G' loads cache v CO HN NL) as (LC & S).
  rewrite <- (UNIT (completeJustInTime cl cache (length inM))), <- (UNIT (pumConservative phi m (map snd loads) (length inM))). fold cl in S. rewrite S.
  rewrite (pum_transposed phi omega ax pol radius margin dec inM outM centers m E NO G v (map snd loads)).
  assert (length outM = length loads) as LO by (rewrite <- EL; apply map_length). rewrite LO.
  rewrite <- (lsum_sumn _ (origin, 0) loads). apply sumn_ext. intros g Hg.
  assert (nth g loads (origin, 0) = (vtx outM g, at_ (map snd loads) g)) as EN.
  { rewrite (surjective_pairing (nth g loads (origin, 0))). f_equal.
    - unfold vtx. rewrite <- EL. exact (eq_sym (map_nth fst loads (origin, 0) g)).
    - exact (eq_sym (map_nth snd loads (origin, 0) g)). }
  rewrite EN. cbn [fst snd]. apply Qmult_comp; [reflexivity|].
  destruct (C66_reading_at_coordinates_as_mapping phi omega ax pol radius margin dec inM outM centers m v g out' P E ltac:(rewrite LO; exact Hg)) as (x & Ex & X). fold cl in Ex.
  rewrite LO in X. rewrite <- X.
  assert (computeNormalizedWeight omega radius cl (vtx outM g) <> None) as NN. { apply (HN (vtx outM g, at_ (map snd loads) g)). rewrite <- EN. apply nth_In. exact Hg. }
  destruct (computeNormalizedWeight omega radius cl (vtx outM g)) as [ws|] eqn:EW; [|congruence].
  destruct (readAt phi omega ax pol radius margin dec inM centers out' v (vtx outM g) ws EW) as (r & Er & R). fold cl in Er. rewrite Ex in Er. injection Er as <-. rewrite R.
  apply (wk_read phi omega ax pol radius margin dec inM centers out' v _ ws EW).
Qed.
End W.
Print Assumptions C66_partition_of_unity.
Print Assumptions C66_can_be_computed.
Print Assumptions C66_edge_of_a_cluster_refuted.
Print Assumptions C66_exact_at_input_vertices.
Print Assumptions C66_linear_functions_are_exact.
Print Assumptions C66_conservative_is_transposed_consistent.
Print Assumptions C66_conservative_keeps_sum_and_moments.
Print Assumptions C66_reading_at_coordinates_as_mapping.
Print Assumptions C66_writing_is_transposed_reading.
Print Assumptions C66_writing_keeps_sum_and_moments.
Print Assumptions C66_writing_at_coordinates_as_mapping.

(** ** Examples: two clusters in a plane *)
From Verif Require Import T_Rbf.
Definition pIn : list vertex := [Vx 0 0 0; Vx 1 0 0; Vx 0 1 0; Vx 2 0 0; Vx 1 1 0].
Definition pOut : list vertex := [Vx 1 0 0; Vx 0 (1#2) 0; Vx 1 (1#2) 0].
Definition pCenters : list vertex := [Vx 0 0 0; Vx (5#4) (1#4) 0; Vx 9 9 0].
Definition pOmega (d : Q) : Q := (25#16) - d.
Definition pC : matrix := ofRows 3 3 [[-(1); 1; 1]; [1; 0; -(1)]; [1; -(1); 0]].
Definition gA : matrix := ofRows 3 3 [[1; -(1); -(1)]; [-(1); 2; 1]; [-(1); 1; 2]].
Definition gB : matrix := ofRows 3 3 [[5; -(3); -(2)]; [-(3); 2; 1]; [-(2); 1; 2]].
Definition pDec (ins : list vertex) : decomposition :=
  let q := matrixP [0; 1]%nat ins in let g := if Qeq_bool (v_x (vtx ins 0)) 0 then gA else gB in
  Dec [0; 1]%nat (mul pC) (fun b => mul g (mul (transpose q) b)) (fun e => mul q (mul g e)).
Notation pClusters out := (makeClusters [0; 1]%nat SEPARATE (5#4) (1#100) pDec pIn out pCenters).
Example ex_clusters : map (fun c => (c_in c, c_out c)) (pClusters pOut) = [([0; 1; 2], [0; 1; 2]); ([1; 3; 4], [0; 2])]%nat.
Proof. vm_compute. reflexivity. Qed.
Lemma flat2 l : forallb (fun v => Qeq_bool (v_z v) 0) l = true -> forall w, In w l -> flat [0; 1]%nat w.
Proof.
  intros H w I d Hd NI. rewrite forallb_forall in H. destruct d as [|[|[|d]]]; [exfalso; apply NI; cbn; tauto|exfalso; apply NI; cbn; tauto| |lia].
  apply Qeq_bool_iff, (H _ I).
Qed.
Ltac ex_good := split; [apply inverse_solves; [reflexivity|reflexivity|vm_compute; reflexivity]|];
  split; [intros _; apply gram_least_squares; [reflexivity|reflexivity|vm_compute; reflexivity]|]; cbn; split; [auto|]; ex_axes.
Example ex_proper : proper_pum disk [0; 1]%nat SEPARATE (5#4) (1#100) pDec pIn pOut pCenters.
Proof.
  split; [exact disk_ext|]. split; [vm_compute; discriminate|]. split; [reflexivity|]. split; [discriminate|]. split; [apply flat2; reflexivity|]. split; [apply flat2; reflexivity|].
  intros c [<-|[<-|[]]]; ex_good.
Qed.
Example ex_proper_jit : proper_pum disk [0; 1]%nat SEPARATE (5#4) (1#100) pDec pIn [] pCenters.
Proof.
  split; [exact disk_ext|]. split; [vm_compute; discriminate|]. split; [reflexivity|]. split; [discriminate|]. split; [apply flat2; reflexivity|]. split; [apply flat2; reflexivity|].
  intros c [<-|[<-|[]]]; ex_good.
Qed.
Example ex_seen a1 a2 : seen_by_all (pClusters pOut) a1 a2 0.
Proof. intros c [<-|[<-|[]]]; (split; [left; cbn; tauto|split; [left; cbn; tauto|right; reflexivity]]). Qed.
Example ex_covered : (forall d, 0 <= d -> d < (5#4) * (5#4) -> 0 < pOmega d) /\ (forall x y, x == y -> pOmega x == pOmega y) /\
  (forall g, (g < length pOut)%nat -> (exists c, In c (pClusters pOut) /\ distance2 (c_center c) (vtx pOut g) < (5#4) * (5#4)) /\
     forall c, In c (pClusters pOut) -> distance2 (c_center c) (vtx pOut g) < (5#4) * (5#4) -> distance2 (c_center c) (vtx pOut g) < ((5#4) - (1#100)) * ((5#4) - (1#100))).
Proof.
  split. { intros d _ H. unfold pOmega. apply Qlt_minus_iff in H. exact H. }
  split. { intros x y E. unfold pOmega. rewrite E. reflexivity. }
  intros g Hg. destruct g as [|[|[|g]]]; [| | |cbn in Hg; lia].
  - split; [exists (nth 0 (pClusters pOut) noCluster); split; [left; reflexivity|reflexivity]|]. intros c [<-|[<-|[]]] H; vm_compute in H |- *; first [reflexivity|discriminate].
  - split; [exists (nth 0 (pClusters pOut) noCluster); split; [left; reflexivity|reflexivity]|]. intros c [<-|[<-|[]]] H; vm_compute in H |- *; first [reflexivity|discriminate].
  - split; [exists (nth 0 (pClusters pOut) noCluster); split; [left; reflexivity|reflexivity]|]. intros c [<-|[<-|[]]] H; vm_compute in H |- *; first [reflexivity|discriminate].
Qed.
(** 1 + 2x - y is mapped exactly *)
Example ex_pum_maps : exists m, computeMapping pOmega [0; 1]%nat SEPARATE (5#4) (1#100) pDec pIn pOut pCenters = Some m /\
  at_ (pumConsistent disk m (map (linear 1 2 (-(1)) 0) pIn) 3) 2 == 5#2.
Proof.
  destruct ex_covered as (C1 & C2 & C3).
  destruct (C66_can_be_computed pOmega [0; 1]%nat SEPARATE (5#4) (1#100) pDec pIn pOut pCenters C1 C2 C3) as (m & E). exists m. split; [exact E|].
  rewrite (C66_linear_functions_are_exact disk pOmega [0; 1]%nat SEPARATE (5#4) (1#100) pDec pIn pOut pCenters m 1 2 (-(1)) 0 2 ex_proper E eq_refl); [reflexivity| |cbn; lia].
  rewrite (m_clusters _ _ _ _ _ _ _ _ _ m E). apply ex_seen.
Qed.
Example ex_two_weights : match computeNormalizedWeight pOmega (5#4) (pClusters pOut) (Vx 1 (1#2) 0) with Some ws => map fst ws = [0; 1]%nat /\ veqb (map snd ws) [5#28; 23#28] = true | None => False end.
Proof. vm_compute. auto. Qed.
(** loads written at coordinates; none is lost *)
Definition pLoads : list (vertex * Q) := combine pOut [1; 5; -(2)].
Definition ex_kept (cache : list (vec * vec)) : bool := forallb (fun ca => negb (isZero (snd ca))) cache.
Example ex_write : match writeAll disk pOmega (5#4) (pClusters []) (emptyCache SEPARATE (pClusters [])) pLoads with Some cache => ex_kept cache | None => false end = true.
Proof. vm_compute. reflexivity. Qed.
Example ex_nothing_lost : exists cache, writeAll disk pOmega (5#4) (pClusters []) (emptyCache SEPARATE (pClusters [])) pLoads = Some cache /\
  forall ca, In ca cache -> nothing_lost ca.
Proof.
  pose proof ex_write as H. destruct (writeAll disk pOmega (5#4) (pClusters []) (emptyCache SEPARATE (pClusters [])) pLoads) as [cache|]; [|discriminate].
  exists cache. split; [reflexivity|]. intros ca I Z. exfalso. unfold ex_kept in H. rewrite forallb_forall in H. specialize (H ca I).
  rewrite (proj2 (isZero_iff (snd ca)) Z) in H. discriminate.
Qed.
Example ex_same : map fst pLoads = pOut. Proof. reflexivity. Qed.
(** a vertex at the distance 1.245 from the first center, within 0.01 of its radius *)
Example ex_edge : match computeMapping pOmega [0; 1]%nat SEPARATE (5#4) (1#100) pDec pIn [Vx (-(1245#1000)) 0 0] pCenters with None => true | _ => false end = true /\
  match computeMapping pOmega [0; 1]%nat SEPARATE (5#4) (1#100) pDec pIn [Vx (-(1235#1000)) 0 0] pCenters with None => false | _ => true end = true.
Proof. split; vm_compute; reflexivity. Qed.

(** C66: loads at coordinates out of the reach of all basis functions get lost,
    although the polynomial would conserve them *)
Definition compact (d : Q) : Q := if Qle_bool (1#16) d then 0 else 1 - 16 * d.
Definition lIn : list vertex := [Vx 0 0 0; Vx 1 0 0; Vx 0 1 0].
Definition lDec (ins : list vertex) : decomposition :=
  let q := matrixP [0; 1]%nat ins in let g := ofRows 3 3 [[1; -(1); -(1)]; [-(1); 2; 1]; [-(1); 1; 2]] in
  Dec [0; 1]%nat (mul (ofRows 3 3 [[1; 0; 0]; [0; 1; 0]; [0; 0; 1]])) (fun b => mul g (mul (transpose q) b)) (fun e => mul q (mul g e)).
Definition lOmega (d : Q) : Q := 4 - d.
Theorem C66_lost_loads_refuted : exists phi omega ax radius margin dec inM centers loads cache,
  let cl := makeClusters ax SEPARATE radius margin dec inM [] centers in
  proper_pum phi ax SEPARATE radius margin dec inM [] centers /\ seen_by_all cl 0 0 0 /\ (forall l, In l loads -> flat ax (fst l)) /\
  writeAll phi omega radius cl (emptyCache SEPARATE cl) loads = Some cache /\
  ~ total (completeJustInTime cl cache (length inM)) == total (map snd loads).
Proof.
  exists compact, lOmega, [0; 1]%nat, 2, (1#100), lDec, lIn, [Vx 0 0 0], [(Vx (1#2) (1#2) 0, 7)].
  destruct (writeAll compact lOmega 2 (makeClusters [0; 1]%nat SEPARATE 2 (1#100) lDec lIn [] [Vx 0 0 0]) (emptyCache SEPARATE (makeClusters [0; 1]%nat SEPARATE 2 (1#100) lDec lIn [] [Vx 0 0 0])) [(Vx (1#2) (1#2) 0, 7)]) as [cache|] eqn:E; [|vm_compute in E; discriminate].
  exists cache. split.
  { split. { intros x y H. unfold compact. destruct (Qle_bool (1#16) x) eqn:A, (Qle_bool (1#16) y) eqn:B; try reflexivity.
      - exfalso. apply Qle_bool_iff in A. rewrite H in A. apply Qle_bool_iff in A. congruence.
      - exfalso. apply Qle_bool_iff in B. rewrite <- H in B. apply Qle_bool_iff in B. congruence.
      - rewrite H. reflexivity. }
    split; [vm_compute; discriminate|]. split; [reflexivity|]. split; [discriminate|]. split; [apply flat2; reflexivity|]. split; [apply flat2; reflexivity|].
    intros c [<-|[]]; ex_good. }
  split. { intros c [<-|[]]. split; [right; reflexivity|split; right; reflexivity]. }
  split. { intros l [<-|[]]. apply (flat2 [Vx (1#2) (1#2) 0]); [reflexivity|left; reflexivity]. }
  split; [exact E|]. vm_compute in E. injection E as <-. vm_compute. discriminate.
Qed.
Print Assumptions C66_lost_loads_refuted.
