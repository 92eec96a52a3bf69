(** Radial-basis-function mappings (C65). *)
From Coq Require Import List Arith Bool QArith Lia Permutation Setoid.
From Verif Require Import M_Rbf S_Rbf P_Rbf P_RbfPar P_RbfLin.
Import ListNotations.
Open Scope Q_scope.

Section T.
Variable phi : Q -> Q.
Hypothesis phi_ext : forall x y, x == y -> phi x == phi y.

(** C65: an output vertex at the place of an input vertex gets its value *)
Theorem C65_exact_at_input_vertices : forall s v i k, good_solver phi s -> length v = length (s_in s) ->
  (i < length (s_in s))%nat -> (k < length (s_out s))%nat -> same_place (s_axes s) (vtx (s_out s) k) (vtx (s_in s) i) ->
  at_ (mapConsistent phi s v) k == at_ v i.
Proof. intros s v i k G L Hi Hk P. exact (consistent_exact phi phi_ext s G v i k L Hi Hk P). Qed.

(** C65: with a polynomial, linear functions are mapped exactly *)
Theorem C65_linear_functions_are_exact : forall s a0 a1 a2 a3, good_solver phi s -> s_poly s <> OFF -> depends_only_on (poly_axes s) a1 a2 a3 ->
  forall k, (k < length (s_out s))%nat ->
  at_ (mapConsistent phi s (map (linear a0 a1 a2 a3) (s_in s))) k == linear a0 a1 a2 a3 (vtx (s_out s) k).
Proof.
  intros s a0 a1 a2 a3 G NO D k Hk.
  assert (NoDup (poly_axes s) /\ forall d, In d (poly_axes s) -> (d < 3)%nat) as (ND & H3).
  { destruct G as (_ & _ & G1 & G2 & G3 & G4). unfold poly_axes. destruct (s_poly s); split; auto. }
  rewrite <- (linear_poly (poly_axes s) a0 a1 a2 a3 (vtx (s_out s) k) ND H3 D).
  apply (consistent_poly phi phi_ext s G); [exact NO|apply map_length|apply coefs_length| |exact Hk].
  intros i Hi. rewrite (linear_poly (poly_axes s) a0 a1 a2 a3 (vtx (s_in s) i) ND H3 D). unfold at_, vtx.
  erewrite (nth_indep (map _ (s_in s))) by (rewrite map_length; exact Hi). rewrite map_nth. reflexivity.
Qed.

(** C65: with a polynomial, a conservative mapping keeps the sum of the values
    (a0 = 1, others 0) and their first moments *)
Theorem C65_conservative_keeps_sum_and_moments : forall s u a0 a1 a2 a3, good_solver phi s -> s_poly s <> OFF -> depends_only_on (poly_axes s) a1 a2 a3 ->
  length u = length (s_out s) ->
  weighted (linear a0 a1 a2 a3) (combine (s_in s) (mapConservative phi s u)) == weighted (linear a0 a1 a2 a3) (combine (s_out s) u).
Proof.
  intros s u a0 a1 a2 a3 G NO D Lu.
  assert (NoDup (poly_axes s) /\ forall d, In d (poly_axes s) -> (d < 3)%nat) as (ND & H3).
  { destruct G as (_ & _ & G1 & G2 & G3 & G4). unfold poly_axes. destruct (s_poly s); split; auto. }
  assert (length (mapConservative phi s u) = length (s_in s)) as L. { unfold mapConservative. rewrite firstn_length, (conservative_length phi s G u Lu). unfold sizeC, sizeN. lia. }
  rewrite !weighted_sumn by assumption.
  assert (forall m x, sumn (length m) (fun i => at_ (map (linear a0 a1 a2 a3) m) i * at_ x i) ==
    sumn (S (length (poly_axes s))) (fun k => at_ (coefs a0 a1 a2 a3 (poly_axes s)) k * sumn (length m) (fun i => at_ (poly (poly_axes s) (vtx m i)) k * at_ x i))) as K.
  { intros m x. transitivity (sumn (length m) (fun i => sumn (S (length (poly_axes s))) (fun k => at_ (coefs a0 a1 a2 a3 (poly_axes s)) k * (at_ (poly (poly_axes s) (vtx m i)) k * at_ x i)))).
    - apply sumn_ext. intros i Hi. unfold at_ at 1. erewrite (nth_indep (map _ m)) by (rewrite map_length; exact Hi). rewrite map_nth. rewrite <- (linear_poly (poly_axes s) a0 a1 a2 a3 (nth i m origin) ND H3 D).
      rewrite <- sumn_mul_r. apply sumn_ext. intros k _. unfold vtx. ring.
    - rewrite sumn_swap. apply sumn_ext. intros k _. rewrite sumn_mul_l. reflexivity. }
  rewrite !K. apply sumn_ext. intros k Hk. apply Qmult_comp; [reflexivity|]. exact (conservative_moments phi s G u k NO Lu Hk).
Qed.

(** C65: the conservative mapping is the transposed consistent mapping *)
Theorem C65_conservative_is_transposed_consistent : forall s v u, good_solver phi s -> length v = length (s_in s) -> length u = length (s_out s) ->
  dot v (mapConservative phi s u) == dot (mapConsistent phi s v) u.
Proof.
  intros s v u G Lv Lu.
  assert (length (mapConservative phi s u) = length (s_in s)) as L. { unfold mapConservative. rewrite firstn_length, (conservative_length phi s G u Lu). unfold sizeC, sizeN. lia. }
  rewrite !dot_sumn by (rewrite ?consistent_len by assumption; congruence). rewrite Lv, consistent_len by assumption. exact (transposed phi s G v u Lv Lu).
Qed.

(** C65: on any number of ranks every output vertex gets the value of a serial
    run, however the vertices are distributed and ordered.  [N]: the global number
    of vertices, all of which are owned by one rank. *)
Theorem C65_consistent_in_parallel_as_in_serial : forall s N rs s' v',
  good_solver phi s -> s_in s = globalIn rs -> s_out s = globalOut rs -> (forall r, In r rs -> length (r_values r) = length (r_in r)) ->
  N = length (globalIn rs) ->
  good_solver phi s' -> s_axes s = s_axes s' -> s_poly s = s_poly s' -> s_local s = s_local s' ->
  length v' = length (s_in s') -> Permutation (all_owned rs (map r_values rs)) (combine (s_in s') v') ->
  exists outs, mapConsistentParallel phi s N rs = Some outs /\ length outs = length rs /\
  forall r rd j k, nth_error rs r = Some rd -> (j < length (r_out rd))%nat -> (k < length (s_out s'))%nat ->
    same_place (s_axes s) (vtx (r_out rd) j) (vtx (s_out s') k) -> at_ (nth r outs []) j == at_ (mapConsistent phi s' v') k.
Proof. intros s N rs s' v' G EI EO HL HN G' EA EP EL Lv P. apply (parallel_consistent phi phi_ext s N rs s' v'); try assumption. lia. Qed.
(** the same for conservative mappings; vertices that a rank does not own get zero *)
Theorem C65_conservative_in_parallel_as_in_serial : forall s N rs s' u' w,
  good_solver phi s -> s_in s = globalIn rs -> s_out s = globalOut rs -> (forall r, In r rs -> length (r_values r) = length (r_out r)) ->
  N = length (globalIn rs) ->
  good_solver phi s' -> s_axes s = s_axes s' -> s_poly s = s_poly s' -> s_local s = s_local s' ->
  length u' = length (s_out s') -> Permutation (combine (globalOut rs) (concat (map r_values rs))) (combine (s_out s') u') ->
  Permutation (globalIn rs) (s_in s') ->
  exists outs, mapConservativeParallel phi s N rs = Some outs /\ length outs = length rs /\
  (forall r rd, nth_error rs r = Some rd -> length (nth r outs []) = length (r_in rd) /\
     forall i v, nth_error (r_in rd) i = Some (v, false) -> at_ (nth r outs []) i = 0) /\
  weighted w (all_owned rs outs) == weighted w (combine (s_in s') (mapConservative phi s' u')).
Proof. intros s N rs s' u' w G EI EO HL HN G' EA EP EL Lv P PI. apply (parallel_conservative phi phi_ext s N rs s' u' w); try assumption. lia. Qed.

(** C65: if vertices were filtered out because no rank needs them, the global
    number of vertices is larger than the matrix: the mapping accesses memory out
    of range *)
Theorem C65_filtered_vertices_refuted : forall s N rs, s_poly s <> ON -> s_in s = globalIn rs -> (length (globalIn rs) < N)%nat ->
  mapConsistentParallel phi s N rs = None /\ mapConservativeParallel phi s N rs = None.
Proof.
  intros s N rs NO EI HN. assert (m_cols (s_C phi s) = length (globalIn rs)) as E. { cbn. rewrite EI. destruct (s_poly s); [contradiction NO; reflexivity| |]; cbn; lia. }
  unfold mapConsistentParallel, mapConservativeParallel. rewrite E, (proj2 (Nat.ltb_lt _ _) HN). split; reflexivity.
Qed.
End T.
Print Assumptions C65_exact_at_input_vertices.
Print Assumptions C65_linear_functions_are_exact.
Print Assumptions C65_conservative_keeps_sum_and_moments.
Print Assumptions C65_conservative_is_transposed_consistent.
Print Assumptions C65_consistent_in_parallel_as_in_serial.
Print Assumptions C65_conservative_in_parallel_as_in_serial.
Print Assumptions C65_filtered_vertices_refuted.

(** the axes that the code computes meet the conditions of [good_solver] *)
Lemma reduce_incl m ax : forall d, In d (reduceActiveAxis m ax) -> In d ax.
Proof. unfold reduceActiveAxis. intros d. destruct (smallest m ax); [|tauto]. intros H. apply filter_In in H. tauto. Qed.
Lemma reduce_NoDup m ax : NoDup ax -> NoDup (reduceActiveAxis m ax).
Proof. unfold reduceActiveAxis. intros H. destruct (smallest m ax); [|assumption]. apply NoDup_filter. assumption. Qed.
Lemma C65_axes_of_the_solver : forall dead ill m fuel, let ax := activeAxes dead in let lo := localAxes ill m fuel ax in
  (forall d, In d lo -> In d ax) /\ NoDup ax /\ NoDup lo /\ (forall d, In d ax -> (d < 3)%nat).
Proof.
  intros dead ill m fuel ax lo. assert (NoDup ax) as N by (apply NoDup_filter, seq_NoDup).
  assert (forall f a, (forall d, In d (localAxes ill m f a) -> In d a) /\ (NoDup a -> NoDup (localAxes ill m f a))) as K.
  { induction f as [|f IH]; intros a; cbn [localAxes]; [tauto|]. destruct (ill a); [|tauto]. destruct (IH (reduceActiveAxis m a)) as (I1 & I2). split.
    - intros d D. apply (reduce_incl m). auto.
    - intros D. apply I2, reduce_NoDup, D. }
  split; [apply K|]. split; [exact N|]. split; [apply K; exact N|]. intros d D. apply filter_In in D. destruct D as (D & _). apply in_seq in D. lia.
Qed.

(** ** Examples: a basis function with the support radius 1, four vertices in a plane *)
Definition disk (d : Q) : Q := if Qle_bool d 1 then 1 else 0.
Example disk_ext : forall x y, x == y -> disk x == disk y.
Proof.
  intros x y E. unfold disk. assert (Qle_bool x 1 = Qle_bool y 1) as ->; [|reflexivity].
  apply eq_true_iff_eq. rewrite !Qle_bool_iff, E. reflexivity.
Qed.
Definition exIn : list vertex := [Vx 0 0 0; Vx 1 0 0; Vx 0 1 0; Vx 2 1 0].
Definition exOut : list vertex := [Vx 0 1 0; Vx (1#2) (1#2) 0].
Definition inv4 : matrix := ofRows 4 4 [[-(1); 1; 1; 0]; [1; 0; -(1); 0]; [1; -(1); 0; 0]; [0; 0; 0; 1]].
Definition inv7 : matrix := ofRows 7 7 [[-(2); 2; 1; -(1); 0; 0; 1]; [2; -(2); -(1); 1; 1; 0; -(2)]; [1; -(1); (-1)#2; 1#2; 1#2; (-1)#2; 0]; [-(1); 1; 1#2; (-1)#2; (-1)#2; 1#2; 1]; [0; 1; 1#2; (-1)#2; (-3)#2; 1#2; 1]; [0; 0; (-1)#2; 1#2; 1#2; (-1)#2; 0]; [1; -(2); 0; 1; 1; 0; -(2)]].
Definition gram : matrix := ofRows 3 3 [[3#5; (-1)#5; (-2)#5]; [(-1)#5; 2#5; (-1)#5]; [(-2)#5; (-1)#5; 11#10]].
Definition exQ : matrix := matrixP [0; 1]%nat exIn.
Definition sepSolver (out : list vertex) : solver := Solver exIn out [0; 1]%nat [0; 1]%nat SEPARATE (mul inv4) (fun b => mul gram (mul (transpose exQ) b)) (fun e => mul exQ (mul gram e)).
Definition onSolver (out : list vertex) : solver := Solver exIn out [0; 1]%nat [] ON (mul inv7) (fun b => b) (fun b => b).
Definition offSolver (out : list vertex) : solver := Solver exIn out [0; 1]%nat [] OFF (mul inv4) (fun b => b) (fun b => b).
Ltac ex_axes := repeat match goal with |- _ /\ _ => split | |- NoDup [] => constructor | |- NoDup _ => constructor; [cbn; lia|] | |- forall d, _ -> _ => intros; lia end.
Example ex_sep out : good_solver disk (sepSolver out).
Proof.
  split; [apply inverse_solves; [reflexivity|reflexivity|vm_compute; reflexivity]|].
  split; [intros _; apply gram_least_squares; [reflexivity|reflexivity|vm_compute; reflexivity]|].
  cbn. split; [auto|]. ex_axes.
Qed.
Example ex_on out : good_solver disk (onSolver out).
Proof.
  split; [apply inverse_solves; [reflexivity|reflexivity|vm_compute; reflexivity]|]. split; [discriminate|]. cbn. split; [intros d []|]. ex_axes.
Qed.
Example ex_off out : good_solver disk (offSolver out).
Proof.
  split; [apply inverse_solves; [reflexivity|reflexivity|vm_compute; reflexivity]|]. split; [discriminate|]. cbn. split; [intros d []|]. ex_axes.
Qed.
Definition veqb (a b : vec) : bool := (length a =? length b)%nat && forallb (fun p => Qeq_bool (fst p) (snd p)) (combine a b).
(** the first output vertex is the third input vertex; 1 + 2x - y at the second *)
Example ex_maps : veqb (mapConsistent disk (sepSolver exOut) [1; 3; 0; 4]) [0; 3#2] = true /\ veqb (mapConsistent disk (onSolver exOut) [1; 3; 0; 4]) [0; 3#2] = true /\
  Qeq_bool (total (mapConservative disk (onSolver exOut) [5; 7])) 12 = true /\ Qeq_bool (total (mapConservative disk (sepSolver exOut) [5; 7])) 12 = true.
Proof. vm_compute. repeat split. Qed.
(** three ranks; the second rank also sees a vertex of the first *)
Definition exRanks : list rankData :=
  [ RankData [(Vx 1 0 0, true); (Vx 0 0 0, false)] [Vx (1#2) (1#2) 0] [3; 1];
    RankData [(Vx 0 0 0, true); (Vx 2 1 0, true); (Vx 1 0 0, false)] [] [1; 4; 3];
    RankData [(Vx 0 1 0, true)] [Vx 0 1 0] [0] ].
Example ex_distribution : Permutation (all_owned exRanks (map r_values exRanks)) (combine exIn [1; 3; 0; 4]) /\ length (globalIn exRanks) = 4%nat.
Proof.
  split; [|reflexivity]. apply NoDup_Permutation.
  - cbn. repeat constructor; cbn; intuition discriminate.
  - cbn. repeat constructor; cbn; intuition discriminate.
  - intros x. cbn. tauto.
Qed.
(** a solver for the global meshes of these ranks: the rows in their order *)
Definition ix (i : nat) : nat := nth i [1; 0; 3; 2]%nat 0%nat.
Definition parSolver : solver := Solver (globalIn exRanks) (globalOut exRanks) [0; 1]%nat [] OFF (mul (Mx 4 4 (fun i j => m_at inv4 (ix i) (ix j)))) (fun b => b) (fun b => b).
Example ex_par : good_solver disk parSolver.
Proof.
  split; [apply inverse_solves; [reflexivity|reflexivity|vm_compute; reflexivity]|]. split; [discriminate|]. cbn. split; [intros d []|]. ex_axes.
Qed.
Example ex_par_maps : match mapConsistentParallel disk parSolver 4 exRanks with Some [a; b; c] => veqb (a ++ b ++ c) (rev (mapConsistent disk (offSolver exOut) [1; 3; 0; 4])) = true | _ => False end.
Proof. vm_compute. reflexivity. Qed.

(** C65: without polynomial constants are not mapped exactly and the sum is not kept *)
Theorem C65_constants_without_polynomial_refuted : exists s, good_solver disk s /\ s_poly s = OFF /\
  (exists k, (k < length (s_out s))%nat /\ ~ at_ (mapConsistent disk s (map (fun _ => 1) (s_in s))) k == 1) /\
  (exists u, length u = length (s_out s) /\ ~ total (mapConservative disk s u) == total u).
Proof.
  exists (offSolver [Vx 1 (1#4) 0]). split; [apply ex_off|]. split; [reflexivity|]. split.
  - exists 0%nat. split; [cbn; lia|]. vm_compute. discriminate.
  - exists [1]. split; [reflexivity|]. vm_compute. discriminate.
Qed.
Print Assumptions C65_constants_without_polynomial_refuted.
(** the case of C65_filtered_vertices_refuted: the first rank needs two vertices,
    nobody needs the other two *)
Example ex_filtered : s_poly (Solver [Vx 0 0 0; Vx 1 0 0] exOut [0; 1]%nat [] OFF (fun b => b) (fun b => b) (fun b => b)) <> ON /\
  [Vx 0 0 0; Vx 1 0 0] = globalIn [RankData [(Vx 0 0 0, true); (Vx 1 0 0, true)] exOut [1; 2]; RankData [] [] []] /\
  (length (globalIn [RankData [(Vx 0 0 0, true); (Vx 1 0 0, true)] exOut [1; 2]%Q; RankData [] [] []]) < 4)%nat.
Proof. split; [discriminate|]. split; [reflexivity|cbn; lia]. Qed.
