(** One cluster of a partition-of-unity mapping. *)
From Coq Require Import List Arith Bool QArith Lia Setoid Morphisms.
From Verif Require Import M_Rbf S_Rbf P_Rbf P_RbfPar P_RbfLin M_Pum S_Pum.
Import ListNotations.
Open Scope Q_scope.

Lemma sqdiff_lsum ax u v : sqdiff ax u v == lsum (fun d => (coord d u - coord d v) * (coord d u - coord d v)) ax.
Proof. unfold sqdiff. induction ax as [|d ax IH]; cbn; [reflexivity|]. rewrite IH. reflexivity. Qed.
Lemma sqdiff_distance u v : sqdiff all3 u v == distance2 u v.
Proof. unfold sqdiff, distance2. cbn. ring. Qed.
Lemma flat_sqdiff ax u v : NoDup ax -> (forall d, In d ax -> (d < 3)%nat) -> flat ax u -> flat ax v -> sqdiff all3 u v == sqdiff ax u v.
Proof.
  intros ND H3 Fu Fv. rewrite (sqdiff_lsum ax), lsum_axes; [|exact ND|exact H3|].
  - unfold sqdiff, all3. cbn [fold_right]. ring.
  - intros d Hd NI. rewrite (Fu d Hd NI), (Fv d Hd NI). ring.
Qed.

Section L.
Variable phi : Q -> Q.
Hypothesis phi_ext : forall x y, x == y -> phi x == phi y.

Lemma params0 s : s_poly s <> ON -> polyparams (s_axes s) (s_poly s) = 0%nat.
Proof. destruct (s_poly s); [contradiction| |]; reflexivity. Qed.
Lemma solve_map s v : s_poly s <> ON -> mapConsistent phi s v = solveConsistent phi s v.
Proof. intros NO. unfold mapConsistent. rewrite params0 by exact NO. cbn. rewrite app_nil_r. reflexivity. Qed.
Lemma sizeC_N s : s_poly s <> ON -> sizeC s = sizeN s.
Proof. intros NO. unfold sizeC. rewrite params0 by exact NO. lia. Qed.
Lemma solve_cons s u : good_solver phi s -> s_poly s <> ON -> length u = length (s_out s) -> mapConservative phi s u = solveConservative phi s u.
Proof. intros G NO L. unfold mapConservative. apply firstn_all2. rewrite (conservative_length phi s G u L), sizeC_N by exact NO. unfold sizeN. lia. Qed.

(** the cache holds coefficients of the right sizes *)
Lemma cache_sizes s v : good_solver phi s -> s_poly s <> ON -> length v = sizeN s ->
  length (snd (computeCacheData s v)) = sizeN s /\ length (fst (computeCacheData s v)) = match s_poly s with SEPARATE => S (length (s_local s)) | _ => 0%nat end.
Proof.
  intros G NO L. unfold computeCacheData. destruct (s_poly s) eqn:E; [contradiction NO; reflexivity| |]; cbn [fst snd].
  - split; [|reflexivity]. rewrite <- (sizeC_N s) by congruence. apply (solveC_ok phi s G). rewrite sizeC_N by congruence. exact L.
  - destruct (lsq_ok phi s G v E L) as (Lc & _). split; [|exact Lc]. rewrite <- (sizeC_N s) by congruence. apply (solveC_ok phi s G).
    rewrite vsub_length by (rewrite mul_length; exact L). rewrite sizeC_N by congruence. exact L.
Qed.
Lemma local_value s v i : good_solver phi s -> s_poly s <> ON -> length v = sizeN s -> (i < length (s_out s))%nat ->
  flat (s_axes s) (vtx (s_out s) i) -> (forall w, In w (s_in s) -> flat (s_axes s) w) ->
  at_ (solveConsistent phi s v) i == interpolateAt phi s (vtx (s_out s) i) (computeCacheData s v).
Proof.
  intros G NO L Hi Fo Fi. destruct (cache_sizes s v G NO L) as (L1 & L2).
  assert (NoDup (s_axes s) /\ forall d, In d (s_axes s) -> (d < 3)%nat) as (ND & H3) by (destruct G as (_ & _ & _ & G2 & _ & G4); split; assumption).
  assert (forall p, at_ (mul (s_A phi s) p) i == sumn (sizeN s) (fun j => phi (sqdiff all3 (vtx (s_out s) i) (vtx (s_in s) j)) * at_ p j)) as A.
  { intros p. rewrite at_mul by exact Hi. change (m_cols (s_A phi s)) with (sizeC s). rewrite sizeC_N by exact NO. apply sumn_ext. intros j Hj.
    rewrite (A_row phi s i j). rewrite (proj2 (Nat.ltb_lt j (sizeN s)) Hj). apply Qmult_comp; [|reflexivity]. apply phi_ext. symmetry. apply flat_sqdiff; try assumption. apply Fi, nth_In, Hj. }
  unfold interpolateAt, solveConsistent in *. unfold computeCacheData in *. destruct (s_poly s) eqn:E; [contradiction NO; reflexivity| |]; cbn [fst snd] in *.
  - rewrite A. unfold sizeN. ring.
  - rewrite at_vadd by (rewrite !mul_length; reflexivity). rewrite A. apply Qplus_comp; [reflexivity|].
    rewrite at_mul by exact Hi. destruct (s_lsq s v) as [|a r]; [discriminate L2|]. reflexivity.
Qed.

Definition withOut (s : solver) (out : list vertex) : solver := Solver (s_in s) out (s_axes s) (s_local s) (s_poly s) (s_solveC s) (s_lsq s) (s_tsolve s).
Lemma withOut_good s out : good_solver phi s -> good_solver phi (withOut s out).
Proof. intros G. exact G. Qed.
Lemma local_exact s v y i : good_solver phi s -> s_poly s <> ON -> length v = sizeN s -> (i < sizeN s)%nat ->
  flat (s_axes s) y -> (forall w, In w (s_in s) -> flat (s_axes s) w) -> same_place (s_axes s) y (vtx (s_in s) i) ->
  interpolateAt phi s y (computeCacheData s v) == at_ v i.
Proof.
  intros G NO L Hi Fy Fi SP. pose proof (local_value (withOut s [y]) v 0 G NO L (Nat.lt_0_succ _) Fy Fi) as LV. cbn [withOut s_out vtx nth] in LV.
  change (interpolateAt phi s y (computeCacheData s v)) with (interpolateAt phi (withOut s [y]) y (computeCacheData (withOut s [y]) v)). rewrite <- LV.
  rewrite <- solve_map by exact NO. apply (consistent_exact phi phi_ext (withOut s [y]) G v i 0 L Hi (Nat.lt_0_succ _)). exact SP.
Qed.
Lemma local_linear s a0 a1 a2 a3 v y : good_solver phi s -> s_poly s = SEPARATE -> depends_only_on (s_local s) a1 a2 a3 -> length v = sizeN s ->
  (forall i, (i < sizeN s)%nat -> at_ v i == linear a0 a1 a2 a3 (vtx (s_in s) i)) ->
  flat (s_axes s) y -> (forall w, In w (s_in s) -> flat (s_axes s) w) ->
  interpolateAt phi s y (computeCacheData s v) == linear a0 a1 a2 a3 y.
Proof.
  intros G E D L V Fy Fi. assert (s_poly s <> ON) as NO by congruence.
  pose proof (local_value (withOut s [y]) v 0 G NO L (Nat.lt_0_succ _) Fy Fi) as LV. cbn [withOut s_out vtx nth] in LV.
  change (interpolateAt phi s y (computeCacheData s v)) with (interpolateAt phi (withOut s [y]) y (computeCacheData (withOut s [y]) v)). rewrite <- LV.
  rewrite <- solve_map by exact NO.
  assert (NoDup (s_local s) /\ forall d, In d (s_local s) -> (d < 3)%nat) as (ND & H3) by (destruct G as (_ & _ & G1 & G2 & G3 & G4); split; auto).
  assert (poly_axes (withOut s [y]) = s_local s) as PA by (unfold poly_axes; cbn; rewrite E; reflexivity).
  assert (s_poly (withOut s [y]) <> OFF) as NO2 by (cbn; congruence).
  assert (length (coefs a0 a1 a2 a3 (s_local s)) = S (length (poly_axes (withOut s [y])))) as Lc by (rewrite PA; apply coefs_length).
  assert (forall i, (i < sizeN s)%nat -> at_ v i == sumn (S (length (poly_axes (withOut s [y])))) (fun k => at_ (poly (poly_axes (withOut s [y])) (vtx (s_in s) i)) k * at_ (coefs a0 a1 a2 a3 (s_local s)) k)) as Hv.
  { intros i Hi. rewrite PA, (linear_poly (s_local s)) by assumption. apply V. exact Hi. }
  pose proof (consistent_poly phi phi_ext (withOut s [y]) G v (coefs a0 a1 a2 a3 (s_local s)) NO2 L Lc Hv 0 (Nat.lt_0_succ _)) as CP.
  rewrite CP, PA. cbn [withOut s_out vtx nth]. apply linear_poly; assumption.
Qed.

(** the evaluation of a write cache is the transpose of the computation of a read cache *)
Lemma cache_transposed s v eps au : good_solver phi s -> s_poly s <> ON -> length v = sizeN s -> length au = sizeN s ->
  length eps = match s_poly s with SEPARATE => S (length (s_local s)) | _ => 0%nat end ->
  length (evaluateConservativeCache s (eps, au)) = sizeN s /\
  sumn (sizeN s) (fun i => at_ v i * at_ (evaluateConservativeCache s (eps, au)) i) ==
  sumn (sizeN s) (fun j => at_ (snd (computeCacheData s v)) j * at_ au j) + sumn (length eps) (fun k => at_ (fst (computeCacheData s v)) k * at_ eps k).
Proof.
  intros G NO Lv La Le. pose proof (sizeC_N s NO) as EC.
  assert (forall b, length b = sizeN s -> length (s_solveC s b) = sizeN s /\ forall i, at_ (mul (s_C phi s) (s_solveC s b)) i == at_ b i) as SC.
  { intros b Lb. rewrite <- EC. apply (solveC_ok phi s G). congruence. }
  pose proof (transposed_C phi s G) as TC. rewrite EC in TC. unfold evaluateConservativeCache, computeCacheData.
  destruct (s_poly s) eqn:E; [contradiction NO; reflexivity| |]; cbn [fst snd].
  - destruct eps; [|discriminate Le]. split; [apply SC; exact La|]. cbn [length sumn]. rewrite (TC v au Lv La). ring.
  - destruct eps as [|e0 er]; [discriminate Le|]. set (eps := e0 :: er) in *. set (mu := s_solveC s au). set (c := s_lsq s v).
    destruct (SC au La) as (Lm & Hm). fold mu in Lm, Hm. destruct (lsq_ok phi s G v E Lv) as (Lc & _). fold c in Lc.
    set (e := vneg (vsub eps (mul (transpose (s_Q s)) mu))). assert (length e = S (length (s_local s))) as Lee.
    { unfold e. rewrite vneg_length, vsub_length by (rewrite mul_length; exact Le). exact Le. }
    destruct (tsolve_ok phi s G e E Lee) as (Lt & _).
    split; [rewrite vsub_length by congruence; exact Lm|].
    set (r := vsub v (mul (s_Q s) c)). assert (length r = sizeN s) as Lr by (unfold r; rewrite vsub_length by (rewrite mul_length; exact Lv); exact Lv).
    rewrite <- (TC r au Lr La). fold mu.
    transitivity (sumn (sizeN s) (fun i => at_ v i * at_ mu i) - sumn (sizeN s) (fun i => at_ v i * at_ (s_tsolve s e) i)).
    { rewrite <- sumn_minus. apply sumn_ext. intros i Hi. rewrite at_vsub by congruence. ring. }
    rewrite <- (lsq_adjoint phi s G v e E Lv Lee). fold c.
    transitivity (sumn (sizeN s) (fun i => at_ v i * at_ mu i) - sumn (sizeN s) (fun i => at_ mu i * at_ (mul (s_Q s) c) i) + sumn (length eps) (fun k => at_ c k * at_ eps k)).
    2: { apply Qplus_comp; [|reflexivity]. rewrite <- sumn_minus. apply sumn_ext. intros i Hi. unfold r. rewrite at_vsub by (rewrite mul_length; exact Lv). ring. }
    change (sizeN s) with (m_rows (s_Q s)) at 3. rewrite adjoint. change (m_cols (s_Q s)) with (S (length (s_local s))). rewrite Le.
    transitivity (sumn (sizeN s) (fun i => at_ v i * at_ mu i) + (sumn (S (length (s_local s))) (fun k => at_ c k * at_ eps k) - sumn (S (length (s_local s))) (fun j => at_ (mul (transpose (s_Q s)) mu) j * at_ c j))); [|ring].
    rewrite <- sumn_minus. transitivity (sumn (sizeN s) (fun i => at_ v i * at_ mu i) + (0 - sumn (S (length (s_local s))) (fun k => at_ c k * at_ e k))); [ring|].
    apply Qplus_comp; [reflexivity|]. transitivity (sumn (S (length (s_local s))) (fun k => 0 - at_ c k * at_ e k)).
    { rewrite sumn_minus. rewrite (sumn_0 _ (fun _ => 0)) by reflexivity. reflexivity. }
    apply sumn_ext. intros k Hk. unfold e. rewrite at_vneg, at_vsub by (rewrite mul_length; exact Le). ring.
Qed.
End L.
