(** C75: geometric multiscale mappings. *)
From Coq Require Import ZArith QArith Qabs Bool List Lia Lqa.
From Verif Require Import M_Geo S_Geo P_Geo P_Axial.
Import ListNotations.
Open Scope list_scope.
Open Scope nat_scope.

(** ** radial: many vertices of a line, many vertices around it *)

(** every vertex around the line gets the value of the vertex of the line that is
    closest along the axis, if the vertices of the line are given in the order of
    their coordinates; only the first component is mapped *)
Theorem C75_radial_spread : forall d xs ys inp,
  xs <> [] -> increasing xs -> 0 < d -> values_of d (length xs) inp ->
  exists out, radialSpread d xs ys inp = Good out /\ values_of d (length ys) out /\
    forall i, i < length ys ->
      (exists k, closest xs (nth i ys 0%Q) k /\ res d out i 0 = Some (val d inp k 0)) /\
      (forall c, 0 < c < d -> res d out i c = Some 0%Q).
Proof.
  intros d xs ys inp N H D V. eexists. split; [apply radial_spread; assumption |].
  split; [unfold values_of; rewrite place_length, map_length; reflexivity |]. intros i Hi. split.
  - exists (bin xs (nth i ys 0%Q)). split; [apply bin_closest; assumption |].
    rewrite place_nth by (rewrite ?map_length; assumption). cbn [Nat.eqb].
    rewrite (nth_indep _ None (Some (val d inp (bin xs 0%Q) 0))) by (rewrite map_length; exact Hi).
    rewrite (map_nth (fun y => Some (val d inp (bin xs y) 0))). reflexivity.
  - intros c Hc. rewrite place_nth by (rewrite ?map_length; lia). destruct (Nat.eqb_spec c 0); [lia | reflexivity].
Qed.

(** every vertex of the line gets the mean of the values of the vertices to which
    it is the closest one, NaN if there is none *)
Theorem C75_radial_collect : forall d xs ys inp,
  xs <> [] -> increasing xs -> 0 < d -> values_of d (length ys) inp ->
  exists out owners, radialCollect d xs ys inp = Good out /\ values_of d (length xs) out /\
    Forall2 (closest xs) ys owners /\
    forall k, k < length xs ->
      res d out k 0 = match share owners (fun i => val d inp i 0) k with [] => None | l => Some (mean l) end /\
      (forall c, 0 < c < d -> res d out k c = Some 0%Q).
Proof.
  intros d xs ys inp N H D V. eexists. exists (map (bin xs) ys). split; [apply radial_collect; assumption |].
  split; [unfold values_of; rewrite place_length, map_length, seq_length; reflexivity |]. split.
  { clear V. induction ys as [| y ys IH]; constructor; [apply bin_closest; assumption | exact IH]. }
  intros k Hk. split.
  - rewrite place_nth by (rewrite ?map_length, ?seq_length; assumption). cbn [Nat.eqb].
    rewrite nth_map_seq by exact Hk. reflexivity.
  - intros c Hc. rewrite place_nth by (rewrite ?map_length, ?seq_length; lia). destruct (Nat.eqb_spec c 0); [lia | reflexivity].
Qed.

(** what is spread and collected again comes back *)
Theorem C75_radial_round_trip : forall d xs ys inp wall back,
  xs <> [] -> increasing xs -> 0 < d -> values_of d (length xs) inp ->
  radialSpread d xs ys inp = Good (map Some wall) ->
  radialCollect d xs ys wall = Good back ->
  forall k, (exists y, In y ys /\ closest xs y k) -> is_num (res d back k 0) (val d inp k 0).
Proof.
  intros d xs ys inp wall back N H D V E1 E2 k [y [Hy Hk]].
  rewrite radial_spread in E1 by assumption.
  assert (LW : values_of d (length ys) wall).
  { injection E1 as E1. apply (f_equal (@length _)) in E1. rewrite place_length, !map_length in E1. symmetry. exact E1. }
  assert (VW : forall i, i < length ys -> val d wall i 0 = val d inp (bin xs (nth i ys 0%Q)) 0).
  { intros i Hi. injection E1 as E1. assert (P : res d (map Some wall) i 0 = Some (val d inp (bin xs (nth i ys 0%Q)) 0)).
    { rewrite <- E1. rewrite place_nth by (rewrite ?map_length; assumption). cbn [Nat.eqb].
      rewrite (nth_indep _ None (Some (val d inp (bin xs 0%Q) 0))) by (rewrite map_length; exact Hi).
      rewrite (map_nth (fun y => Some (val d inp (bin xs y) 0))). reflexivity. }
    unfold res in P. unfold values_of in LW.
    rewrite (nth_indep _ None (Some 0%Q)) in P by (rewrite map_length, LW; nia).
    rewrite (map_nth (fun q : Q => Some q)) in P. injection P as P. exact P. }
  rewrite radial_collect in E2 by assumption. injection E2 as <-.
  rewrite place_nth; [| exact D | rewrite map_length, seq_length; apply Hk]. cbn [Nat.eqb]. rewrite nth_map_seq by (apply Hk).
  destruct (In_nth _ _ 0%Q Hy) as [i [Hi Ei]].
  assert (B : bin xs y = k) by (apply (closest_unique xs y); [apply bin_closest; assumption | exact Hk]).
  assert (NB : forall i, i < length ys -> nth i (map (bin xs) ys) (S k) = bin xs (nth i ys 0%Q)).
  { intros i' H'. rewrite (nth_indep _ (S k) (bin xs 0%Q)) by (rewrite map_length; exact H'). apply (map_nth (bin xs)). }
  pose proof (share_nonempty (map (bin xs) ys) (fun i => val d wall i 0) k i) as NE.
  rewrite map_length in NE. specialize (NE Hi). rewrite NB, Ei in NE by exact Hi. specialize (NE B).
  assert (M : (mean (share (map (bin xs) ys) (fun i => val d wall i 0) k) == val d inp k 0)%Q).
  { apply mean_const; [exact NE |]. intros v Hv. apply share_in in Hv. destruct Hv as [i' [H1 [H2 ->]]].
    rewrite map_length in H1. rewrite VW by exact H1. rewrite NB in H2 by exact H1. rewrite H2. reflexivity. }
  destruct (share (map (bin xs) ys) (fun i => val d wall i 0) k); [congruence | exact M].
Qed.

(** the claim that the order of the vertices does not matter is false: if any vertex
    of the line lies behind the last one, memory behind the end is read *)
Theorem C75_radial_order_refuted : forall d xs ys inp j,
  j < length xs - 1 -> (nth (length xs - 1) xs 0 < nth j xs 0)%Q -> radialSpread d xs ys inp = UB.
Proof.
  intros d xs ys inp j H1 H2. unfold radialSpread. destruct xs as [| x xs'] eqn:X; [cbn in H1; lia |]. rewrite <- X in *.
  rewrite (unsorted_ub xs j H1 H2). reflexivity.
Qed.
(** ... and if the last one lies behind all others, the result may be wrong, and so
    may be that of collecting *)
Theorem C75_radial_values_refuted :
  (exists xs y k inp, length xs = length inp /\ closest xs y k /\
     exists v, radialSpread 1 xs [y] inp = Good [Some v] /\ ~ (v == nth k inp 0)%Q) /\
  (exists xs y k v, closest xs y k /\
     exists out, radialCollect 1 xs [y] [v] = Good out /\ nth k out None = None).
Proof.
  split.
  - exists [1; 0; 3]%Q, (1 # 10)%Q, 1, [10; 20; 30]%Q. split; [reflexivity |]. split.
    + split; [cbn; lia |]. intros [| [| [| j]]] Hj; cbn in Hj; try lia; split; try lia; cbn; discriminate || (intros; reflexivity).
    + exists 10%Q. split; [vm_compute; reflexivity |]. discriminate.
  - exists [3; 0; 1]%Q, (3)%Q, 0, 7%Q. split.
    + split; [cbn; lia |]. intros [| [| [| j]]] Hj; cbn in Hj; try lia; split; try lia; cbn; discriminate.
    + eexists. split; [vm_compute; reflexivity |]. reflexivity.
Qed.

(** ** axial: one vertex and a cross section *)

(** circles: all vertices get the value (uniform) or the parabola of radius [radius]
    with mean value [u] (1D-3D: factor 2, 1D-2D: factor 3/2) in the component of the
    axis; the other components are zero *)
Theorem C75_axial_spread : forall pw pwm dm p radius d axis v0 outs inp,
  dm <> D2D3 -> (0 < radius)%Q -> within v0 radius outs -> 0 < d -> d = 1 \/ axis < d -> values_of d 1 inp ->
  let e := if d =? 1 then 0 else axis in
  exists out, axialSpread pw pwm dm p CIRCLE radius d axis [v0] outs inp = Good out /\ values_of d (length outs) out /\
    forall i, i < length outs ->
      is_num (res d out i e)
        (match p with
         | UNIFORM => val d inp 0 e
         | PARABOLIC => parabola (match dm with D1D2 => 3 # 2 | _ => 2 end) (val d inp 0 e) (ratio2 v0 radius (nth i outs []))
         end) /\
      (forall c, c < d -> c <> e -> res d out i c = Some 0%Q).
Proof.
  intros pw pwm dm p radius d axis v0 outs inp Dm R W D A V e.
  assert (E : e < d) by (apply (effective_lt d axis D A)).
  exists (place d e (map (fun i => Some (circleValue dm p (val d inp 0 e) (ratio2 v0 radius (nth i outs [])))) (seq 0 (length outs)))).
  split; [| split].
  - unfold axialSpread. change (effective d axis) with e. cbn [length]. rewrite component_ok by assumption. cbn [bindR seq map].
    destruct dm; try congruence; rewrite spread1_circle by assumption; reflexivity.
  - unfold values_of. rewrite place_length, map_length, seq_length. reflexivity.
  - intros i Hi. split.
    + rewrite place_nth by (rewrite ?map_length, ?seq_length; assumption). rewrite Nat.eqb_refl.
      rewrite nth_map_seq by exact Hi. unfold circleValue, factor. destruct p; [reflexivity |]. destruct dm; reflexivity.
    + intros c Hc Ne. rewrite place_nth by (rewrite ?map_length, ?seq_length; assumption).
      destruct (Nat.eqb_spec c e); [contradiction | reflexivity].
Qed.

(** a vertex farther away than 1.05 radii is an error, and so is a number of input
    vertices other than one *)
Theorem C75_axial_refused : forall pw pwm dm p radius d axis ins outs inp,
  dm <> D2D3 -> 0 < d -> d = 1 \/ axis < d -> values_of d (length ins) inp ->
  (length ins <> 1 \/ ((0 < radius)%Q /\ exists y, In y outs /\ ((105 # 100) * (105 # 100) < ratio2 (nth 0 ins []) radius y)%Q)) ->
  axialSpread pw pwm dm p CIRCLE radius d axis ins outs inp = Check.
Proof.
  intros pw pwm dm p radius d axis ins outs inp Dm D A V H. unfold axialSpread.
  rewrite component_ok by (try apply effective_lt; assumption). cbn [bindR].
  destruct ins as [| v0 [| v1 ins]].
  - destruct dm; try congruence; reflexivity.
  - destruct H as [H | [R [y [I L]]]]; [cbn in H; lia |]. cbn [length seq map nth] in *.
    destruct dm; try congruence; rewrite (spread1_circle_check _ _ _ _ _ _ _ _ y) by assumption; reflexivity.
  - destruct dm; try congruence; reflexivity.
Qed.

(** so are vertices beyond 1.05 radii of a square, in either direction *)
Theorem C75_square_refused : forall pw pwm dm p radius d axis v0 outs inp y k,
  dm <> D2D3 -> 0 < d -> d = 1 \/ axis < d -> values_of d 1 inp ->
  In y outs -> k = 1 \/ k = 2 -> ((105 # 100) < Qabs (offset v0 radius axis k y))%Q ->
  axialSpread pw pwm dm p SQUARE radius d axis [v0] outs inp = Check.
Proof.
  intros pw pwm dm p radius d axis v0 outs inp y k Dm D A V I K H. unfold axialSpread.
  cbn [length]. rewrite component_ok by (try apply effective_lt; assumption). cbn [bindR seq map].
  assert (M : mapR (squareCoords v0 radius axis) outs = Check).
  { clear V. induction outs as [| x outs IH]; [easy |]. cbn [mapR].
    destruct I as [-> | I]; [rewrite (square_check _ _ _ _ k K H); reflexivity |].
    unfold squareCoords at 1. destruct (Qeq_bool radius 0); [reflexivity |].
    destruct (_ && _); [| reflexivity]. cbn [bindR]. rewrite (IH I). reflexivity. }
  destruct dm; try congruence; unfold axialSpread1; cbn [bindR]; rewrite M; reflexivity.
Qed.
Print Assumptions C75_square_refused.

(** within the circle the parabola lies between zero and its maximum; the vertices
    between 1 and 1.05 radii that are accepted get values of the opposite sign *)
Theorem C75_profile_range : forall pw pwm dm radius d axis v0 outs inp i,
  dm <> D2D3 -> (0 < radius)%Q -> within v0 radius outs -> 0 < d -> d = 1 \/ axis < d -> values_of d 1 inp ->
  let e := if d =? 1 then 0 else axis in
  (0 <= val d inp 0 e)%Q -> i < length outs -> (ratio2 v0 radius (nth i outs []) <= 1)%Q ->
  exists out v, axialSpread pw pwm dm PARABOLIC CIRCLE radius d axis [v0] outs inp = Good out /\
    res d out i e = Some v /\ (0 <= v)%Q /\ (v <= match dm with D1D2 => 3 # 2 | _ => 2 end * val d inp 0 e)%Q.
Proof.
  intros pw pwm dm radius d axis v0 outs inp i Dm R W D A V e U Hi L.
  destruct (C75_axial_spread pw pwm dm PARABOLIC radius d axis v0 outs inp) as [out [H1 [_ H2]]]; try assumption.
  destruct (H2 i Hi) as [H3 _]. fold e in H3. destruct (res d out i e) as [v |] eqn:Ev; [| destruct H3].
  exists out, v. split; [exact H1 |]. split; [exact Ev |]. cbn [is_num] in H3.
  assert (N : (0 <= ratio2 v0 radius (nth i outs []))%Q).
  { unfold ratio2. apply Qle_shift_div_l; [nra |]. pose proof (squared_nonneg v0 (nth i outs [])). lra. }
  rewrite H3. unfold parabola. set (r := ratio2 v0 radius (nth i outs [])) in *. set (u := val d inp 0 e) in *.
  destruct dm; split; nra.
Qed.
Theorem C75_profile_sign_refuted : forall pw pwm radius d axis v0 outs inp i,
  (0 < radius)%Q -> within v0 radius outs -> 0 < d -> d = 1 \/ axis < d -> values_of d 1 inp ->
  let e := if d =? 1 then 0 else axis in
  (0 < val d inp 0 e)%Q -> i < length outs -> (1 < ratio2 v0 radius (nth i outs []))%Q ->
  exists out v, axialSpread pw pwm D1D3 PARABOLIC CIRCLE radius d axis [v0] outs inp = Good out /\
    res d out i e = Some v /\ (v < 0)%Q.
Proof.
  intros pw pwm radius d axis v0 outs inp i R W D A V e U Hi L.
  destruct (C75_axial_spread pw pwm D1D3 PARABOLIC radius d axis v0 outs inp) as [out [H1 [_ H2]]]; try assumption; [discriminate |].
  destruct (H2 i Hi) as [H3 _]. fold e in H3. destruct (res d out i e) as [v |] eqn:Ev; [| destruct H3].
  exists out, v. split; [exact H1 |]. split; [exact Ev |]. cbn in H3. rewrite H3. unfold parabola. nra.
Qed.

(** squares: no value at the walls, 2.096 times the mean at the centre, no negative
    values *)
Theorem C75_square_spread : forall pw pwm radius d axis v0 outs inp,
  (pw 0 == 0)%Q -> (pw 1 == 1)%Q -> (forall x, 0 <= x -> 0 <= pw x)%Q -> (forall x y, x == y -> pw x == pw y)%Q ->
  ~ (radius == 0)%Q -> within_square v0 radius axis outs -> 0 < d -> d = 1 \/ axis < d -> values_of d 1 inp ->
  let e := if d =? 1 then 0 else axis in
  exists out, axialSpread pw pwm D1D3 PARABOLIC SQUARE radius d axis [v0] outs inp = Good out /\
    forall i, i < length outs -> exists v, res d out i e = Some v /\
      let y := nth i outs [] in
      ((exists k, (k = 1 \/ k = 2) /\ (1 <= Qabs (offset v0 radius axis k y))%Q) -> (v == 0)%Q) /\
      ((forall k, k = 1 \/ k = 2 -> (offset v0 radius axis k y == 0)%Q) -> (v == (2096 # 1000) * val d inp 0 e)%Q) /\
      ((0 <= val d inp 0 e)%Q -> (0 <= v)%Q).
Proof.
  intros pw pwm radius d axis v0 outs inp P0 P1 PN PE R W D A V e.
  assert (E : e < d) by (apply (effective_lt d axis D A)).
  eexists. split.
  { unfold axialSpread. change (effective d axis) with e. cbn [length]. rewrite component_ok by assumption. cbn [bindR seq map].
    rewrite spread1_square by (try assumption; discriminate). cbn [bindR]. reflexivity. }
  intros i Hi. eexists. split.
  { rewrite place_nth by (rewrite ?map_length, ?seq_length; assumption). rewrite Nat.eqb_refl.
    rewrite nth_map_seq by exact Hi. reflexivity. }
  cbv zeta. set (y := nth i outs []). set (s1 := offset v0 radius axis 1 y). set (s2 := offset v0 radius axis 2 y).
  set (u := val d inp 0 e).
  assert (Z : forall s, (1 <= Qabs s)%Q -> (pw (max0 (1 - sq s)) == 0)%Q).
  { intros s H. unfold max0. assert (L : Qle_bool (1 - sq s) 0 = true).
    { apply Qle_bool_iff. unfold sq. revert H. destruct (Qlt_le_dec s 0) as [G | G].
      - rewrite (Qabs_neg s) by lra. intros H. nra.
      - rewrite (Qabs_pos s) by exact G. intros H. nra. }
    rewrite L. exact P0. }
  assert (O : forall s, (s == 0)%Q -> (pw (max0 (1 - sq s)) == 1)%Q).
  { intros s H. assert (Q : (1 - sq s == 1)%Q) by (unfold sq; rewrite H; ring).
    unfold max0. assert (L : Qle_bool (1 - sq s) 0 = false) by (apply not_true_is_false; intros G; apply Qle_bool_iff in G; lra).
    rewrite L. rewrite (PE _ _ Q). exact P1. }
  assert (NN : forall s, (0 <= pw (max0 (1 - sq s)))%Q).
  { intros s. apply PN. unfold max0. destruct (Qle_bool (1 - sq s) 0) eqn:L; [apply Qle_refl |].
    apply Qlt_le_weak. apply Qnot_le_lt. intros G. apply Qle_bool_iff in G. congruence. }
  split; [| split].
  - intros [k [[-> | ->] H]].
    + rewrite (Z s1 H). ring.
    + rewrite (Z s2 H). ring.
  - intros H. rewrite (O s1 (H 1 (or_introl eq_refl))), (O s2 (H 2 (or_intror eq_refl))). ring.
  - intros U. pose proof (NN s1). pose proof (NN s2).
    apply Qmult_le_0_compat; [apply Qmult_le_0_compat; [apply Qmult_le_0_compat; [discriminate | exact U] | assumption] | assumption].
Qed.
(** ... but a parabola on a line (1D-2D) with a square cross section, which the
    configuration accepts, reads distances that were never computed *)
Theorem C75_line_square_refuted : forall pw pwm radius d axis v0 outs inp,
  ~ (radius == 0)%Q -> within_square v0 radius axis outs -> outs <> [] -> 0 < d -> d = 1 \/ axis < d -> values_of d 1 inp ->
  axialSpread pw pwm D1D2 PARABOLIC SQUARE radius d axis [v0] outs inp = UB.
Proof.
  intros pw pwm radius d axis v0 outs inp R W N D A V. unfold axialSpread.
  cbn [length]. rewrite component_ok by (try apply effective_lt; assumption). cbn [bindR seq map].
  rewrite spread1_square_line by assumption. reflexivity.
Qed.

(** collecting takes the mean over all vertices *)
Theorem C75_axial_collect : forall pwc dm p s radius d axis v0 ins inp,
  dm <> D2D3 -> 0 < d -> d = 1 \/ axis < d -> values_of d (length ins) inp ->
  let e := if d =? 1 then 0 else axis in
  exists out, axialCollect pwc dm p s radius d axis ins [v0] inp = Good out /\ values_of d 1 out /\
    (res d out 0 e = match ins with [] => None | _ => Some (mean (map (fun i => val d inp i e) (seq 0 (length ins)))) end) /\
    (forall c, c < d -> c <> e -> res d out 0 c = Some 0%Q).
Proof.
  intros pwc dm p s radius d axis v0 ins inp Dm D A V e.
  assert (E : e < d) by (apply (effective_lt d axis D A)).
  exists (place d e [axialCollect1 (map (fun i => val d inp i e) (seq 0 (length ins)))]). split; [| split; [| split]].
  - unfold axialCollect. change (effective d axis) with e. rewrite component_ok by assumption.
    destruct dm; try congruence; reflexivity.
  - unfold values_of. rewrite place_length. reflexivity.
  - rewrite place_nth by (cbn [length]; lia). rewrite Nat.eqb_refl. cbn [nth]. destruct ins as [| v ins]; [reflexivity |].
    rewrite collect1_mean; [reflexivity |]. cbn [length seq map]. discriminate.
  - intros c Hc Ne. rewrite place_nth by (cbn [length]; lia). destruct (Nat.eqb_spec c e); [contradiction | reflexivity].
Qed.

(** what comes back after spreading a parabola and collecting it: the parabola at the
    mean squared distance, hence the value itself exactly if that is 1/2 (1D-3D) or
    1/3 (1D-2D) of the squared radius *)
Theorem C75_axial_round_trip : forall pw pwm pwc dm radius d axis v0 outs inp wall back,
  dm <> D2D3 -> (0 < radius)%Q -> within v0 radius outs -> outs <> [] -> 0 < d -> d = 1 \/ axis < d -> values_of d 1 inp ->
  axialSpread pw pwm dm PARABOLIC CIRCLE radius d axis [v0] outs inp = Good (map Some wall) ->
  axialCollect pwc dm PARABOLIC CIRCLE radius d axis outs [v0] wall = Good back ->
  let e := if d =? 1 then 0 else axis in
  let u := val d inp 0 e in
  let m := mean (map (fun i => ratio2 v0 radius (nth i outs [])) (seq 0 (length outs))) in
  is_num (res d back 0 e) (parabola (match dm with D1D2 => 3 # 2 | _ => 2 end) u m) /\
  (~ (u == 0)%Q -> (is_num (res d back 0 e) u <-> (m == match dm with D1D2 => 1 # 3 | _ => 1 # 2 end)%Q)).
Proof.
  intros pw pwm pwc dm radius d axis v0 outs inp wall back Dm R W N D A V E1 E2 e u m.
  destruct (C75_axial_spread pw pwm dm PARABOLIC radius d axis v0 outs inp Dm R W D A V) as [out [S1 [S2 S3]]].
  rewrite E1 in S1. injection S1 as <-.
  assert (E : e < d) by (apply (effective_lt d axis D A)).
  assert (LW : values_of d (length outs) wall) by (unfold values_of in *; rewrite map_length in S2; exact S2).
  assert (L0 : 0 < length outs) by (destruct outs; [congruence | cbn; lia]).
  destruct (C75_axial_collect pwc dm PARABOLIC CIRCLE radius d axis v0 outs wall Dm D A LW) as [back' [B1 [_ [B2 _]]]].
  rewrite E2 in B1. injection B1 as <-. fold e in B2.
  set (fc := (match dm with D1D2 => 3 # 2 | _ => 2 end)%Q) in *.
  assert (VW : forall i, i < length outs -> (val d wall i e == parabola fc u (ratio2 v0 radius (nth i outs [])))%Q).
  { intros i Hi. destruct (S3 i Hi) as [P _]. fold e u fc in P. unfold res in P.
    rewrite (nth_indep _ None (Some 0%Q)) in P by (rewrite map_length; unfold values_of in LW; rewrite LW; nia).
    rewrite (map_nth (fun q : Q => Some q)) in P. exact P. }
  assert (M : (mean (map (fun i => val d wall i e) (seq 0 (length outs))) == parabola fc u m)%Q).
  { unfold m. rewrite <- mean_parabola by exact L0. unfold mean. rewrite !map_length.
    rewrite (sum_ext _ (fun i => parabola fc u (ratio2 v0 radius (nth i outs []))))
      by (intros i Hi; apply in_seq in Hi; apply VW; lia). reflexivity. }
  assert (RB : res d back 0 e = Some (mean (map (fun i => val d wall i e) (seq 0 (length outs))))).
  { rewrite B2. destruct outs; [congruence | reflexivity]. }
  rewrite RB. cbn [is_num]. split; [exact M |]. intros U. rewrite M. unfold parabola, fc. split.
  - intros Q. assert (Z : (u * ((match dm with D1D2 => 3 # 2 | _ => 2 end) * (1 - m) - 1) == 0)%Q) by lra.
    apply Qmult_integral in Z. destruct Z as [Z | Z]; [contradiction |]. destruct dm; lra.
  - intros ->. destruct dm; ring.
Qed.

(** [n] equidistant vertices on a line: the error is [u / (2 n^2)] *)
Theorem C75_line_error : forall pw pwm pwc radius v0 u n wall back,
  length v0 = 3 -> 0 < n -> (0 < radius)%Q ->
  axialSpread pw pwm D1D2 PARABOLIC CIRCLE radius 1 0 [v0] (equidistant v0 radius n) [u] = Good (map Some wall) ->
  axialCollect pwc D1D2 PARABOLIC CIRCLE radius 1 0 (equidistant v0 radius n) [v0] wall = Good back ->
  is_num (res 1 back 0 0) (u * (1 + 1 / (2 * inject_Z (Z.of_nat n) * inject_Z (Z.of_nat n)))).
Proof.
  intros pw pwm pwc radius v0 u n wall back L3 N R E1 E2.
  destruct v0 as [| x [| y [| z [| w v]]]]; try discriminate L3.
  pose proof (count_pos n N) as NP. set (q := inject_Z (Z.of_nat n)) in *.
  assert (LE : length (equidistant [x; y; z] radius n) = n) by (unfold equidistant; rewrite map_length, seq_length; reflexivity).
  assert (F : forall i, i < n -> (ratio2 [x; y; z] radius (nth i (equidistant [x; y; z] radius n) []) ==
     (2 * inject_Z (Z.of_nat i) + 1 - q) * (2 * inject_Z (Z.of_nat i) + 1 - q) * (1 / (q * q)))%Q).
  { intros i Hi. unfold equidistant. rewrite nth_map_seq by exact Hi. unfold ratio2, squared. cbn [nth combine fold_right fst snd].
    fold q. field. lra. }
  assert (W : within [x; y; z] radius (equidistant [x; y; z] radius n)).
  { intros p Hp. destruct (In_nth _ _ [] Hp) as [i [Hi <-]]. rewrite LE in Hi. rewrite F by exact Hi.
    assert (B : (0 <= inject_Z (Z.of_nat i) /\ inject_Z (Z.of_nat i) + 1 <= q)%Q).
    { unfold q. change 0%Q with (inject_Z 0). change 1%Q with (inject_Z 1). rewrite <- inject_Z_plus, <- !Zle_Qle. lia. }
    set (t := (2 * inject_Z (Z.of_nat i) + 1 - q)%Q) in *. assert (T1 : (- q <= t /\ t <= q)%Q) by (unfold t; lra).
    setoid_replace (t * t * (1 / (q * q)))%Q with ((t * t) / (q * q))%Q by (field; lra).
    assert (QQ : (0 < q * q)%Q) by nra. apply Qle_trans with 1%Q; [| discriminate].
    apply Qle_shift_div_r; [exact QQ |]. nra. }
  assert (NE : equidistant [x; y; z] radius n <> []) by (intros Q; rewrite Q in LE; cbn in LE; lia).
  destruct (C75_axial_round_trip pw pwm pwc D1D2 radius 1 0 [x; y; z] (equidistant [x; y; z] radius n) [u] wall back)
    as [P _]; try assumption; try discriminate; try lia; [reflexivity |].
  cbn [Nat.eqb] in P. destruct (res 1 back 0 0) as [b |]; [| exact P]. cbn [is_num] in *. rewrite P.
  rewrite LE. unfold parabola, mean. rewrite map_length, seq_length. fold q.
  rewrite (sum_ext _ (fun i => (1 / (q * q)) * (1 - (1 - (2 * inject_Z (Z.of_nat i) + 1 - q) * (2 * inject_Z (Z.of_nat i) + 1 - q))) * 1)%Q)
    by (intros i Hi; apply in_seq in Hi; rewrite F by lia; ring).
  rewrite (sum_affine (fun i => (1 - (2 * inject_Z (Z.of_nat i) + 1 - q) * (2 * inject_Z (Z.of_nat i) + 1 - q))%Q)).
  rewrite seq_length. fold q.
  assert (SS : (sum (map (fun i => (1 - (2 * inject_Z (Z.of_nat i) + 1 - q) * (2 * inject_Z (Z.of_nat i) + 1 - q))%Q) (seq 0 n)) ==
     q - sum (map (fun i => ((2 * inject_Z (Z.of_nat i) + 1 - q) * (2 * inject_Z (Z.of_nat i) + 1 - q))%Q) (seq 0 n)))%Q).
  { rewrite (sum_ext _ (fun i => 1 * (1 - (2 * inject_Z (Z.of_nat i) + 1 - q) * (2 * inject_Z (Z.of_nat i) + 1 - q)) * 1)%Q) by (intros; ring).
    rewrite sum_affine, seq_length. fold q. ring. }
  rewrite SS. pose proof (squares q n) as SQ. fold q in SQ.
  set (s := sum (map (fun i => ((2 * inject_Z (Z.of_nat i) + 1 - q) * (2 * inject_Z (Z.of_nat i) + 1 - q))%Q) (seq 0 n))) in *.
  assert (S' : (s == q * (q * q - 1) / 3)%Q) by (setoid_replace s with ((3 * s) / 3)%Q by field; rewrite SQ; field).
  rewrite S'. unfold val. cbn [nth Nat.mul Nat.add]. field. lra.
Qed.

(** the claim that spreading and collecting preserves the value is false *)
Theorem C75_axial_round_trip_refuted : exists v0 outs u wall back,
  within v0 1 outs /\ outs <> [] /\
  axialSpread (fun x => x) (fun x => x) D1D3 PARABOLIC CIRCLE 1 1 0 [v0] outs [u] = Good (map Some wall) /\
  axialCollect (fun x => x) D1D3 PARABOLIC CIRCLE 1 1 0 outs [v0] wall = Good back /\
  ~ is_num (res 1 back 0 0) u.
Proof.
  exists [0; 0; 0]%Q, [[0; 0; 0]%Q; [0; (1 # 2); 0]%Q], 8%Q, [16; 48 # 4]%Q, [Some (112 # 8)%Q].
  split; [intros y [<- | [<- | []]]; vm_compute; discriminate |]. split; [discriminate |].
  split; [vm_compute; reflexivity |]. split; [vm_compute; reflexivity |]. cbn. discriminate.
Qed.

(** ** axial: a line of vertices and a volume (2D-3D) *)

(** every vertex gets the value of the closest vertex of the line, or a parabola
    that vanishes at the farthest vertex that belongs to the same one; NaN if all of
    them lie on the line *)
Theorem C75_plane_spread : forall pw pwm p radius d axis ins outs inp,
  1 < length ins -> 0 < d -> d = 1 \/ axis < d -> values_of d (length ins) inp ->
  let e := if d =? 1 then 0 else axis in
  exists out, axialSpread pw pwm D2D3 p CIRCLE radius d axis ins outs inp = Good out /\ values_of d (length outs) out /\
    forall i, i < length outs ->
      let y := nth i outs [] in
      (exists k, closest_point ins y k /\
        match p with
        | UNIFORM => res d out i e = Some (val d inp k e)
        | PARABOLIC => exists R2, reach ins outs k R2 /\
            ((R2 == 0)%Q -> res d out i e = None) /\
            (~ (R2 == 0)%Q -> is_num (res d out i e) (parabola (4 # 3) (val d inp k e) (squared y (nth k ins []) / R2)))
        end) /\
      (forall c, c < d -> c <> e -> res d out i c = Some 0%Q).
Proof.
  intros pw pwm p radius d axis ins outs inp L D A V e.
  assert (E : e < d) by (apply (effective_lt d axis D A)).
  exists (place d e (map (planeValue p ins outs (fun i => val d inp i e)) outs)). split; [| split].
  - unfold axialSpread. change (effective d axis) with e. rewrite component_ok by assumption. cbn [bindR].
    rewrite spread2_ok by exact L. reflexivity.
  - unfold values_of. rewrite place_length, map_length. reflexivity.
  - intros i Hi y. split.
    + exists (nearest ins y). destruct (nearest_spec ins y (nth_ne ins L)) as [P1 P2]. split; [exact P1 |].
      assert (Q : res d (place d e (map (planeValue p ins outs (fun i => val d inp i e)) outs)) i e =
                  planeValue p ins outs (fun i => val d inp i e) y).
      { rewrite place_nth by (rewrite ?map_length; assumption). rewrite Nat.eqb_refl.
        rewrite (nth_indep _ None (planeValue p ins outs (fun i => val d inp i e) [])) by (rewrite map_length; exact Hi).
        rewrite (map_nth (planeValue p ins outs (fun i => val d inp i e))). reflexivity. }
      rewrite Q. unfold planeValue. destruct p; [reflexivity |].
      exists (maxDist2 ins outs (nearest ins y)). split; [apply maxDist2_reach; [apply nth_ne; exact L | apply nth_In; exact Hi] |].
      rewrite <- P2. split; intros H.
      * apply Qeq_bool_iff in H. rewrite H. reflexivity.
      * destruct (Qeq_bool (maxDist2 ins outs (nearest ins y)) 0) eqn:B; [apply Qeq_bool_iff in B; contradiction |]. reflexivity.
    + intros c Hc Ne. rewrite place_nth by (rewrite ?map_length; assumption).
      destruct (Nat.eqb_spec c e); [contradiction | reflexivity].
Qed.

(** square cross sections: the value belongs to the closest vertex of the line and
    falls off with the distance from it, relative to the radius, and with its
    coordinate in the direction the line extends in *)
Theorem C75_plane_square : forall pw pwm radius d axis ins outs inp,
  1 < length ins -> 0 < d -> d = 1 \/ axis < d -> values_of d (length ins) inp ->
  let e := if d =? 1 then 0 else axis in
  exists out l, axialSpread pw pwm D2D3 PARABOLIC SQUARE radius d axis ins outs inp = Good out /\
    values_of d (length outs) out /\ widest ins l /\
    forall i, i < length outs ->
      let y := nth i outs [] in
      (exists k, closest_point ins y k /\
        let x := (nth l (nth k ins []) 0 / radius)%Q in
        res d out i e = Some (val d inp k e * (2096 # 1500) * pwm (atLeast (1 # 1000000000000) (1 - x * x))
                                * pw (atLeast 0 (1 - squared y (nth k ins []) / (radius * radius))))%Q) /\
      (forall c, c < d -> c <> e -> res d out i c = Some 0%Q).
Proof.
  intros pw pwm radius d axis ins outs inp L D A V e.
  assert (E : e < d) by (apply (effective_lt d axis D A)).
  set (g := fun y => let k := nearest ins y in
     let x := (nth (lineCoord ins) (nth k ins []) 0 / radius)%Q in
     Some (val d inp k e * (2096 # 1500) * pwm (atLeast (1 # 1000000000000) (1 - x * x))
             * pw (atLeast 0 (1 - nearestDist ins y / (radius * radius))))%Q).
  exists (place d e (map g outs)), (lineCoord ins). split; [| split; [| split]].
  - unfold axialSpread. change (effective d axis) with e. rewrite component_ok by assumption. cbn [bindR].
    unfold axialSpread2. destruct (Nat.leb_spec (length ins) 1); [lia |].
    rewrite (mapR_pure _ _ _ g); [reflexivity |]. intros y _.
    destruct (nearest_spec ins y (nth_ne ins L)) as [[P _] _].
    rewrite (getR_in _ _ _ 0%Q) by (rewrite map_length, seq_length; exact P).
    rewrite nth_map_seq by exact P. reflexivity.
  - unfold values_of. rewrite place_length, map_length. reflexivity.
  - apply lineCoord_widest, nth_ne, L.
  - intros i Hi y. split.
    + exists (nearest ins y). destruct (nearest_spec ins y (nth_ne ins L)) as [P1 P2]. split; [exact P1 |].
      rewrite place_nth by (rewrite ?map_length; assumption). rewrite Nat.eqb_refl.
      rewrite (nth_indep _ None (g [])) by (rewrite map_length; exact Hi).
      rewrite (map_nth g). fold y. unfold g. cbv zeta. rewrite P2. reflexivity.
    + intros c Hc Ne. rewrite place_nth by (rewrite ?map_length; assumption).
      destruct (Nat.eqb_spec c e); [contradiction | reflexivity].
Qed.
Print Assumptions C75_plane_square.

(** the claim that the profile vanishes at the configured radius is false: it vanishes
    at the farthest vertex of each vertex of the line, however close that is, or
    there is no number at all *)
Theorem C75_plane_rim_refuted : forall pw pwm radius d axis ins outs inp,
  1 < length ins -> 0 < d -> d = 1 \/ axis < d -> values_of d (length ins) inp ->
  let e := if d =? 1 then 0 else axis in
  exists out, axialSpread pw pwm D2D3 PARABOLIC CIRCLE radius d axis ins outs inp = Good out /\
    forall i k, i < length outs -> let y := nth i outs [] in
      closest_point ins y k -> reach ins outs k (squared y (nth k ins [])) ->
      res d out i e = None \/ is_num (res d out i e) 0.
Proof.
  intros pw pwm radius d axis ins outs inp L D A V e.
  destruct (C75_plane_spread pw pwm PARABOLIC radius d axis ins outs inp L D A V) as [out [H1 [_ H2]]].
  exists out. split; [exact H1 |]. intros i k Hi y C [Rm _]. destruct (H2 i Hi) as [[k' [C' [R2 [[Ra Rb] [Z NZ]]]]] _].
  assert (k' = k) by (apply (closest_point_unique ins y); assumption). subst k'. fold e in Z, NZ. fold y in Z, NZ.
  assert (Q : (R2 == squared y (nth k ins []))%Q).
  { apply Qle_antisym; [destruct Rb as [z [Z1 [Z2 Z3]]]; rewrite <- Z3; apply Rm; assumption |].
    apply Ra; [apply nth_In; exact Hi | exact C]. }
  destruct (Qeq_dec R2 0) as [Y | Y]; [left; apply Z; exact Y |]. right. specialize (NZ Y).
  destruct (res d out i e) as [v |]; [| exact NZ]. cbn [is_num] in *. rewrite NZ. unfold parabola.
  rewrite <- Q. field. exact Y.
Qed.

(** every vertex of the line gets the mean over the vertices to which it is closest,
    times 9/8 for parabolas; zero if there are none *)
Theorem C75_plane_collect : forall pwc p s radius d axis ins outs inp,
  1 < length outs -> 0 < d -> d = 1 \/ axis < d -> values_of d (length ins) inp -> s = CIRCLE \/ p = UNIFORM ->
  let e := if d =? 1 then 0 else axis in
  exists out owners, axialCollect pwc D2D3 p s radius d axis ins outs inp = Good out /\ values_of d (length outs) out /\
    Forall2 (closest_point outs) ins owners /\
    forall j, j < length outs ->
      is_num (res d out j e)
        (match share owners (fun i => val d inp i e) j with
         | [] => 0
         | l => match p with UNIFORM => mean l | PARABOLIC => (9 # 8) * mean l end
         end) /\
      (forall c, c < d -> c <> e -> res d out j c = Some 0%Q).
Proof.
  intros pwc p s radius d axis ins outs inp L D A V H e.
  assert (E : e < d) by (apply (effective_lt d axis D A)).
  eexists. exists (map (nearest outs) ins). split; [| split; [| split]].
  - unfold axialCollect. change (effective d axis) with e. rewrite component_ok by assumption. cbn [bindR].
    rewrite collect2_ok by assumption. cbn [bindR]. reflexivity.
  - unfold values_of. rewrite place_length, map_length, seq_length. reflexivity.
  - clear V. induction ins as [| y ins IH]; constructor; [apply nearest_spec; apply nth_ne; exact L | exact IH].
  - intros j Hj. split.
    + rewrite place_nth by (rewrite ?map_length, ?seq_length; assumption). rewrite Nat.eqb_refl. rewrite nth_map_seq by exact Hj.
      destruct (share (map (nearest outs) ins) (fun i => val d inp i e) j); [reflexivity |].
      destruct p; cbn [is_num]; [reflexivity | ring].
    + intros c Hc Ne. rewrite place_nth by (rewrite ?map_length, ?seq_length; assumption).
      destruct (Nat.eqb_spec c e); [contradiction | reflexivity].
Qed.

(** uniform values that are spread and collected again come back *)
Theorem C75_plane_round_trip : forall pw pwm pwc s radius d axis ins outs inp wall back,
  1 < length ins -> 0 < d -> d = 1 \/ axis < d -> values_of d (length ins) inp ->
  axialSpread pw pwm D2D3 UNIFORM s radius d axis ins outs inp = Good (map Some wall) ->
  axialCollect pwc D2D3 UNIFORM s radius d axis outs ins wall = Good back ->
  let e := if d =? 1 then 0 else axis in
  forall k, (exists y, In y outs /\ closest_point ins y k) -> is_num (res d back k e) (val d inp k e).
Proof.
  intros pw pwm pwc s radius d axis ins outs inp wall back L D A V E1 E2 e k [y [Hy Hk]].
  assert (E : e < d) by (apply (effective_lt d axis D A)).
  unfold axialSpread in E1. change (effective d axis) with e in E1. rewrite component_ok in E1 by assumption. cbn [bindR] in E1.
  rewrite spread2_uniform in E1 by exact L. cbn [bindR] in E1. injection E1 as E1.
  assert (LW : values_of d (length outs) wall).
  { pose proof (f_equal (@length _) E1) as G. rewrite place_length, !map_length in G. symmetry. exact G. }
  assert (VW : forall i, i < length outs -> val d wall i e = val d inp (nearest ins (nth i outs [])) e).
  { intros i Hi. assert (P : res d (map Some wall) i e = Some (val d inp (nearest ins (nth i outs [])) e)).
    { rewrite <- E1. rewrite place_nth by (rewrite ?map_length; assumption). rewrite Nat.eqb_refl.
      rewrite (nth_indep _ None (Some (val d inp (nearest ins []) e))) by (rewrite map_length; exact Hi).
      rewrite (map_nth (fun y => Some (val d inp (nearest ins y) e))). reflexivity. }
    unfold res in P. unfold values_of in LW.
    rewrite (nth_indep _ None (Some 0%Q)) in P by (rewrite map_length, LW; nia).
    rewrite (map_nth (fun q : Q => Some q)) in P. injection P as P. exact P. }
  unfold axialCollect in E2. change (effective d axis) with e in E2. rewrite component_ok in E2 by assumption. cbn [bindR] in E2.
  rewrite collect2_ok in E2 by (try assumption; right; reflexivity). cbn [bindR] in E2. injection E2 as <-.
  rewrite place_nth; [| exact E | rewrite map_length, seq_length; apply Hk]. rewrite Nat.eqb_refl. rewrite nth_map_seq by (apply Hk).
  destruct (In_nth _ _ [] Hy) as [i [Hi Ei]].
  assert (B : nearest ins y = k) by (apply (closest_point_unique ins y); [apply nearest_spec; apply nth_ne; exact L | exact Hk]).
  assert (NB : forall i, i < length outs -> nth i (map (nearest ins) outs) (S k) = nearest ins (nth i outs [])).
  { intros i' H'. rewrite (nth_indep _ (S k) (nearest ins [])) by (rewrite map_length; exact H'). apply (map_nth (nearest ins)). }
  pose proof (share_nonempty (map (nearest ins) outs) (fun i => val d wall i e) k i) as NE.
  rewrite map_length in NE. specialize (NE Hi). rewrite NB, Ei in NE by exact Hi. specialize (NE B).
  assert (M : (mean (share (map (nearest ins) outs) (fun i => val d wall i e) k) == val d inp k e)%Q).
  { apply mean_const; [exact NE |]. intros v Hv. apply share_in in Hv. destruct Hv as [i' [H1 [H2 ->]]].
    rewrite map_length in H1. rewrite VW by exact H1. rewrite NB in H2 by exact H1. rewrite H2. reflexivity. }
  destruct (share (map (nearest ins) outs) (fun i => val d wall i e) k); [congruence | exact M].
Qed.

(** where the meshes are in space does not matter for circles *)
Theorem C75_plane_moved : forall pw pwm p radius d axis ins outs inp t,
  1 < length ins -> 0 < d -> d = 1 \/ axis < d -> values_of d (length ins) inp ->
  (forall v, In v ins \/ In v outs -> length v = length t) ->
  let e := if d =? 1 then 0 else axis in
  exists out out', axialSpread pw pwm D2D3 p CIRCLE radius d axis ins outs inp = Good out /\
    axialSpread pw pwm D2D3 p CIRCLE radius d axis (moved t ins) (moved t outs) inp = Good out' /\
    forall i q, i < length outs -> (is_num (res d out i e) q <-> is_num (res d out' i e) q).
Proof.
  intros pw pwm p radius d axis ins outs inp t L D A V LV e.
  assert (Lm : length (moved t ins) = length ins) by (unfold moved; apply map_length).
  assert (Lo : length (moved t outs) = length outs) by (unfold moved; apply map_length).
  destruct (C75_plane_spread pw pwm p radius d axis ins outs inp L D A V) as [out [H1 [_ H2]]].
  destruct (C75_plane_spread pw pwm p radius d axis (moved t ins) (moved t outs) inp) as [out' [G1 [_ G2]]];
    try (rewrite ?Lm; assumption).
  exists out, out'. split; [exact H1 |]. split; [exact G1 |]. intros i q Hi.
  destruct (H2 i Hi) as [[k [C P]] _]. rewrite <- Lo in Hi. destruct (G2 i Hi) as [[k' [C' P']] _]. rewrite Lo in Hi.
  fold e in P, P'. rewrite (moved_nth t outs i Hi) in C', P'.
  assert (Ly : length (nth i outs []) = length t) by (apply LV; right; apply nth_In; exact Hi).
  apply moved_closest in C'; [| exact Ly | intros v Hv; apply LV; left; exact Hv].
  assert (k' = k) by (apply (closest_point_unique ins (nth i outs [])); assumption). subst k'.
  destruct p.
  - rewrite P, P'. reflexivity.
  - destruct P as [R2 [R [Z NZ]]]. destruct P' as [R2' [R' [Z' NZ']]].
    assert (Q : (R2 == R2')%Q).
    { apply (moved_reach t ins outs k); try assumption; [apply C | |]; intros v Hv; apply LV; [left | right]; exact Hv. }
    destruct (Qeq_dec R2 0) as [Y | Y].
    + assert (Y' : (R2' == 0)%Q) by (rewrite <- Q; exact Y). rewrite (Z Y), (Z' Y'). reflexivity.
    + assert (Y' : ~ (R2' == 0)%Q) by (rewrite <- Q; exact Y). specialize (NZ Y). specialize (NZ' Y').
      assert (S : (squared (move t (nth i outs [])) (nth k (moved t ins) []) == squared (nth i outs []) (nth k ins []))%Q).
      { rewrite moved_nth by (apply C). apply squared_moved; [exact Ly | apply LV; left; apply nth_In; apply C]. }
      destruct (res d out i e) as [v |]; [| destruct NZ]. destruct (res d out' i e) as [v' |]; [| destruct NZ'].
      cbn [is_num] in *. assert (VV : (v == v')%Q) by (rewrite NZ, NZ'; unfold parabola; rewrite S, Q; reflexivity).
      rewrite VV. reflexivity.
Qed.
(** ... but it does for squares, where coordinates are taken as if the centre were
    the origin: moving both meshes by half a radius changes the result *)
Theorem C75_plane_square_moved_refuted : forall pw pwm,
  (forall x y, x == y -> pw x == pw y)%Q -> (forall x y, x == y -> pwm x == pwm y)%Q ->
  (pw 1 == 1)%Q -> ~ (pwm 1 == pwm (3 # 4))%Q ->
  exists ins outs inp t out out',
    (forall v, In v ins \/ In v outs -> length v = length t) /\
    axialSpread pw pwm D2D3 PARABOLIC SQUARE 1 1 0 ins outs inp = Good out /\
    axialSpread pw pwm D2D3 PARABOLIC SQUARE 1 1 0 (moved t ins) (moved t outs) inp = Good out' /\
    exists q, is_num (res 1 out 0 0) q /\ ~ is_num (res 1 out' 0 0) q.
Proof.
  intros pw pwm PE PME P1 PM.
  set (ins := [[0; 0; 0]; [0; (1 # 4); 0]]%Q). set (outs := [[0; 0; 0]]%Q). set (t := [0; (1 # 2); 0]%Q).
  exists ins, outs, [1; 1]%Q, t,
    [Some (1 * (2096 # 1500) * pwm (1 - sq (0 / 1)) * pw (1 - nearestDist ins (nth 0 outs []) / sq 1))%Q],
    [Some (1 * (2096 # 1500) * pwm (1 - sq ((0 + (1 # 2)) / 1)) * pw (1 - nearestDist (moved t ins) (nth 0 (moved t outs) []) / sq 1))%Q].
  split; [intros v [[<- | [<- | []]] | [<- | []]]; reflexivity |].
  split; [reflexivity |]. split; [reflexivity |].
  exists ((2096 # 1500) * pwm 1)%Q. unfold res. cbn [Nat.mul Nat.add nth is_num].
  assert (A1 : (1 - nearestDist ins (nth 0 outs []) / sq 1 == 1)%Q) by (vm_compute; reflexivity).
  assert (A2 : (1 - nearestDist (moved t ins) (nth 0 (moved t outs) []) / sq 1 == 1)%Q) by (vm_compute; reflexivity).
  assert (B1 : (1 - sq (0 / 1) == 1)%Q) by reflexivity.
  assert (B2 : (1 - sq ((0 + (1 # 2)) / 1) == 3 # 4)%Q) by reflexivity.
  rewrite (PE _ _ A1), (PE _ _ A2), (PME _ _ B1), (PME _ _ B2), P1. split; [ring |].
  intros H. apply PM. lra.
Qed.

(** ** the hypotheses are met *)
Example geo_line : increasing [0; 2; 3]%Q /\ closest [0; 2; 3]%Q (5 # 2)%Q 1.
Proof.
  split.
  - intros i j H. cbn in H. destruct i as [| [| i]]; destruct j as [| [| [| j]]]; try lia; reflexivity.
  - split; [cbn; lia |]. intros [| [| [| j]]] Hj; cbn in Hj; try lia; split; try lia; cbn; intros; try discriminate; reflexivity.
Qed.
Example geo_radial_trip :
  radialSpread 2 [0; 2; 3]%Q [(5 # 2); 0; 1; 9]%Q [10; 1; 20; 2; 30; 3]%Q = Good (map Some [20; 0; 10; 0; 10; 0; 30; 0]%Q) /\
  match radialCollect 2 [0; 2; 3]%Q [(5 # 2); 0; 1; 9]%Q [20; 0; 10; 0; 10; 0; 30; 0]%Q with
  | Good l => map (option_map Qred) l = [Some 10; Some 0; Some 20; Some 0; Some 30; Some 0]%Q
  | _ => False end.
Proof. split; vm_compute; reflexivity. Qed.
Example geo_radial_empty :
  match radialCollect 1 [0; 2; 3]%Q [0; 9]%Q [5; 6]%Q with
  | Good l => map (option_map Qred) l = [Some 5%Q; None; Some 6%Q]
  | _ => False end.
Proof. vm_compute. reflexivity. Qed.
Example geo_radial_behind : radialSpread 1 [2; 0]%Q [1]%Q [7; 8]%Q = UB.
Proof. apply (C75_radial_order_refuted 1 [2; 0]%Q [1]%Q [7; 8]%Q 0); [cbn; lia | reflexivity]. Qed.

Definition ex_axis : list (list Q) := [[0; 0; 0]; [0; 1; 0]; [0; 0; 2]; [0; 0; (21 # 10)]]%Q.
Example geo_axial : within [0; 0; 0]%Q 2 ex_axis /\
  match axialSpread (fun x => x) (fun x => x) D1D3 PARABOLIC CIRCLE 2 3 0 [[0; 0; 0]%Q] ex_axis [4; 1; 1]%Q with
  | Good l => map (option_map Qred) l =
      [Some 8; Some 0; Some 0; Some 6; Some 0; Some 0; Some 0; Some 0; Some 0; Some (- 41 # 50); Some 0; Some 0]%Q
  | _ => False end.
Proof.
  split; [| vm_compute; reflexivity]. intros y [<- | [<- | [<- | [<- | []]]]]; vm_compute; discriminate.
Qed.
Example geo_square : within_square [0; 0; 0]%Q 2 0 ex_axis /\
  axialSpread (fun x => x) (fun x => x) D1D2 PARABOLIC SQUARE 2 1 0 [[0; 0; 0]%Q] ex_axis [4]%Q = UB.
Proof.
  assert (W : within_square [0; 0; 0]%Q 2 0 ex_axis).
  { intros y k [<- | [<- | [<- | [<- | []]]]] [-> | ->]; vm_compute; discriminate. }
  split; [exact W |]. apply C75_line_square_refuted; try exact W; try discriminate; try lia; auto. reflexivity.
Qed.
(** half of the vertices at the centre, half at the radius: the value comes back *)
Example geo_axial_trip :
  match axialSpread (fun x => x) (fun x => x) D1D3 PARABOLIC CIRCLE 2 1 0 [[0; 0; 0]%Q] [[0; 0; 0]; [0; 2; 0]]%Q [4]%Q with
  | Good l => map (option_map Qred) l = map Some [8; 0]%Q
  | _ => False end /\
  match axialCollect (fun x => x) D1D3 PARABOLIC CIRCLE 2 1 0 [[0; 0; 0]; [0; 2; 0]]%Q [[0; 0; 0]%Q] [8; 0]%Q with
  | Good l => map (option_map Qred) l = [Some 4%Q]
  | _ => False end.
Proof. split; vm_compute; reflexivity. Qed.
Example geo_equidistant : map (map Qred) (equidistant [5; 0; 0]%Q 2 4) =
  [[5; - (3 # 2); 0]; [5; - (1 # 2); 0]; [5; 1 # 2; 0]; [5; 3 # 2; 0]]%Q.
Proof. vm_compute. reflexivity. Qed.

Definition ex_ins : list (list Q) := [[0; 0; 0]; [0; 4; 0]]%Q.
Definition ex_outs : list (list Q) := [[0; 0; 1]; [0; 0; 2]; [0; 4; 1]; [0; 3; 0]]%Q.
Example geo_plane :
  match axialSpread (fun x => x) (fun x => x) D2D3 PARABOLIC CIRCLE 9 1 0 ex_ins ex_outs [4; 8]%Q with
  | Good l => map (option_map Qred) l = [Some 4; Some 0; Some 0; Some 0]%Q
  | _ => False end /\
  match axialSpread (fun x => x) (fun x => x) D2D3 PARABOLIC CIRCLE 9 1 0 ex_ins ex_ins [4; 8]%Q with
  | Good l => l = [None; None]
  | _ => False end /\
  match axialSpread (fun x => x) (fun x => x) D2D3 UNIFORM CIRCLE 9 1 0 ex_ins ex_outs [4; 8]%Q with
  | Good l => l = map Some [4; 4; 8; 8]%Q
  | _ => False end /\
  match axialCollect (fun x => x) D2D3 PARABOLIC CIRCLE 9 1 0 ex_outs (ex_ins ++ [[9; 9; 9]%Q]) [4; 4; 8; 8]%Q with
  | Good l => map (option_map Qred) l = [Some (9 # 2); Some 9; Some 0]%Q
  | _ => False end.
Proof. repeat split; vm_compute; reflexivity. Qed.
Example geo_power : forall x y : Q, (x == y)%Q -> ((fun x => x) x == (fun x => x) y)%Q /\ ~ ((fun x : Q => x) 1 == (fun x => x) (3 # 4))%Q.
Proof. intros x y H. split; [exact H | discriminate]. Qed.

Print Assumptions C75_radial_spread.
Print Assumptions C75_radial_collect.
Print Assumptions C75_radial_round_trip.
Print Assumptions C75_radial_order_refuted.
Print Assumptions C75_radial_values_refuted.
Print Assumptions C75_axial_spread.
Print Assumptions C75_axial_refused.
Print Assumptions C75_profile_range.
Print Assumptions C75_profile_sign_refuted.
Print Assumptions C75_square_spread.
Print Assumptions C75_line_square_refuted.
Print Assumptions C75_axial_collect.
Print Assumptions C75_axial_round_trip.
Print Assumptions C75_line_error.
Print Assumptions C75_axial_round_trip_refuted.
Print Assumptions C75_plane_spread.
Print Assumptions C75_plane_rim_refuted.
Print Assumptions C75_plane_collect.
Print Assumptions C75_plane_round_trip.
Print Assumptions C75_plane_moved.
Print Assumptions C75_plane_square_moved_refuted.
