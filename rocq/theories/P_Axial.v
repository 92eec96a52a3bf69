(** Proofs about the axial geometric multiscale mapping. *)
From Coq Require Import ZArith QArith Qabs Bool List Lia Lqa.
From Verif Require Import M_Geo S_Geo P_Geo.
Import ListNotations.
Open Scope list_scope.
Open Scope nat_scope.

Lemma dist2_squared : forall a b, dist2 a b = squared a b.
Proof. induction a as [| x a IH]; intros [| y b]; try reflexivity. cbn [dist2]. rewrite IH. reflexivity. Qed.
Lemma squared_nonneg : forall a b, (0 <= squared a b)%Q.
Proof.
  induction a as [| x a IH]; intros [| y b]; try apply Qle_refl.
  change (squared (x :: a) (y :: b)) with ((x - y) * (x - y) + squared a b)%Q. specialize (IH b).
  set (t := (x - y)%Q). assert (0 <= t * t)%Q by nra. lra.
Qed.

(** ** the nearest vertex *)
Lemma nth_snoc : forall A (l : list A) a d, nth (length l) (l ++ [a]) d = a.
Proof. intros A l a d. rewrite app_nth2 by lia. rewrite Nat.sub_diag. reflexivity. Qed.
Lemma nearestFrom_spec : forall vs y ps best b,
  closest_point ps y best -> b = squared y (nth best ps []) ->
  exists k, nearestFrom vs y (length ps) best (Some b) = (k, Some (squared y (nth k (ps ++ vs) []))) /\ closest_point (ps ++ vs) y k.
Proof.
  induction vs as [| v vs IH]; intros y ps best b C E.
  - exists best. rewrite app_nil_r. cbn. rewrite E. split; [reflexivity | exact C].
  - cbn [nearestFrom]. rewrite dist2_squared. destruct C as [C1 C2].
    assert (L : S (length ps) = length (ps ++ [v])) by (rewrite app_length; cbn; lia).
    destruct (Qle_bool b (squared y v)) eqn:Q.
    + apply Qle_bool_iff in Q. rewrite E in Q. rewrite L. destruct (IH y (ps ++ [v]) best b) as [k [H1 H2]].
      * split; [rewrite app_length; cbn; lia |]. intros j Hj. rewrite app_length in Hj. cbn in Hj.
        rewrite (app_nth1 _ _ _ C1). destruct (Nat.lt_ge_cases j (length ps)) as [J | J].
        { rewrite (app_nth1 _ _ _ J). apply C2. exact J. }
        replace j with (length ps) by lia. rewrite nth_snoc. split; [exact Q | lia].
      * rewrite (app_nth1 _ _ _ C1). exact E.
      * exists k. rewrite <- app_assoc in H1, H2. split; assumption.
    + assert (Q' : (squared y v < b)%Q) by (apply Qnot_le_lt; intros G; apply Qle_bool_iff in G; congruence).
      rewrite E in Q'. rewrite L.
      destruct (IH y (ps ++ [v]) (length ps) (squared y v)) as [k [H1 H2]].
      * split; [rewrite app_length; cbn; lia |]. intros j Hj. rewrite app_length in Hj. cbn in Hj. rewrite nth_snoc.
        destruct (Nat.lt_ge_cases j (length ps)) as [J | J].
        { rewrite (app_nth1 _ _ _ J). destruct (C2 j J) as [D _].
          split; [apply Qlt_le_weak |]; [| intros _]; eapply Qlt_le_trans; eassumption. }
        replace j with (length ps) by lia. rewrite nth_snoc. split; [apply Qle_refl | lia].
      * rewrite nth_snoc. reflexivity.
      * exists k. rewrite <- app_assoc in H1, H2. split; assumption.
Qed.
Lemma nearest_spec : forall vs y, vs <> [] ->
  closest_point vs y (nearest vs y) /\ nearestDist vs y = squared y (nth (nearest vs y) vs []).
Proof.
  intros [| v vs] y N; [congruence |]. unfold nearest, nearestDist. cbn [nearestFrom]. rewrite dist2_squared.
  destruct (nearestFrom_spec vs y [v] 0 (squared y v)) as [k [H1 H2]].
  - split; [cbn; lia |]. intros j Hj. cbn in Hj. replace j with 0 by lia. split; [apply Qle_refl | lia].
  - reflexivity.
  - cbn [length] in H1. rewrite H1. cbn [fst snd]. split; [exact H2 | reflexivity].
Qed.
Lemma closest_point_unique : forall vs y a b, closest_point vs y a -> closest_point vs y b -> a = b.
Proof.
  intros vs y a b [A1 A2] [B1 B2]. destruct (Nat.lt_trichotomy a b) as [L | [E | L]]; [exfalso | exact E | exfalso].
  - destruct (A2 b B1) as [P _]. destruct (B2 a A1) as [_ Q]. specialize (Q L). lra.
  - destruct (B2 a A1) as [P _]. destruct (A2 b B1) as [_ Q]. specialize (Q L). lra.
Qed.

(** the largest distance of the output vertices of one input vertex *)
Lemma maxDist2_spec : forall ins outs k,
  (0 <= maxDist2 ins outs k)%Q /\
  (forall y, In y outs -> nearest ins y = k -> (nearestDist ins y <= maxDist2 ins outs k)%Q) /\
  (maxDist2 ins outs k = 0%Q \/ exists y, In y outs /\ nearest ins y = k /\ maxDist2 ins outs k = nearestDist ins y).
Proof.
  intros ins outs k. induction outs as [| y outs [I0 [I1 I2]]].
  - cbn. repeat split; [apply Qle_refl | intros y [] | left; reflexivity].
  - change (maxDist2 ins (y :: outs) k) with
      (if (nearest ins y =? k) && negb (Qle_bool (nearestDist ins y) (maxDist2 ins outs k)) then nearestDist ins y else maxDist2 ins outs k).
    destruct (Nat.eqb_spec (nearest ins y) k) as [E | E]; cbn [andb].
    + destruct (Qle_bool (nearestDist ins y) (maxDist2 ins outs k)) eqn:Q; cbn [negb].
      * apply Qle_bool_iff in Q. split; [exact I0 |]. split.
        { intros z [<- | Hz] Ez; [exact Q | apply I1; assumption]. }
        destruct I2 as [I2 | [z [Z1 Z2]]]; [left; exact I2 | right; exists z; split; [right; exact Z1 | exact Z2]].
      * assert (Q' : (maxDist2 ins outs k < nearestDist ins y)%Q) by (apply Qnot_le_lt; intros G; apply Qle_bool_iff in G; congruence).
        split; [eapply Qle_trans; [exact I0 | apply Qlt_le_weak; exact Q'] |]. split.
        { intros z [<- | Hz] Ez; [apply Qle_refl |]. eapply Qle_trans; [apply I1; assumption | apply Qlt_le_weak; exact Q']. }
        right. exists y. split; [left; reflexivity |]. split; [exact E | reflexivity].
    + split; [exact I0 |]. split.
      * intros z [<- | Hz] Ez; [contradiction | apply I1; assumption].
      * destruct I2 as [I2 | [z [Z1 Z2]]]; [left; exact I2 | right; exists z; split; [right; exact Z1 | exact Z2]].
Qed.

(** ** components *)
Lemma effective_lt : forall d axis, 0 < d -> (d = 1 \/ axis < d) -> effective d axis < d.
Proof. intros d axis D H. unfold effective. destruct (Nat.eqb_spec d 1); lia. Qed.
Lemma component_ok : forall d e n inp, e < d -> values_of d n inp ->
  component d e n inp = Good (map (fun i => val d inp i e) (seq 0 n)).
Proof.
  intros d e n inp E V. unfold component. apply mapR_pure. intros i Hi. apply in_seq in Hi. unfold val.
  apply getR_in. unfold values_of in V. rewrite V. nia.
Qed.

(** ** one vertex to many *)
Lemma circle_ok : forall v0 radius y, (0 < radius)%Q -> (ratio2 v0 radius y <= (105 # 100) * (105 # 100))%Q ->
  circleDistance v0 radius y = Good (ratio2 v0 radius y).
Proof.
  intros v0 radius y R H. unfold circleDistance. rewrite dist2_squared. fold (sq radius) in *.
  change (squared v0 y / sq radius)%Q with (ratio2 v0 radius y).
  assert (E : Qeq_bool radius 0 = false) by (apply not_true_is_false; intros G; apply Qeq_bool_iff in G; lra).
  rewrite E.
  assert (E2 : Qle_bool (ratio2 v0 radius y) (11025 # 10000) = true) by (apply Qle_bool_iff; eapply Qle_trans; [exact H | discriminate]).
  rewrite E2. reflexivity.
Qed.
Lemma circle_check : forall v0 radius y, (0 < radius)%Q -> ((105 # 100) * (105 # 100) < ratio2 v0 radius y)%Q ->
  circleDistance v0 radius y = Check.
Proof.
  intros v0 radius y R H. unfold circleDistance. rewrite dist2_squared.
  change (squared v0 y / sq radius)%Q with (ratio2 v0 radius y).
  assert (E : Qeq_bool radius 0 = false) by (apply not_true_is_false; intros G; apply Qeq_bool_iff in G; lra).
  rewrite E.
  assert (E2 : Qle_bool (ratio2 v0 radius y) (11025 # 10000) = false).
  { apply not_true_is_false; intros G; apply Qle_bool_iff in G.
    assert (X : ((105 # 100) * (105 # 100) == 11025 # 10000)%Q) by reflexivity. rewrite X in H. lra. }
  rewrite E2.
  assert (E3 : Qle_bool radius 0 = false) by (apply not_true_is_false; intros G; apply Qle_bool_iff in G; lra).
  rewrite E3. reflexivity.
Qed.

Definition factor (dm : adim) : Q := match dm with D1D2 => 3 # 2 | _ => 2 end.
Definition circleValue (dm : adim) (p : profile) (u r2 : Q) : Q :=
  match p with UNIFORM => u | PARABOLIC => parabola (factor dm) u r2 end.
Lemma spread1_circle : forall pw dm p radius axis v0 u outs, (0 < radius)%Q -> within v0 radius outs ->
  axialSpread1 pw dm p CIRCLE radius axis v0 u outs =
  Good (map (fun i => Some (circleValue dm p u (ratio2 v0 radius (nth i outs [])))) (seq 0 (length outs))).
Proof.
  intros pw dm p radius axis v0 u outs R W. unfold axialSpread1.
  rewrite (mapR_pure _ _ _ (ratio2 v0 radius)) by (intros y Hy; apply circle_ok; [exact R | apply W; exact Hy]).
  cbn [bindR]. apply mapR_pure. intros i Hi. apply in_seq in Hi.
  destruct p; [reflexivity |].
  assert (G : getR (map (ratio2 v0 radius) outs) i = Good (ratio2 v0 radius (nth i outs []))).
  { rewrite (getR_in _ _ _ (ratio2 v0 radius [])) by (rewrite map_length; lia). rewrite map_nth. reflexivity. }
  destruct dm; rewrite G; reflexivity.
Qed.
Lemma spread1_circle_check : forall pw dm p radius axis v0 u outs y, (0 < radius)%Q -> In y outs ->
  ((105 # 100) * (105 # 100) < ratio2 v0 radius y)%Q ->
  axialSpread1 pw dm p CIRCLE radius axis v0 u outs = Check.
Proof.
  intros pw dm p radius axis v0 u outs y R I H. unfold axialSpread1.
  rewrite (mapR_check _ _ (circleDistance v0 radius) outs); [reflexivity | |].
  - intros z _. destruct (Qlt_le_dec ((105 # 100) * (105 # 100)) (ratio2 v0 radius z)) as [L | L].
    + left. apply circle_check; assumption.
    + right. eexists. apply circle_ok; assumption.
  - exists y. split; [exact I | apply circle_check; assumption].
Qed.

(** square cross sections *)
Lemma sq_le : forall x, (Qabs x <= 105 # 100)%Q -> Qle_bool (sq x) (11025 # 10000) = true.
Proof.
  intros x H. apply Qle_bool_iff. unfold sq. apply Qabs_Qle_condition in H. nra.
Qed.
Lemma square_ok : forall v0 radius axis outs y, ~ (radius == 0)%Q -> within_square v0 radius axis outs -> In y outs ->
  squareCoords v0 radius axis y = Good (offset v0 radius axis 1 y, offset v0 radius axis 2 y).
Proof.
  intros v0 radius axis outs y R W I. unfold squareCoords.
  assert (E : Qeq_bool radius 0 = false) by (apply not_true_is_false; intros G; apply Qeq_bool_iff in G; contradiction).
  rewrite E. fold (offset v0 radius axis 1 y) (offset v0 radius axis 2 y).
  rewrite !sq_le; [reflexivity | apply W; auto | apply W; auto].
Qed.
Lemma spread1_square : forall pw dm radius axis v0 u outs, ~ (radius == 0)%Q -> within_square v0 radius axis outs ->
  dm <> D1D2 ->
  axialSpread1 pw dm PARABOLIC SQUARE radius axis v0 u outs =
  Good (map (fun i => let y := nth i outs [] in
     Some ((2096 # 1000) * u * pw (max0 (1 - sq (offset v0 radius axis 1 y))) * pw (max0 (1 - sq (offset v0 radius axis 2 y))))%Q)
     (seq 0 (length outs))).
Proof.
  intros pw dm radius axis v0 u outs R W D. unfold axialSpread1. cbn [bindR].
  rewrite (mapR_pure _ _ _ (fun y => (offset v0 radius axis 1 y, offset v0 radius axis 2 y)))
    by (intros y Hy; apply (square_ok v0 radius axis outs); assumption).
  cbn [bindR]. apply mapR_pure. intros i Hi. apply in_seq in Hi.
  set (f := fun y => (offset v0 radius axis 1 y, offset v0 radius axis 2 y)).
  assert (G : getR (map f outs) i = Good (f (nth i outs []))).
  { rewrite (getR_in _ _ _ (f [])) by (rewrite map_length; lia). rewrite map_nth. reflexivity. }
  destruct dm; try congruence; rewrite G; reflexivity.
Qed.
Lemma spread1_square_line : forall pw radius axis v0 u outs, ~ (radius == 0)%Q -> within_square v0 radius axis outs ->
  outs <> [] -> axialSpread1 pw D1D2 PARABOLIC SQUARE radius axis v0 u outs = UB.
Proof.
  intros pw radius axis v0 u outs R W N. unfold axialSpread1. cbn [bindR].
  rewrite (mapR_pure _ _ _ (fun y => (offset v0 radius axis 1 y, offset v0 radius axis 2 y)))
    by (intros y Hy; apply (square_ok v0 radius axis outs); assumption).
  cbn [bindR]. destruct outs as [| y outs]; [congruence |]. reflexivity.
Qed.

(** ** many to one *)
Lemma collect1_mean : forall us, us <> [] -> axialCollect1 us = Some (mean us).
Proof. intros [| u us] N; [congruence |]. reflexivity. Qed.

Lemma sum_affine : forall (f : nat -> Q) a b l, (sum (map (fun i => a * (1 - f i) * b) l) ==
  a * b * (inject_Z (Z.of_nat (length l)) - sum (map f l)))%Q.
Proof.
  intros f a b l. induction l as [| i l IH]; [cbn; ring |].
  cbn [map length].
  change (sum (f i :: map f l)) with (f i + sum (map f l))%Q.
  change (sum ((a * (1 - f i) * b)%Q :: map (fun i0 => (a * (1 - f i0) * b)%Q) l)) with ((a * (1 - f i) * b) + sum (map (fun i0 => (a * (1 - f i0) * b)%Q) l))%Q.
  rewrite IH. rewrite Nat2Z.inj_succ. unfold Z.succ. rewrite inject_Z_plus. change (inject_Z 1) with 1%Q. ring.
Qed.
Lemma sum_ext : forall (f g : nat -> Q) l, (forall i, In i l -> (f i == g i)%Q) -> (sum (map f l) == sum (map g l))%Q.
Proof.
  intros f g l. induction l as [| i l IH]; intros H; [reflexivity |]. cbn [map].
  change (sum (f i :: map f l)) with (f i + sum (map f l))%Q. change (sum (g i :: map g l)) with (g i + sum (map g l))%Q.
  rewrite IH by (intros j Hj; apply H; right; exact Hj). rewrite (H i) by (left; reflexivity). reflexivity.
Qed.
Lemma mean_parabola : forall factor u (f : nat -> Q) n, 0 < n ->
  (mean (map (fun i => parabola factor u (f i)) (seq 0 n)) == parabola factor u (mean (map f (seq 0 n))))%Q.
Proof.
  intros fc u f n N. unfold mean, parabola. rewrite !map_length, seq_length.
  rewrite (sum_ext _ (fun i => fc * (1 - f i) * u)%Q) by (intros i _; ring).
  rewrite sum_affine, seq_length. pose proof (count_pos n N). field. lra.
Qed.

(** ** equidistant vertices on a line *)
Lemma squares : forall (m : Q) n, (3 * sum (map (fun i => (2 * inject_Z (Z.of_nat i) + 1 - m) * (2 * inject_Z (Z.of_nat i) + 1 - m)) (seq 0 n)) ==
  inject_Z (Z.of_nat n) * (4 * inject_Z (Z.of_nat n) * inject_Z (Z.of_nat n) - 1)
  - 6 * m * inject_Z (Z.of_nat n) * inject_Z (Z.of_nat n) + 3 * inject_Z (Z.of_nat n) * m * m)%Q.
Proof.
  assert (A : forall l1 l2, (sum (l1 ++ l2) == sum l1 + sum l2)%Q).
  { induction l1 as [| x l1 IH]; intros l2; [change (sum ([] ++ l2)) with (sum l2); change (sum []) with 0%Q; ring |]. change (sum ((x :: l1) ++ l2)) with (x + sum (l1 ++ l2))%Q.
    change (sum (x :: l1)) with (x + sum l1)%Q. rewrite IH. ring. }
  intros m n. induction n as [| n IH]; [cbn [seq map sum fold_right]; change (inject_Z (Z.of_nat 0)) with 0%Q; ring |].
  rewrite seq_S, map_app, A. cbn [map Nat.add].
  set (s := sum (map (fun i => ((2 * inject_Z (Z.of_nat i) + 1 - m) * (2 * inject_Z (Z.of_nat i) + 1 - m))%Q) (seq 0 n))) in *.
  rewrite Nat2Z.inj_succ. unfold Z.succ. rewrite inject_Z_plus. change (inject_Z 1) with 1%Q.
  set (q := inject_Z (Z.of_nat n)) in *.
  change (sum [((2 * q + 1 - m) * (2 * q + 1 - m))%Q]) with ((2 * q + 1 - m) * (2 * q + 1 - m) + 0)%Q.
  setoid_replace (3 * (s + ((2 * q + 1 - m) * (2 * q + 1 - m) + 0)))%Q with (3 * s + 3 * ((2 * q + 1 - m) * (2 * q + 1 - m)))%Q by ring.
  rewrite IH. ring.
Qed.

(** ** planes *)
Lemma nth_ne : forall (vs : list (list Q)), 1 < length vs -> vs <> [].
Proof. intros [| v vs] H; [cbn in H; lia | discriminate]. Qed.
Lemma maxDist2_reach : forall ins outs y, ins <> [] -> In y outs -> reach ins outs (nearest ins y) (maxDist2 ins outs (nearest ins y)).
Proof.
  intros ins outs y N I. destruct (maxDist2_spec ins outs (nearest ins y)) as [A [B C]]. split.
  - intros z Hz Cz. destruct (nearest_spec ins z N) as [P1 P2].
    assert (E : nearest ins z = nearest ins y) by (apply (closest_point_unique ins z); assumption).
    rewrite <- E. rewrite <- P2. rewrite E. apply B; assumption.
  - destruct C as [C | [z [Hz [Ez C]]]].
    + exists y. destruct (nearest_spec ins y N) as [P1 P2]. split; [exact I |]. split; [exact P1 |].
      pose proof (B y I eq_refl) as L. rewrite P2 in L. rewrite C in L |- *.
      apply Qle_antisym; [exact L | apply squared_nonneg].
    + exists z. destruct (nearest_spec ins z N) as [P1 P2]. split; [exact Hz |]. rewrite <- Ez. split; [exact P1 |].
      rewrite Ez at 2. rewrite C, P2. reflexivity.
Qed.
Definition planeValue (p : profile) (ins outs : list point) (f : nat -> Q) (y : point) : num :=
  let k := nearest ins y in
  match p with
  | UNIFORM => Some (f k)
  | PARABOLIC => if Qeq_bool (maxDist2 ins outs k) 0 then None
                 else Some (parabola (4 # 3) (f k) (nearestDist ins y / maxDist2 ins outs k))
  end.
Lemma spread2_ok : forall pw pwm p radius ins f outs, 1 < length ins ->
  axialSpread2 pw pwm p CIRCLE radius ins (map f (seq 0 (length ins))) outs = Good (map (planeValue p ins outs f) outs).
Proof.
  intros pw pwm p radius ins f outs L. unfold axialSpread2. destruct (Nat.leb_spec (length ins) 1); [lia |].
  apply mapR_pure. intros y _. destruct (nearest_spec ins y (nth_ne ins L)) as [[P _] _].
  rewrite (getR_in _ _ _ 0%Q) by (rewrite map_length, seq_length; exact P). rewrite nth_map_seq by exact P.
  cbn [bindR]. unfold planeValue. destruct p; [reflexivity |]. destruct (Qeq_bool _ 0); reflexivity.
Qed.
Lemma spread2_uniform : forall pw pwm s radius ins f outs, 1 < length ins ->
  axialSpread2 pw pwm UNIFORM s radius ins (map f (seq 0 (length ins))) outs = Good (map (fun y => Some (f (nearest ins y))) outs).
Proof.
  intros pw pwm s radius ins f outs L. unfold axialSpread2. destruct (Nat.leb_spec (length ins) 1); [lia |].
  apply mapR_pure. intros y _. destruct (nearest_spec ins y (nth_ne ins L)) as [[P _] _].
  rewrite (getR_in _ _ _ 0%Q) by (rewrite map_length, seq_length; exact P). rewrite nth_map_seq by exact P. reflexivity.
Qed.
Lemma collect2_ok : forall pwc p s radius outs ins f, 1 < length outs -> s = CIRCLE \/ p = UNIFORM ->
  axialCollect2 pwc p s radius outs ins (map f (seq 0 (length ins))) =
  Good (map (fun j => match share (map (nearest outs) ins) f j with
                      | [] => Some 0%Q
                      | l => Some (match p with UNIFORM => mean l | PARABOLIC => mean l * (9 # 8) end)%Q
                      end) (seq 0 (length outs))).
Proof.
  intros pwc p s radius outs ins f L H. unfold axialCollect2. destruct (Nat.leb_spec (length outs) 1); [lia |].
  f_equal. apply map_ext. intros j.
  pose proof (average_share (map (nearest outs) ins) f j) as A. rewrite map_length in A. rewrite A.
  rewrite (binCount_share _ f). destruct (share (map (nearest outs) ins) f j) as [| v l]; [reflexivity |].
  cbn [length Nat.eqb]. destruct H as [-> | ->]; [destruct p; reflexivity |]. destruct s; reflexivity.
Qed.

Lemma squared_moved : forall a b t, length a = length t -> length b = length t ->
  (squared (map (fun p => (fst p + snd p)%Q) (combine a t)) (map (fun p => (fst p + snd p)%Q) (combine b t)) == squared a b)%Q.
Proof.
  induction a as [| x a IH]; intros b t La Lb; [destruct t; reflexivity |].
  destruct t as [| u t]; [discriminate |]. destruct b as [| y b]; [discriminate |].
  cbn [combine map fst snd]. cbn in La, Lb. injection La as La. injection Lb as Lb.
  change (squared (x :: a) (y :: b)) with ((x - y) * (x - y) + squared a b)%Q.
  change (squared ((x + u)%Q :: map (fun p => (fst p + snd p)%Q) (combine a t)) ((y + u)%Q :: map (fun p => (fst p + snd p)%Q) (combine b t)))
    with ((x + u - (y + u)) * (x + u - (y + u)) + squared (map (fun p => (fst p + snd p)%Q) (combine a t)) (map (fun p => (fst p + snd p)%Q) (combine b t)))%Q.
  rewrite IH by assumption. ring.
Qed.

Definition move (t v : list Q) : list Q := map (fun p => (fst p + snd p)%Q) (combine v t).
Lemma moved_nth : forall t vs i, i < length vs -> nth i (moved t vs) [] = move t (nth i vs []).
Proof.
  intros t vs i H. unfold moved. rewrite (nth_indep _ [] (move t [])) by (rewrite map_length; exact H). apply (map_nth (move t)).
Qed.
Lemma moved_closest : forall t vs y k, length y = length t -> (forall v, In v vs -> length v = length t) ->
  closest_point (moved t vs) (move t y) k <-> closest_point vs y k.
Proof.
  intros t vs y k Ly Lv.
  assert (L : length (moved t vs) = length vs) by (unfold moved; apply map_length).
  assert (S : forall j, j < length vs -> (squared (move t y) (nth j (moved t vs) []) == squared y (nth j vs []))%Q).
  { intros j Hj. rewrite moved_nth by exact Hj. apply squared_moved; [exact Ly | apply Lv; apply nth_In; exact Hj]. }
  unfold closest_point. rewrite L. split; intros [H1 H2]; (split; [exact H1 |]); intros j Hj; specialize (H2 j Hj);
    pose proof (S k H1) as Sk; pose proof (S j Hj) as Sj.
  - rewrite Sk, Sj in H2. exact H2.
  - rewrite Sk, Sj. exact H2.
Qed.
Lemma moved_reach : forall t ins outs k R2 R2', k < length ins ->
  (forall v, In v ins -> length v = length t) -> (forall v, In v outs -> length v = length t) ->
  reach ins outs k R2 -> reach (moved t ins) (moved t outs) k R2' -> (R2 == R2')%Q.
Proof.
  intros t ins outs k R2 R2' Hk Li Lo [A1 [y [A2 [A3 A4]]]] [B1 [z [B2 [B3 B4]]]].
  assert (S : forall y, length y = length t -> (squared (move t y) (nth k (moved t ins) []) == squared y (nth k ins []))%Q).
  { intros x Hx. rewrite moved_nth by exact Hk. apply squared_moved; [exact Hx | apply Li; apply nth_In; exact Hk]. }
  unfold moved in B2. apply in_map_iff in B2. destruct B2 as [z' [<- B2]]. fold (move t z') in *.
  apply Qle_antisym.
  - rewrite <- A4. rewrite <- (S y) by (apply Lo; exact A2). apply B1; [apply (in_map (move t)); exact A2 |].
    apply moved_closest; [apply Lo; exact A2 | exact Li | exact A3].
  - rewrite <- B4. rewrite (S z') by (apply Lo; exact B2). apply A1; [exact B2 |].
    apply (moved_closest t); [apply Lo; exact B2 | exact Li | exact B3].
Qed.

(** ** the direction of a line of vertices *)

Lemma fold_max : forall xs x, let m := fold_left (fun a b => if Qle_bool a b then b else a) xs x in
  In m (x :: xs) /\ forall y, In y (x :: xs) -> (y <= m)%Q.
Proof.
  induction xs as [| z xs IH]; intros x m; subst m; cbn [fold_left].
  - split; [now left |]. intros y [<- | []]. apply Qle_refl.
  - destruct (Qle_bool x z) eqn:B.
    + apply Qle_bool_iff in B. destruct (IH z) as [I1 I2]. split; [now right |].
      intros y [<- | Hy]; [| auto]. apply Qle_trans with z; [exact B | apply I2; now left].
    + assert (L : (z <= x)%Q).
      { destruct (Qlt_le_dec x z) as [G | G]; [| exact G]. apply Qlt_le_weak, Qle_bool_iff in G. congruence. }
      destruct (IH x) as [I1 I2]. split; [destruct I1; [now left | right; now right] |].
      intros y [<- | [<- | Hy]]; [apply I2; now left | | apply I2; now right].
      apply Qle_trans with x; [exact L | apply I2; now left].
Qed.
Lemma fold_min : forall xs x, let m := fold_left (fun a b => if Qle_bool a b then a else b) xs x in
  In m (x :: xs) /\ forall y, In y (x :: xs) -> (m <= y)%Q.
Proof.
  induction xs as [| z xs IH]; intros x m; subst m; cbn [fold_left].
  - split; [now left |]. intros y [<- | []]. apply Qle_refl.
  - destruct (Qle_bool x z) eqn:B.
    + apply Qle_bool_iff in B. destruct (IH x) as [I1 I2]. split; [destruct I1; [now left | right; now right] |].
      intros y [<- | [<- | Hy]]; [apply I2; now left | | apply I2; now right].
      apply Qle_trans with x; [apply I2; now left | exact B].
    + assert (L : (z <= x)%Q).
      { destruct (Qlt_le_dec x z) as [G | G]; [| exact G]. apply Qlt_le_weak, Qle_bool_iff in G. congruence. }
      destruct (IH z) as [I1 I2]. split; [now right |].
      intros y [<- | Hy]; [| auto]. apply Qle_trans with z; [apply I2; now left | exact L].
Qed.
Lemma spanOf_spec : forall vs c, vs <> [] ->
  (forall v w, In v vs -> In w vs -> (nth c v 0 - nth c w 0 <= spanOf vs c)%Q) /\
  (exists v w, In v vs /\ In w vs /\ spanOf vs c = (nth c v 0 - nth c w 0)%Q).
Proof.
  intros [| v0 vs] c H; [easy |]. unfold spanOf. cbn [map].
  destruct (fold_max (map (fun v => nth c v 0%Q) vs) (nth c v0 0%Q)) as [A1 A2].
  destruct (fold_min (map (fun v => nth c v 0%Q) vs) (nth c v0 0%Q)) as [B1 B2].
  change (nth c v0 0%Q :: map (fun v => nth c v 0%Q) vs) with (map (fun v => nth c v 0%Q) (v0 :: vs)) in *.
  split.
  - intros v w Hv Hw. apply (in_map (fun v => nth c v 0%Q)) in Hv, Hw.
    specialize (A2 _ Hv). specialize (B2 _ Hw). lra.
  - apply in_map_iff in A1 as (v & Ev & Hv). apply in_map_iff in B1 as (w & Ew & Hw).
    exists v, w. rewrite <- Ev, <- Ew. auto.
Qed.
Lemma lineCoord_widest : forall vs, vs <> [] -> widest vs (lineCoord vs).
Proof.
  intros vs H.
  assert (M : lineCoord vs < 3 /\ forall c, c < 3 -> (spanOf vs c <= spanOf vs (lineCoord vs))%Q).
  { assert (N : forall x y, Qle_bool x y = false -> (y <= x)%Q).
    { intros x y B. destruct (Qlt_le_dec x y) as [G | G]; [| exact G]. apply Qlt_le_weak, Qle_bool_iff in G. congruence. }
    unfold lineCoord.
    destruct (Qle_bool (spanOf vs 1) (spanOf vs 0)) eqn:B1; [apply Qle_bool_iff in B1 | apply N in B1];
      match goal with |- context [Qle_bool ?a ?b] => destruct (Qle_bool a b) eqn:B2 end;
      [apply Qle_bool_iff in B2 | apply N in B2 | apply Qle_bool_iff in B2 | apply N in B2];
      (split; [lia |]); intros [| [| [| c]]] Hc; try lia; lra. }
  destruct M as [M1 M2]. split; [exact M1 |]. intros c v w Hc Hv Hw.
  destruct (spanOf_spec vs c H) as [S1 _].
  destruct (spanOf_spec vs (lineCoord vs) H) as [_ (v' & w' & Hv' & Hw' & E)].
  exists v', w'. split; [exact Hv' |]. split; [exact Hw' |]. rewrite <- E.
  specialize (S1 v w Hv Hw). specialize (M2 c Hc). lra.
Qed.
Lemma square_check : forall v0 radius axis y k, (k = 1 \/ k = 2) ->
  ((105 # 100) < Qabs (offset v0 radius axis k y))%Q -> squareCoords v0 radius axis y = Check.
Proof.
  intros v0 radius axis y k K H. unfold squareCoords.
  destruct (Qeq_bool radius 0); [reflexivity |].
  fold (offset v0 radius axis 1 y) (offset v0 radius axis 2 y).
  assert (S : Qle_bool (sq (offset v0 radius axis k y)) (11025 # 10000) = false).
  { apply not_true_is_false. intros G. apply Qle_bool_iff in G. unfold sq in G.
    revert H. apply Qle_not_lt. apply Qabs_Qle_condition. split; nra. }
  destruct K as [-> | ->]; rewrite S; rewrite ?andb_false_r; reflexivity.
Qed.
