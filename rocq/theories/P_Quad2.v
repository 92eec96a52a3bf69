From Coq Require Import ZArith QArith Bool List Arith Lia Lqa Permutation.
From Verif Require Import M_Mesh M_Prep M_Box M_Quad S_Quad P_Box P_Quad.
Import ListNotations.
Open Scope nat_scope.

Lemma gram_pos p f g : point p -> length f = length p -> length g = length p -> ~ collinear p f g -> (0 < gram p f g)%Q.
Proof.
  intros P Lf Lg N. destruct P as [P|P]; rewrite P in *.
  - coords2 p; coords2 f; coords2 g. rename x into a0, y into b0, x0 into a1, y0 into b1, x1 into a2, y1 into b2.
    set (det := ((a1 - a0) * (b2 - b0) - (b1 - b0) * (a2 - a0))%Q).
    assert (E : (gram [a0; b0] [a1; b1] [a2; b2] == det * det)%Q) by (unfold gram, det; cbn; ring). rewrite E.
    pose proof (sq_nonneg det). destruct (Qlt_le_dec 0 (det * det)) as [|Le]; [assumption|]. exfalso. apply N.
    assert (Z : (det == 0)%Q) by (apply sq_zero; lra).
    set (ee := ((a1 - a0) * (a1 - a0) + (b1 - b0) * (b1 - b0))%Q).
    destruct (Qeq_dec ee 0) as [Ze|Ne].
    + left. pose proof (sq_nonneg (a1 - a0)). pose proof (sq_nonneg (b1 - b0)). unfold ee in Ze.
      assert (a1 - a0 == 0)%Q by (apply sq_zero; lra). assert (b1 - b0 == 0)%Q by (apply sq_zero; lra). repeat constructor; lra.
    + right. exists (((a1 - a0) * (a2 - a0) + (b1 - b0) * (b2 - b0)) / ee)%Q.
      assert (X : forall w y z, (ee * (w - y) == ((a1 - a0) * (a2 - a0) + (b1 - b0) * (b2 - b0)) * z)%Q ->
        (w == y + ((a1 - a0) * (a2 - a0) + (b1 - b0) * (b2 - b0)) / ee * z)%Q).
      { intros w y z H1. assert (H2 : (w - y == ((a1 - a0) * (a2 - a0) + (b1 - b0) * (b2 - b0)) / ee * z)%Q).
        { setoid_replace (w - y)%Q with (ee * (w - y) / ee)%Q by (field; exact Ne). rewrite H1. field. exact Ne. }
        lra. }
      repeat constructor; cbn; apply X; unfold ee.
      * transitivity (((a1 - a0) * (a2 - a0) + (b1 - b0) * (b2 - b0)) * (a1 - a0) - (b1 - b0) * det)%Q; [unfold det; ring|rewrite Z; ring].
      * transitivity (((a1 - a0) * (a2 - a0) + (b1 - b0) * (b2 - b0)) * (b1 - b0) + (a1 - a0) * det)%Q; [unfold det; ring|rewrite Z; ring].
  - coords3 p; coords3 f; coords3 g.
    rename x into a0, y into b0, z into d0, x0 into a1, y0 into b1, z0 into d1, x1 into a2, y1 into b2, z1 into d2.
    set (n0 := ((b1 - b0) * (d2 - d0) - (d1 - d0) * (b2 - b0))%Q).
    set (n1 := ((d1 - d0) * (a2 - a0) - (a1 - a0) * (d2 - d0))%Q).
    set (n2 := ((a1 - a0) * (b2 - b0) - (b1 - b0) * (a2 - a0))%Q).
    assert (E : (gram [a0; b0; d0] [a1; b1; d1] [a2; b2; d2] == n0 * n0 + n1 * n1 + n2 * n2)%Q) by (unfold gram, n0, n1, n2; cbn; ring). rewrite E.
    pose proof (sq_nonneg n0) as S0. pose proof (sq_nonneg n1) as S1. pose proof (sq_nonneg n2) as S2.
    destruct (Qlt_le_dec 0 (n0 * n0 + n1 * n1 + n2 * n2)) as [|Le]; [assumption|]. exfalso. apply N.
    assert (Z0 : (n0 == 0)%Q) by (apply sq_zero; lra). assert (Z1 : (n1 == 0)%Q) by (apply sq_zero; lra). assert (Z2 : (n2 == 0)%Q) by (apply sq_zero; lra).
    set (ee := ((a1 - a0) * (a1 - a0) + (b1 - b0) * (b1 - b0) + (d1 - d0) * (d1 - d0))%Q).
    set (ef := ((a1 - a0) * (a2 - a0) + (b1 - b0) * (b2 - b0) + (d1 - d0) * (d2 - d0))%Q).
    destruct (Qeq_dec ee 0) as [Ze|Ne].
    + left. pose proof (sq_nonneg (a1 - a0)). pose proof (sq_nonneg (b1 - b0)). pose proof (sq_nonneg (d1 - d0)). unfold ee in Ze.
      assert (a1 - a0 == 0)%Q by (apply sq_zero; lra). assert (b1 - b0 == 0)%Q by (apply sq_zero; lra). assert (d1 - d0 == 0)%Q by (apply sq_zero; lra).
      repeat constructor; lra.
    + right. exists (ef / ee)%Q.
      assert (X : forall w y z, (ee * (w - y) == ef * z)%Q -> (w == y + ef / ee * z)%Q).
      { intros w y z H1. assert (H2 : (w - y == ef / ee * z)%Q).
        { setoid_replace (w - y)%Q with (ee * (w - y) / ee)%Q by (field; exact Ne). rewrite H1. field. exact Ne. }
        lra. }
      repeat constructor; cbn; apply X; unfold ee.
      * transitivity (ef * (a1 - a0) - (b1 - b0) * n2 + (d1 - d0) * n1)%Q; [unfold ef, n1, n2; ring|rewrite Z1, Z2; ring].
      * transitivity (ef * (b1 - b0) + (a1 - a0) * n2 - (d1 - d0) * n0)%Q; [unfold ef, n0, n2; ring|rewrite Z0, Z2; ring].
      * transitivity (ef * (d1 - d0) - (a1 - a0) * n1 + (b1 - b0) * n0)%Q; [unfold ef, n0, n1; ring|rewrite Z0, Z1; ring].
Qed.
Lemma coplanar_2d p q r s : length p = 2 -> length q = 2 -> length r = 2 -> length s = 2 -> ~ collinear p q r -> coplanar p q r s.
Proof.
  intros Lp Lq Lr Ls N. assert (G : (0 < gram p q r)%Q) by (apply gram_pos; [left; assumption|lia|lia|exact N]).
  coords2 p; coords2 q; coords2 r; coords2 s. rename x into a0, y into b0, x0 into a1, y0 into b1, x1 into a2, y1 into b2, x2 into a3, y2 into b3.
  set (det := ((a1 - a0) * (b2 - b0) - (b1 - b0) * (a2 - a0))%Q).
  assert (E : (gram [a0; b0] [a1; b1] [a2; b2] == det * det)%Q) by (unfold gram, det; cbn; ring).
  assert (Nz : ~ (det == 0)%Q) by (intros Z; rewrite E, Z in G; lra).
  exists (((a3 - a0) * (b2 - b0) - (b3 - b0) * (a2 - a0)) / det)%Q, (((a1 - a0) * (b3 - b0) - (b1 - b0) * (a3 - a0)) / det)%Q.
  repeat constructor; cbn; unfold det in *; field; exact Nz.
Qed.
Lemma comb_p p f g : length f = length p -> length g = length p -> Forall2 Qeq p (comb3 p f g 0 0).
Proof.
  revert f g. induction p as [|x p IH]; intros [|y f] [|z g] L1 L2; try discriminate; unfold comb3; cbn; constructor; [ring|apply IH; cbn in *; lia].
Qed.
Lemma comb_f p f g : length f = length p -> length g = length p -> Forall2 Qeq f (comb3 p f g 1 0).
Proof.
  revert f g. induction p as [|x p IH]; intros [|y f] [|z g] L1 L2; try discriminate; unfold comb3; cbn; constructor; [ring|apply IH; cbn in *; lia].
Qed.
Lemma comb_g p f g : length f = length p -> length g = length p -> Forall2 Qeq g (comb3 p f g 0 1).
Proof.
  revert f g. induction p as [|x p IH]; intros [|y f] [|z g] L1 L2; try discriminate; unfold comb3; cbn; constructor; [ring|apply IH; cbn in *; lia].
Qed.
Lemma comb_d : forall p f g d t u, ~ (u == 0)%Q -> length f = length p -> length g = length p -> length d = length p ->
  same_point (along t p g) (along u f d) -> Forall2 Qeq d (comb3 p f g (1 - 1 / u) (t / u)).
Proof.
  induction p as [|x p IH]; intros [|y f] [|z g] [|w d] t u Nu L1 L2 L3 H; try discriminate; unfold comb3; cbn; constructor.
  - inversion H as [|? ? ? ? H1 H2]; subst. cbn in H1.
    assert (E : (u * w == x + t * (z - x) - y + u * y)%Q) by lra.
    setoid_replace w with (u * w / u)%Q by (field; exact Nu). rewrite E. field. exact Nu.
  - apply IH; cbn in *; auto; try lia. inversion H; subst. assumption.
Qed.
(** the diagonals of a quad in affine coordinates *)
Lemma meet_eq (s t : nat -> Q) a b c d : let S := (ori s t a b c + ori s t c d a)%Q in ~ (S == 0)%Q ->
  let tt := (ori s t d a b / S)%Q in let uu := (ori s t a b c / S)%Q in
  (s a + tt * (s c - s a) == s b + uu * (s d - s b))%Q /\ (t a + tt * (t c - t a) == t b + uu * (t d - t b))%Q.
Proof. intros S N tt uu. unfold tt, uu. split; field_simplify_eq; try exact N; unfold S, ori; ring. Qed.
Lemma along_comb : forall p f g ca cb cc cd sa ta sb tb sc tc sd td x y,
  length f = length p -> length g = length p ->
  Forall2 Qeq ca (comb3 p f g sa ta) -> Forall2 Qeq cb (comb3 p f g sb tb) -> Forall2 Qeq cc (comb3 p f g sc tc) -> Forall2 Qeq cd (comb3 p f g sd td) ->
  (sa + x * (sc - sa) == sb + y * (sd - sb))%Q -> (ta + x * (tc - ta) == tb + y * (td - tb))%Q ->
  same_point (along x ca cc) (along y cb cd).
Proof.
  induction p as [|p0 p IH]; intros [|f0 f] [|g0 g] ca cb cc cd sa ta sb tb sc tc sd td x y L1 L2 Ha Hb Hc Hd E1 E2; try discriminate.
  - inversion Ha; subst. inversion Hb; subst. constructor.
  - unfold comb3 in *. cbn in Ha, Hb, Hc, Hd.
    inversion Ha as [|xa ? la ? Xa Ra]; subst. inversion Hb as [|xb ? lb ? Xb Rb]; subst.
    inversion Hc as [|xc ? lc ? Xc Rc]; subst. inversion Hd as [|xd ? ld ? Xd Rd]; subst.
    constructor; [|eapply (IH f g); eauto; cbn in *; lia].
    cbn. rewrite Xa, Xb, Xc, Xd.
    transitivity (p0 + (sa + x * (sc - sa)) * (f0 - p0) + (ta + x * (tc - ta)) * (g0 - p0))%Q; [ring|]. rewrite E1, E2. ring.
Qed.
Lemma qlt_neg (q : Q) : qlt 0 q = false -> (q <= 0)%Q. Proof. apply qlt_false. Qed.

Lemma uniqueElements_NoDup l : uniqueElements Nat.eqb l = true -> NoDup l.
Proof.
  induction l as [|x l IH]; cbn; intros H; [constructor|]. apply andb_prop in H. destruct H as [H1 H2].
  constructor; [|auto]. intros I. apply negb_true_iff in H1. rewrite <- not_true_iff_false in H1. apply H1.
  apply existsb_exists. exists x. split; [exact I|apply Nat.eqb_refl].
Qed.
Lemma forallb_lt l : forallb (fun i => i <? 4) l = true -> forall i, In i l -> i < 4.
Proof. rewrite forallb_forall. intros H i Hi. apply Nat.ltb_lt. auto. Qed.

(** what it means that the check accepts *)
Lemma accepted_ok tol c0 c1 c2 c3 order : point c0 -> length c1 = length c0 -> length c2 = length c0 -> length c3 = length c0 ->
  ~ collinear c0 c1 c2 -> (length c0 = 2 \/ coplanar c0 c1 c2 c3) ->
  isConvexQuad tol c0 c1 c2 c3 = Convexity true order ->
  exists a b c d, order = [a; b; c; d] /\ NoDup order /\ (forall i, In i order -> i < 4) /\
    diagonals_meet (nth4 c0 c1 c2 c3 a) (nth4 c0 c1 c2 c3 b) (nth4 c0 c1 c2 c3 c) (nth4 c0 c1 c2 c3 d).
Proof.
  intros P L1 L2 L3 NC CP H.
  assert (CP' : coplanar c0 c1 c2 c3) by (destruct CP as [E|?]; [apply coplanar_2d; congruence|assumption]).
  destruct CP' as (u & v & R3).
  assert (NS : ~ same_point c0 c1) by (intros Z; apply NC; left; exact Z).
  unfold isConvexQuad in H. destruct (planarCheck tol c0 c1 c2 c3); [|discriminate]. fold (quadList c0 c1 c2 c3) in H.
  pose proof (first_apart c0 c1 c2 c3 P L1 L2 L3 NS) as FA.
  pose proof (gram_pos c0 c1 c2 P L1 L2 NC) as GP.
  set (s := fun i => match i with 1 => 1%Q | 3 => u | _ => 0%Q end).
  set (t := fun i => match i with 2 => 1%Q | 3 => v | _ => 0%Q end).
  assert (TA : forall i j k, i < 4 -> j < 4 -> k < 4 ->
    (turn (quadList c0 c1 c2 c3) i j k == ori s t 0 1 2 * ori s t i j k * gram c0 c1 c2)%Q).
  { intros i j k Hi Hj Hk. apply turn_aff; auto; cbn; [apply comb_p|apply comb_f|apply comb_g]; auto. }
  assert (O1 : (ori s t 0 1 2 == 1)%Q) by (unfold ori; cbn; ring).
  set (l := quadList c0 c1 c2 c3) in *.
  assert (Neg : forall i j k, i < 4 -> j < 4 -> k < 4 -> (qlt 0 (turn l i j k) = false -> (ori s t i j k <= 0)%Q) /\ (qlt 0 (turn l i j k) = true -> (0 < ori s t i j k)%Q)).
  { intros i j k Hi Hj Hk. pose proof (TA i j k Hi Hj Hk) as E. rewrite O1 in E. split; intros Q.
    - apply qlt_false in Q. rewrite E in Q. destruct (Qlt_le_dec 0 (ori s t i j k)); [exfalso; nra|assumption].
    - apply qlt_iff in Q. rewrite E in Q. destruct (Qlt_le_dec 0 (ori s t i j k)); [assumption|exfalso; nra]. }
  assert (HA : (0 < turn l 0 1 2)%Q) by (rewrite TA by lia; rewrite O1; lra).
  pose proof (wrap_pos l FA HA) as W. cbn zeta in W.
  destruct (wrap l (lowest l) 4 (lowest l)) as [o|]; [|discriminate]. injection H as EL ->.
  destruct order as [|a [|b [|c [|d [|e o]]]]]; try discriminate. clear EL. cbn [expected] in W.
  rewrite !andb_true_iff in W. destruct W as [[[W1 W2] W3] W4].
  pose proof (forallb_lt _ W2) as Lt.
  assert (Ha : a < 4) by (apply Lt; cbn; auto). assert (Hb : b < 4) by (apply Lt; cbn; auto).
  assert (Hc : c < 4) by (apply Lt; cbn; auto). assert (Hd : d < 4) by (apply Lt; cbn; auto).
  unfold noturn in W3, W4. rewrite !andb_true_iff, !negb_true_iff in W3. destruct W3 as [[[V1 V2] V3] V4].
  rewrite <- turn_tbl in V1, V2, V3, V4 by assumption.
  apply Neg in V1, V2, V3, V4; auto.
  assert (Some_ : (ori s t a b c < 0)%Q \/ (ori s t b c d < 0)%Q \/ (ori s t c d a < 0)%Q \/ (ori s t d a b < 0)%Q).
  { rewrite negb_true_iff, !andb_false_iff, !negb_false_iff in W4. rewrite <- !turn_tbl in W4 by assumption.
    destruct W4 as [[[W4|W4]|W4]|W4]; apply Neg in W4; auto.
    - right; left. unfold ori in *. lra.
    - left. unfold ori in *. lra.
    - do 3 right. unfold ori in *. lra.
    - right; right; left. unfold ori in *. lra. }
  assert (Sum : (ori s t a b c + ori s t c d a == ori s t d a b + ori s t b c d)%Q) by (unfold ori; ring).
  assert (SN : (ori s t a b c + ori s t c d a < 0)%Q) by (destruct Some_ as [?|[?|[?|?]]]; lra).
  exists a, b, c, d. split; [reflexivity|]. split; [apply uniqueElements_NoDup, W1|]. split; [exact Lt|].
  set (S := (ori s t a b c + ori s t c d a)%Q) in *.
  assert (NZ : ~ (S == 0)%Q) by lra.
  pose proof (meet_eq s t a b c d) as ME. cbn zeta in ME. fold S in ME. destruct (ME NZ) as [M1 M2].
  assert (Fr : forall q, (q <= 0)%Q -> (S <= q)%Q -> (0 <= q / S <= 1)%Q).
  { intros q Hq Hs. assert (E : (q / S * S == q)%Q) by (field; exact NZ). split.
    - destruct (Qlt_le_dec (q / S) 0); [exfalso; nra|assumption].
    - destruct (Qlt_le_dec 1 (q / S)); [exfalso; nra|assumption]. }
  exists (ori s t d a b / S)%Q, (ori s t a b c / S)%Q. split; [apply Fr; lra|]. split; [apply Fr; unfold S; lra|].
  assert (R : forall i, i < 4 -> Forall2 Qeq (nth4 c0 c1 c2 c3 i) (comb3 c0 c1 c2 (s i) (t i))).
  { intros i Hi. destruct i as [|[|[|[|i]]]]; [| | | |lia]; cbn; [apply comb_p|apply comb_f|apply comb_g|exact R3]; auto. }
  eapply (along_comb c0 c1 c2); eauto.
Qed.
(** proper quads are accepted *)
Lemma proper_ok tol c0 c1 c2 c3 a b c d : (0 <= tol)%Q ->
  point c0 -> length c1 = length c0 -> length c2 = length c0 -> length c3 = length c0 -> ~ same_point c0 c1 ->
  Permutation [a; b; c; d] [0; 1; 2; 3] ->
  diagonals_cross (nth4 c0 c1 c2 c3 a) (nth4 c0 c1 c2 c3 b) (nth4 c0 c1 c2 c3 c) (nth4 c0 c1 c2 c3 d) ->
  exists order, isConvexQuad tol c0 c1 c2 c3 = Convexity true order.
Proof.
  intros Ht P L1 L2 L3 NS Pm [NC (tt & uu & Ht1 & Hu1 & Me)].
  set (N := nth4 c0 c1 c2 c3) in *.
  assert (LN : forall i, i < 4 -> length (N i) = length c0).
  { intros i Hi. destruct i as [|[|[|[|i]]]]; [| | | |lia]; cbn; auto. }
  assert (Lt : forall i, In i [a; b; c; d] -> i < 4).
  { intros i Hi. apply (Permutation_in _ Pm) in Hi. cbn in Hi. lia. }
  assert (Ha : a < 4) by (apply Lt; cbn; auto). assert (Hb : b < 4) by (apply Lt; cbn; auto).
  assert (Hc : c < 4) by (apply Lt; cbn; auto). assert (Hd : d < 4) by (apply Lt; cbn; auto).
  assert (ND : NoDup [a; b; c; d]).
  { apply (Permutation_NoDup (Permutation_sym Pm)). repeat constructor; cbn; lia. }
  assert (D : a <> b /\ a <> c /\ a <> d /\ b <> c /\ b <> d /\ c <> d).
  { inversion ND as [|? ? I1 N1]; subst. inversion N1 as [|? ? I2 N2]; subst. inversion N2 as [|? ? I3 N3]; subst. cbn in *. intuition. }
  assert (Nu : ~ (uu == 0)%Q) by lra.
  set (s := fun i => if i =? a then 0%Q else if i =? b then 1%Q else if i =? c then 0%Q else (1 - 1 / uu)%Q).
  set (t := fun i => if i =? a then 0%Q else if i =? b then 0%Q else if i =? c then 1%Q else (tt / uu)%Q).
  destruct D as (D1 & D2 & D3 & D4 & D5 & D6).
  assert (Sv : s a = 0%Q /\ s b = 1%Q /\ s c = 0%Q /\ s d = (1 - 1 / uu)%Q /\ t a = 0%Q /\ t b = 0%Q /\ t c = 1%Q /\ t d = (tt / uu)%Q).
  { unfold s, t. rewrite !Nat.eqb_refl. repeat split; repeat match goal with |- context [?x =? ?y] => destruct (Nat.eqb_spec x y); [congruence|] end; reflexivity. }
  destruct Sv as (Sa & Sb & Sc & Sd & Ta & Tb & Tc & Td).
  assert (R : forall i, i < 4 -> Forall2 Qeq (N i) (comb3 (N a) (N b) (N c) (s i) (t i))).
  { intros i Hi. assert (I : In i [a; b; c; d]) by (apply (Permutation_in _ (Permutation_sym Pm)); cbn; lia).
    destruct I as [<-|[<-|[<-|[<-|[]]]]].
    - rewrite Sa, Ta. apply comb_p; rewrite !LN by assumption; reflexivity.
    - rewrite Sb, Tb. apply comb_f; rewrite !LN by assumption; reflexivity.
    - rewrite Sc, Tc. apply comb_g; rewrite !LN by assumption; reflexivity.
    - rewrite Sd, Td. apply comb_d; auto; rewrite !LN by assumption; reflexivity. }
  assert (Pa : point (N a)) by (unfold point in *; rewrite LN by assumption; exact P).
  assert (Lb : length (N b) = length (N a)) by (rewrite !LN by assumption; reflexivity).
  assert (Lc : length (N c) = length (N a)) by (rewrite !LN by assumption; reflexivity).
  pose proof (gram_pos _ _ _ Pa Lb Lc NC) as GP.
  assert (TA : forall i j k, i < 4 -> j < 4 -> k < 4 ->
    (turn (quadList c0 c1 c2 c3) i j k == ori s t 0 1 2 * ori s t i j k * gram (N a) (N b) (N c))%Q).
  { intros i j k Hi Hj Hk. apply turn_aff; auto; [apply (R 0)|apply (R 1)|apply (R 2)|apply (R 3)]; lia. }
  assert (PC : planarCheck tol c0 c1 c2 c3 = true).
  { apply (planar_aff (N a) (N b) (N c) c0 c1 c2 c3 s t); auto; [apply (R 0)|apply (R 1)|apply (R 2)|apply (R 3)]; lia. }
  assert (V : (1 / uu * uu == 1)%Q) by (field; exact Nu). assert (V' : (tt / uu * uu == tt)%Q) by (field; exact Nu).
  assert (iu : (1 < 1 / uu)%Q) by (destruct (Qlt_le_dec 1 (1 / uu)); [assumption|exfalso; nra]).
  assert (tu : (0 < tt / uu)%Q) by (destruct (Qlt_le_dec 0 (tt / uu)); [assumption|exfalso; nra]).
  assert (tu2 : (tt / uu < 1 / uu)%Q) by (destruct (Qlt_le_dec (tt / uu) (1 / uu)); [assumption|exfalso; nra]).
  assert (O1 : (0 < ori s t a b c)%Q) by (unfold ori; rewrite Sa, Sb, Sc, Ta, Tb, Tc; lra).
  assert (O2 : (0 < ori s t b c d)%Q) by (unfold ori; rewrite Sb, Sc, Sd, Tb, Tc, Td; lra).
  assert (O3 : (0 < ori s t c d a)%Q) by (unfold ori; rewrite Sc, Sd, Sa, Tc, Td, Ta; lra).
  assert (O4 : (0 < ori s t d a b)%Q) by (unfold ori; rewrite Sd, Sa, Sb, Td, Ta, Tb; lra).
  clear R. clearbody s t.
  assert (O : (0 < ori s t 0 1 2)%Q \/ (ori s t 0 1 2 < 0)%Q).
  { clear - Ha Hb Hc Hd D1 D2 D3 D4 D5 D6 O1 O2 O3 O4.
    destruct a as [|[|[|[|a]]]]; [| | | |lia]; (destruct b as [|[|[|[|b]]]]; [| | | |lia]); try lia;
    (destruct c as [|[|[|[|c]]]]; [| | | |lia]); try lia; (destruct d as [|[|[|[|d]]]]; [| | | |lia]); try lia;
    unfold ori in *; first [left; lra | right; lra]. }
  unfold isConvexQuad. rewrite PC. fold (quadList c0 c1 c2 c3).
  pose proof (first_apart c0 c1 c2 c3 P L1 L2 L3 NS) as FA. set (l := quadList c0 c1 c2 c3) in *.
  assert (HA : (0 < turn l 0 1 2)%Q).
  { rewrite TA by lia. apply Qmult_lt_0_compat; [|exact GP]. destruct O; nra. }
  pose proof (wrap_pos l FA HA) as W. cbn zeta in W.
  destruct (wrap l (lowest l) 4 (lowest l)) as [o|]; [|discriminate].
  assert (Rd : exists q, In q perms4 /\ let '(a, b, c, d) := q in round (tbl (sA l) (sB l) (sC l) (sD l)) a b c d = true).
  { assert (Pos : forall i j k, i < 4 -> j < 4 -> k < 4 -> (0 < ori s t 0 1 2 * ori s t i j k)%Q -> tbl (sA l) (sB l) (sC l) (sD l) i j k = true).
    { intros i j k Hi Hj Hk H. rewrite <- turn_tbl by assumption. apply qlt_iff. rewrite TA by assumption. apply Qmult_lt_0_compat; assumption. }
    assert (InP : forall a b c d, a < 4 -> b < 4 -> c < 4 -> d < 4 -> a <> b /\ a <> c /\ a <> d /\ b <> c /\ b <> d /\ c <> d -> In (a, b, c, d) perms4).
    { clear. intros a b c d Ha Hb Hc Hd D.
      destruct a as [|[|[|[|a]]]]; [| | | |lia]; (destruct b as [|[|[|[|b]]]]; [| | | |lia]); try lia;
      (destruct c as [|[|[|[|c]]]]; [| | | |lia]); try lia; (destruct d as [|[|[|[|d]]]]; [| | | |lia]); try lia;
      vm_compute; tauto. }
    destruct O as [O|O].
    - exists (a, b, c, d). split; [apply InP; auto; repeat split; assumption|]. unfold round. rewrite !Pos; auto; apply Qmult_lt_0_compat; assumption.
    - exists (d, c, b, a). split; [apply InP; auto; repeat split; congruence|].
      assert (N1 : (ori s t d c b < 0)%Q) by (unfold ori in *; lra). assert (N2 : (ori s t c b a < 0)%Q) by (unfold ori in *; lra).
      assert (N3 : (ori s t b a d < 0)%Q) by (unfold ori in *; lra). assert (N4 : (ori s t a d c < 0)%Q) by (unfold ori in *; lra).
      unfold round. rewrite !Pos; auto; nra. }
  destruct Rd as ([[[q1 q2] q3] q4] & Iq & Rq).
  assert (Bad : forallb (fun x => let '(a, b, c, d) := x in negb (round (tbl (sA l) (sB l) (sC l) (sD l)) a b c d)) perms4 = true -> False).
  { intros H. rewrite forallb_forall in H. specialize (H _ Iq). cbv beta iota in H. rewrite Rq in H. discriminate. }
  destruct o as [|x1 [|x2 [|x3 [|x4 [|x5 o]]]]]; cbn [expected] in W; try discriminate; try (exfalso; apply Bad, W).
  exists [x1; x2; x3; x4]. reflexivity.
Qed.
