(** Barycentric coordinates: proofs. *)
From Coq Require Import ZArith QArith Bool List Arith Lia Lqa Qfield.
From Verif Require Import M_Mesh M_Prep M_Box M_Quad M_Map S_Map.
Import ListNotations.
Open Scope nat_scope.

Lemma Qeq_bool_false x y : Qeq_bool x y = false <-> ~ (x == y)%Q.
Proof.
  split; intro H.
  - intro E. apply Qeq_eq_bool in E. congruence.
  - destruct (Qeq_bool x y) eqn:E; auto. apply Qeq_bool_eq in E. contradiction.
Qed.
Lemma Qdec x : {(x == 0)%Q} + {~ (x == 0)%Q}.
Proof. apply Qeq_dec. Qed.
Lemma Qmul_cancel a b : (~ a == 0 -> a * b == 0 -> b == 0)%Q.
Proof. intros A H. destruct (Qmult_integral a b H); [contradiction|assumption]. Qed.
Lemma Qsq_nonneg x : (0 <= x * x)%Q.
Proof.
  destruct (Qlt_le_dec x 0) as [H|H].
  - setoid_replace (x * x)%Q with ((- x) * (- x))%Q by ring. apply Qmult_le_0_compat; lra.
  - apply Qmult_le_0_compat; assumption.
Qed.
Lemma Qsq_zero x : (x * x == 0 -> x == 0)%Q.
Proof. intro H. destruct (Qmult_integral _ _ H); assumption. Qed.

(** lists of two and three coordinates *)
Lemma len2 {A} (l : list A) : length l = 2 -> exists a b, l = [a; b].
Proof. destruct l as [|a [|b [|c l]]]; cbn; intro; try discriminate; eauto. Qed.
Lemma len3 {A} (l : list A) : length l = 3 -> exists a b c, l = [a; b; c].
Proof. destruct l as [|a [|b [|c [|d l]]]]; cbn; intro; try discriminate; eauto. Qed.
Lemma len4 {A} (l : list A) : length l = 4 -> exists a b c d, l = [a; b; c; d].
Proof. destruct l as [|a [|b [|c [|d [|e l]]]]]; cbn; intro; try discriminate; eauto 6. Qed.

(** * Edges, in any dimension *)
Lemma qsum_ext n f g : (forall k, k < n -> (f k == g k)%Q) -> (qsum n f == qsum n g)%Q.
Proof. induction n as [|n IH]; intro H; cbn [qsum]; [reflexivity|]. rewrite IH, (H n); auto. reflexivity. Qed.
Lemma qsum_lin n c f g : (qsum n (fun k => c * f k + g k) == c * qsum n f + qsum n g)%Q.
Proof. induction n as [|n IH]; cbn [qsum]; [ring|]. rewrite IH. ring. Qed.
Lemma qsum_nonneg n f : (forall k, k < n -> (0 <= f k)%Q) -> (0 <= qsum n f)%Q.
Proof.
  induction n as [|n IH]; intro H; cbn [qsum]; [lra|].
  assert (A := IH (fun k L => H k (Nat.lt_lt_succ_r _ _ L))). assert (B := H n (Nat.lt_succ_diag_r n)). lra.
Qed.
Lemma qsum_sq_zero n f : (qsum n (fun k => f k * f k) == 0)%Q -> forall k, k < n -> (f k == 0)%Q.
Proof.
  induction n as [|n IH]; intros H k L; [lia|]. cbn [qsum] in H.
  assert (A : (0 <= qsum n (fun k => f k * f k))%Q) by (apply qsum_nonneg; intros; apply Qsq_nonneg).
  assert (B := Qsq_nonneg (f n)).
  destruct (Nat.eq_dec k n) as [->|N].
  - apply Qsq_zero. lra.
  - apply IH; [lra|lia].
Qed.
Lemma qsum_S n f : (qsum (S n) f == f 0%nat + qsum n (fun k => f (S k)))%Q.
Proof. induction n as [|n IH]; [cbn [qsum]; ring|]. change (qsum (S (S n)) f) with (qsum (S n) f + f (S n))%Q.
  rewrite IH. cbn [qsum]. ring. Qed.

Lemma vsub_nth : forall a b k, length a = length b -> k < length a ->
  nth k (vsub a b) 0%Q = (nth k a 0 - nth k b 0)%Q.
Proof.
  induction a as [|x a IH]; intros [|y b] k L Hk; cbn in *; try lia; try discriminate.
  destruct k as [|k]; [reflexivity|]. apply IH; lia.
Qed.
Lemma vsub_length : forall a b, length a = length b -> length (vsub a b) = length a.
Proof. intros a b L. unfold vsub, map2. rewrite map_length, combine_length. lia. Qed.
Lemma vdot_qsum : forall a b, length a = length b -> (vdot a b == qsum (length a) (fun k => nth k a 0 * nth k b 0))%Q.
Proof.
  induction a as [|x a IH]; intros [|y b] L; cbn [length] in *; try discriminate.
  - cbn. ring.
  - rewrite qsum_S. change (vdot (x :: a) (y :: b)) with (x * y + vdot a b)%Q.
    rewrite IH by lia. reflexivity.
Qed.
Lemma vdot_sub n a b c d : length a = n -> length b = n -> length c = n -> length d = n ->
  (vdot (vsub a b) (vsub c d) == qsum n (fun k => (nth k a 0 - nth k b 0) * (nth k c 0 - nth k d 0)))%Q.
Proof.
  intros A B C D. rewrite vdot_qsum by (rewrite !vsub_length; lia).
  rewrite vsub_length by lia. rewrite A. apply qsum_ext. intros k K.
  rewrite !vsub_nth by lia. reflexivity.
Qed.

Lemma combo2 w0 w1 a b k : (combo [w0; w1] [a; b] k == w0 * nth k a 0 + w1 * nth k b 0)%Q.
Proof. unfold combo. cbn [combine map total fold_right fst snd]. ring. Qed.
Lemma combo3 w0 w1 w2 a b c k : (combo [w0; w1; w2] [a; b; c] k == w0 * nth k a 0 + w1 * nth k b 0 + w2 * nth k c 0)%Q.
Proof. unfold combo. cbn [combine map total fold_right fst snd]. ring. Qed.
Lemma combo4 w0 w1 w2 w3 a b c d k :
  (combo [w0; w1; w2; w3] [a; b; c; d] k == w0 * nth k a 0 + w1 * nth k b 0 + w2 * nth k c 0 + w3 * nth k d 0)%Q.
Proof. unfold combo. cbn [combine map total fold_right fst snd]. ring. Qed.
Lemma total2 a b : (total [a; b] == a + b)%Q. Proof. cbn; ring. Qed.
Lemma total3 a b c : (total [a; b; c] == a + b + c)%Q. Proof. cbn; ring. Qed.
Lemma total4 a b c d : (total [a; b; c; d] == a + b + c + d)%Q. Proof. cbn; ring. Qed.

Lemma edge_def n a b u : length a = n -> length b = n -> ~ degenerate n [a; b] -> baryEdge a b u <> None.
Proof.
  intros A B ND. unfold baryEdge, qsub.
  assert (NZ : ~ (vdot (vsub b a) (vsub b a) == 0)%Q).
  { rewrite (vdot_sub n) by auto. intro E. apply ND. exists [1; - (1)]%Q.
    split; [reflexivity|]. split; [constructor; lra|]. split; [rewrite total2; ring|].
    intros k K. rewrite combo2. pose proof (qsum_sq_zero n (fun k => nth k b 0 - nth k a 0)%Q E k K) as Z. cbv beta in Z. lra. }
  rewrite (proj2 (Qeq_bool_false _ _) NZ). discriminate.
Qed.

Lemma edge_core n a b u : length a = n -> length b = n -> length u = n -> baryEdge a b u <> None ->
  exists w0 w1, baryEdge a b u = Some (w0, w1) /\ (w0 + w1 == 1)%Q /\ foot n u [w0; w1] [a; b] /\
  ((0 <= w0 /\ 0 <= w1)%Q <-> projects_into n u [a; b]).
Proof.
  intros A B U ND. unfold baryEdge, qsub in *.
  assert (NZ : ~ (vdot (vsub b a) (vsub b a) == 0)%Q).
  { intro E. rewrite (Qeq_eq_bool _ _ E) in ND. auto. }
  rewrite (proj2 (Qeq_bool_false _ _) NZ).
  set (D := vdot (vsub b a) (vsub b a)) in *. set (N := vdot (vsub u a) (vsub b a)).
  assert (FN : (N == qsum n (fun k => (nth k u 0 - nth k a 0) * (nth k b 0 - nth k a 0)))%Q) by (apply vdot_sub; auto).
  assert (FD : (D == qsum n (fun k => (nth k b 0 - nth k a 0) * (nth k b 0 - nth k a 0)))%Q) by (apply vdot_sub; auto).
  (* residual along the edge of the point with weights (1-t, t) *)
  assert (R : forall w0 w1, (w0 + w1 == 1)%Q ->
    (qsum n (fun k => (nth k u 0 - combo [w0; w1] [a; b] k) * (nth k b 0 - nth k a 0)) == N - w1 * D)%Q).
  { intros w0 w1 S. rewrite FN, FD.
    setoid_replace (qsum n (fun k => (nth k u 0 - nth k a 0) * (nth k b 0 - nth k a 0)) -
       w1 * qsum n (fun k => (nth k b 0 - nth k a 0) * (nth k b 0 - nth k a 0)))%Q
     with ((- w1) * qsum n (fun k => (nth k b 0 - nth k a 0) * (nth k b 0 - nth k a 0)) +
       qsum n (fun k => (nth k u 0 - nth k a 0) * (nth k b 0 - nth k a 0)))%Q by ring.
    rewrite <- qsum_lin. apply qsum_ext. intros k K. rewrite combo2.
    setoid_replace w0 with (1 - w1)%Q by lra. ring. }
  assert (FT : forall w0 w1, (w0 + w1 == 1)%Q -> (N - w1 * D == 0)%Q -> foot n u [w0; w1] [a; b]).
  { intros w0 w1 S Z p q P IQ.
    assert (Zr := R w0 w1 S). rewrite Z in Zr.
    assert (NG : (qsum n (fun k => (nth k u 0 - combo [w0; w1] [a; b] k) * (nth k a 0 - nth k b 0)) == 0)%Q).
    { rewrite <- (Qplus_0_r (qsum _ _)), <- Zr.
      setoid_replace (qsum n (fun k => (nth k u 0 - combo [w0; w1] [a; b] k) * (nth k a 0 - nth k b 0)) +
         qsum n (fun k => (nth k u 0 - combo [w0; w1] [a; b] k) * (nth k b 0 - nth k a 0)))%Q
      with (1 * qsum n (fun k => (nth k u 0 - combo [w0; w1] [a; b] k) * (nth k a 0 - nth k b 0)) +
         qsum n (fun k => (nth k u 0 - combo [w0; w1] [a; b] k) * (nth k b 0 - nth k a 0)))%Q by ring.
      rewrite <- qsum_lin. rewrite (qsum_ext n _ (fun _ => 0)%Q) by (intros; ring).
      rewrite Zr. clear. induction n; cbn [qsum]; [reflexivity|]. rewrite IHn. ring. }
    assert (SM : forall (x : list Q), (qsum n (fun k => (nth k u 0 - combo [w0; w1] [a; b] k) * (nth k x 0 - nth k x 0)) == 0)%Q).
    { intro x. rewrite (qsum_ext n _ (fun _ => 0)%Q) by (intros; ring). clear. induction n; cbn [qsum]; [reflexivity|]. rewrite IHn. ring. }
    cbn in P, IQ. destruct P as [<-|[<-|[]]]; destruct IQ as [<-|[<-|[]]]; auto. }
  exists (1 - N / D)%Q, (N / D)%Q. split; [reflexivity|]. split; [ring|].
  split. { apply FT; [ring|]. field; auto. }
  split.
  - intros [P0 P1]. exists [1 - N / D; N / D]%Q. split; [reflexivity|].
    split; [repeat (constructor; auto)|]. split; [rewrite total2; ring|]. apply FT; [ring|]. field; auto.
  - intros (ws & L & P & S & F). destruct (len2 ws L) as (v0 & v1 & ->).
    rewrite total2 in S. inversion P as [|x0 l0 P0 P' EQ]. inversion P' as [|x1 l1 P1 P'' EQ']. subst.
    assert (Z : (N - v1 * D == 0)%Q). { rewrite <- (R v0 v1 S). apply F; cbn; auto. }
    assert (E : (N / D == v1)%Q). { setoid_replace N with (v1 * D)%Q by lra. field; auto. }
    rewrite E. lra.
Qed.
Lemma edge_ok n a b u : length a = n -> length b = n -> length u = n -> ~ degenerate n [a; b] ->
  exists w0 w1, baryEdge a b u = Some (w0, w1) /\ (w0 + w1 == 1)%Q /\ foot n u [w0; w1] [a; b] /\
  ((0 <= w0 /\ 0 <= w1)%Q <-> projects_into n u [a; b]).
Proof. intros. apply edge_core; auto. eapply edge_def; eauto. Qed.


(** * Triangles and tetrahedra *)
Ltac q3 := cbn [vsub vdot vcross vneg qsub map2 map combine fst snd fold_right nth length Nat.eqb cross2] in *.

Lemma cross_zero_dependent (x1 x2 x3 y1 y2 y3 : Q) :
  (x2 * y3 - x3 * y2 == 0 -> x3 * y1 - x1 * y3 == 0 -> x1 * y2 - x2 * y1 == 0 ->
   exists s t, (~ s == 0 \/ ~ t == 0) /\ s * x1 + t * y1 == 0 /\ s * x2 + t * y2 == 0 /\ s * x3 + t * y3 == 0)%Q.
Proof.
  intros H1 H2 H3.
  destruct (Qdec x1) as [Z1|N1]; [|exists (- y1)%Q, x1; repeat split; [right; assumption|ring|lra|lra]].
  destruct (Qdec x2) as [Z2|N2]; [|exists (- y2)%Q, x2; repeat split; [right; assumption|lra|ring|lra]].
  destruct (Qdec x3) as [Z3|N3]; [|exists (- y3)%Q, x3; repeat split; [right; assumption|lra|lra|ring]].
  exists 1%Q, 0%Q. repeat split; [left; lra|rewrite Z1; ring|rewrite Z2; ring|rewrite Z3; ring].
Qed.

Lemma sum3sq_zero x y z : (x * x + (y * y + (z * z + 0)) == 0)%Q -> (x == 0 /\ y == 0 /\ z == 0)%Q.
Proof.
  intro H. assert (A := Qsq_nonneg x). assert (B := Qsq_nonneg y). assert (C := Qsq_nonneg z).
  repeat split; apply Qsq_zero; lra.
Qed.

Lemma foot_of (n : nat) (u : list Q) ws ps (o : list Q) :
  In o ps -> (forall p, In p ps -> (qsum n (fun k => (nth k u 0 - combo ws ps k) * (nth k p 0 - nth k o 0)) == 0)%Q) ->
  foot n u ws ps.
Proof.
  intros O H p q P IQ.
  assert (A := H p P). assert (B := H q IQ).
  rewrite (qsum_ext n _ (fun k => (- (1)) * ((nth k u 0 - combo ws ps k) * (nth k q 0 - nth k o 0)) +
     (nth k u 0 - combo ws ps k) * (nth k p 0 - nth k o 0))%Q) by (intros; ring).
  rewrite qsum_lin, A, B. ring.
Qed.

Ltac lincomb e := match goal with |- (?x == ?y)%Q => cut (x - y == e)%Q; [intro; lra|] end.

Lemma tri3_def a b c u : length a = 3 -> length b = 3 -> length c = 3 -> length u = 3 -> ~ degenerate 3 [a; b; c] ->
  baryTriangle a b c u <> None.
Proof.
  intros A B C U ND.
  destruct (len3 a A) as (a0 & a1 & a2 & ->). destruct (len3 b B) as (b0 & b1 & b2 & ->).
  destruct (len3 c C) as (c0 & c1 & c2 & ->). destruct (len3 u U) as (u0 & u1 & u2 & ->). clear A B C U.
  unfold baryTriangle. q3.
  remember (b0 - a0)%Q as x0 eqn:X0. remember (b1 - a1)%Q as x1 eqn:X1. remember (b2 - a2)%Q as x2 eqn:X2.
  remember (c0 - a0)%Q as y0 eqn:Y0. remember (c1 - a1)%Q as y1 eqn:Y1. remember (c2 - a2)%Q as y2 eqn:Y2.
  remember (u0 - a0)%Q as v0 eqn:V0. remember (u1 - a1)%Q as v1 eqn:V1. remember (u2 - a2)%Q as v2 eqn:V2.
  set (n0 := (x1 * y2 - x2 * y1)%Q) in *. set (n1 := (x2 * y0 - x0 * y2)%Q) in *. set (n2 := (x0 * y1 - x1 * y0)%Q) in *.
  set (D := (n0 * n0 + (n1 * n1 + (n2 * n2 + 0)))%Q).
  assert (NZ : ~ (D == 0)%Q).
  { intro E. apply sum3sq_zero in E. destruct E as (E0 & E1 & E2).
    destruct (cross_zero_dependent x0 x1 x2 y0 y1 y2 E0 E1 E2) as (s & t & NN & P0 & P1 & P2).
    apply ND. exists [- s - t; s; t]%Q. split; [reflexivity|]. split.
    { destruct NN; [constructor 2; constructor 1|constructor 2; constructor 2; constructor 1]; assumption. }
    split; [rewrite total3; ring|]. intros k K. rewrite combo3.
    destruct k as [|[|[|k]]]; [| | |lia]; cbn [nth];
      [transitivity (s * x0 + t * y0)%Q|transitivity (s * x1 + t * y1)%Q|transitivity (s * x2 + t * y2)%Q]; try assumption; subst; ring. }
  rewrite (proj2 (Qeq_bool_false _ _) NZ). discriminate.
Qed.

Lemma tri3_core a b c u : length a = 3 -> length b = 3 -> length c = 3 -> length u = 3 -> baryTriangle a b c u <> None ->
  exists w0 w1 w2, baryTriangle a b c u = Some (w0, w1, w2) /\ (w0 + w1 + w2 == 1)%Q /\ foot 3 u [w0; w1; w2] [a; b; c] /\
  ((0 <= w0 /\ 0 <= w1 /\ 0 <= w2)%Q <-> projects_into 3 u [a; b; c]).
Proof.
  intros A B C U ND.
  destruct (len3 a A) as (a0 & a1 & a2 & ->). destruct (len3 b B) as (b0 & b1 & b2 & ->).
  destruct (len3 c C) as (c0 & c1 & c2 & ->). destruct (len3 u U) as (u0 & u1 & u2 & ->). clear A B C U.
  revert ND. unfold baryTriangle. q3.
  remember (b0 - a0)%Q as x0 eqn:X0. remember (b1 - a1)%Q as x1 eqn:X1. remember (b2 - a2)%Q as x2 eqn:X2.
  remember (c0 - a0)%Q as y0 eqn:Y0. remember (c1 - a1)%Q as y1 eqn:Y1. remember (c2 - a2)%Q as y2 eqn:Y2.
  remember (u0 - a0)%Q as v0 eqn:V0. remember (u1 - a1)%Q as v1 eqn:V1. remember (u2 - a2)%Q as v2 eqn:V2.
  set (n0 := (x1 * y2 - x2 * y1)%Q) in *. set (n1 := (x2 * y0 - x0 * y2)%Q) in *. set (n2 := (x0 * y1 - x1 * y0)%Q) in *.
  set (D := (n0 * n0 + (n1 * n1 + (n2 * n2 + 0)))%Q).
  intro ND. assert (NZ : ~ (D == 0)%Q).
  { intro E. rewrite (Qeq_eq_bool _ _ E) in ND. auto. }
  rewrite (proj2 (Qeq_bool_false _ _) NZ).
  set (W2 := ((n0 * (x1 * v2 - x2 * v1) + (n1 * (x2 * v0 - x0 * v2) + (n2 * (x0 * v1 - x1 * v0) + 0))))%Q).
  set (W1 := ((n0 * (v1 * y2 - v2 * y1) + (n1 * (v2 * y0 - v0 * y2) + (n2 * (v0 * y1 - v1 * y0) + 0))))%Q).
  (* what the orthogonality conditions say in coordinates *)
  assert (FT : forall w0 w1 w2, (w0 + w1 + w2 == 1)%Q ->
     ((v0 - w1 * x0 - w2 * y0) * x0 + (v1 - w1 * x1 - w2 * y1) * x1 + (v2 - w1 * x2 - w2 * y2) * x2 == 0)%Q ->
     ((v0 - w1 * x0 - w2 * y0) * y0 + (v1 - w1 * x1 - w2 * y1) * y1 + (v2 - w1 * x2 - w2 * y2) * y2 == 0)%Q ->
     foot 3 [u0; u1; u2] [w0; w1; w2] [[a0; a1; a2]; [b0; b1; b2]; [c0; c1; c2]]).
  { intros w0 w1 w2 S EX EY. apply foot_of with (o := [a0; a1; a2]); [cbn; auto|].
    assert (EW : (w0 == 1 - w1 - w2)%Q) by lra.
    intros p P. cbn [In] in P. cbn [qsum]. rewrite !combo3.
    destruct P as [<-|[<-|[<-|[]]]]; cbn [nth]; rewrite !EW;
      [ring|etransitivity; [|exact EX]; subst; ring|etransitivity; [|exact EY]; subst; ring]. }
  assert (TF : forall w0 w1 w2, (w0 + w1 + w2 == 1)%Q ->
     foot 3 [u0; u1; u2] [w0; w1; w2] [[a0; a1; a2]; [b0; b1; b2]; [c0; c1; c2]] ->
     ((v0 - w1 * x0 - w2 * y0) * x0 + (v1 - w1 * x1 - w2 * y1) * x1 + (v2 - w1 * x2 - w2 * y2) * x2 == 0)%Q /\
     ((v0 - w1 * x0 - w2 * y0) * y0 + (v1 - w1 * x1 - w2 * y1) * y1 + (v2 - w1 * x2 - w2 * y2) * y2 == 0)%Q).
  { intros w0 w1 w2 S F. assert (EW : (w0 == 1 - w1 - w2)%Q) by lra.
    assert (FX := F [b0; b1; b2] [a0; a1; a2] ltac:(cbn; auto) ltac:(cbn; auto)).
    assert (FY := F [c0; c1; c2] [a0; a1; a2] ltac:(cbn; auto) ltac:(cbn; auto)).
    cbn [qsum] in FX, FY. rewrite !combo3 in FX, FY. cbn [nth] in FX, FY. rewrite !EW in FX, FY.
    split; [etransitivity; [|exact FX]|etransitivity; [|exact FY]]; subst; ring. }
  assert (G1 : (W1 * (1 / D) * D == W1)%Q) by (field; auto).
  assert (G2 : (W2 * (1 / D) * D == W2)%Q) by (field; auto).
  set (w1 := (W1 * (1 / D))%Q) in *. set (w2 := (W2 * (1 / D))%Q) in *.
  assert (FW : foot 3 [u0; u1; u2] [1 - w1 - w2; w1; w2]%Q [[a0; a1; a2]; [b0; b1; b2]; [c0; c1; c2]]).
  { apply FT; [ring| |]; apply (Qmul_cancel D); auto.
    - setoid_replace (D * ((v0 - w1 * x0 - w2 * y0) * x0 + (v1 - w1 * x1 - w2 * y1) * x1 + (v2 - w1 * x2 - w2 * y2) * x2))%Q
        with (D * (v0 * x0 + v1 * x1 + v2 * x2) - (w1 * D) * (x0 * x0 + x1 * x1 + x2 * x2) - (w2 * D) * (y0 * x0 + y1 * x1 + y2 * x2))%Q by ring.
      rewrite G1, G2. unfold W1, W2, D, n0, n1, n2. ring.
    - setoid_replace (D * ((v0 - w1 * x0 - w2 * y0) * y0 + (v1 - w1 * x1 - w2 * y1) * y1 + (v2 - w1 * x2 - w2 * y2) * y2))%Q
        with (D * (v0 * y0 + v1 * y1 + v2 * y2) - (w1 * D) * (x0 * y0 + x1 * y1 + x2 * y2) - (w2 * D) * (y0 * y0 + y1 * y1 + y2 * y2))%Q by ring.
      rewrite G1, G2. unfold W1, W2, D, n0, n1, n2. ring. }
  exists (1 - w1 - w2)%Q, w1, w2. split; [reflexivity|]. split; [ring|]. split; [exact FW|].
  split.
  - intros (P0 & P1 & P2). exists [1 - w1 - w2; w1; w2]%Q. split; [reflexivity|].
    split; [repeat (constructor; auto)|]. split; [rewrite total3; ring|exact FW].
  - intros (ws & L & P & S & F). destruct (len3 ws L) as (z0 & z1 & z2 & ->).
    rewrite total3 in S. inversion P as [|x l Q0 P' EQ]. inversion P' as [|x' l' Q1 P'' EQ']. inversion P'' as [|x'' l'' Q2 P''' EQ'']. subst l l' l'' x x' x''.
    destruct (TF z0 z1 z2 S F) as (FX & FY).
    (* the difference of the two solutions is orthogonal to both edges *)
    assert (E1 : (w1 == z1)%Q).
    { assert (Z : (D * (w1 - z1) == 0)%Q).
      { setoid_replace (D * (w1 - z1))%Q with (w1 * D - z1 * D)%Q by ring. rewrite G1.
        setoid_replace (W1 - z1 * D)%Q with
          ((y0 * y0 + y1 * y1 + y2 * y2) * ((v0 - z1 * x0 - z2 * y0) * x0 + (v1 - z1 * x1 - z2 * y1) * x1 + (v2 - z1 * x2 - z2 * y2) * x2)
           - (x0 * y0 + x1 * y1 + x2 * y2) * ((v0 - z1 * x0 - z2 * y0) * y0 + (v1 - z1 * x1 - z2 * y1) * y1 + (v2 - z1 * x2 - z2 * y2) * y2))%Q
          by (unfold W1, D, n0, n1, n2; ring).
        rewrite FX, FY. ring. }
      apply (Qmul_cancel D) in Z; auto. lra. }
    assert (E2 : (w2 == z2)%Q).
    { assert (Z : (D * (w2 - z2) == 0)%Q).
      { setoid_replace (D * (w2 - z2))%Q with (w2 * D - z2 * D)%Q by ring. rewrite G2.
        setoid_replace (W2 - z2 * D)%Q with
          ((x0 * x0 + x1 * x1 + x2 * x2) * ((v0 - z1 * x0 - z2 * y0) * y0 + (v1 - z1 * x1 - z2 * y1) * y1 + (v2 - z1 * x2 - z2 * y2) * y2)
           - (x0 * y0 + x1 * y1 + x2 * y2) * ((v0 - z1 * x0 - z2 * y0) * x0 + (v1 - z1 * x1 - z2 * y1) * x1 + (v2 - z1 * x2 - z2 * y2) * x2))%Q
          by (unfold W2, D, n0, n1, n2; ring).
        rewrite FX, FY. ring. }
      apply (Qmul_cancel D) in Z; auto. lra. }
    rewrite E1, E2. lra.
Qed.
Lemma tri3_ok a b c u : length a = 3 -> length b = 3 -> length c = 3 -> length u = 3 -> ~ degenerate 3 [a; b; c] ->
  exists w0 w1 w2, baryTriangle a b c u = Some (w0, w1, w2) /\ (w0 + w1 + w2 == 1)%Q /\ foot 3 u [w0; w1; w2] [a; b; c] /\
  ((0 <= w0 /\ 0 <= w1 /\ 0 <= w2)%Q <-> projects_into 3 u [a; b; c]).
Proof. intros. apply tri3_core; auto. apply tri3_def; auto. Qed.

Lemma tri2_def a b c u : length a = 2 -> length b = 2 -> length c = 2 -> length u = 2 -> ~ degenerate 2 [a; b; c] ->
  baryTriangle a b c u <> None.
Proof.
  intros A B C U ND.
  destruct (len2 a A) as (a0 & a1 & ->). destruct (len2 b B) as (b0 & b1 & ->).
  destruct (len2 c C) as (c0 & c1 & ->). destruct (len2 u U) as (u0 & u1 & ->). clear A B C U.
  unfold baryTriangle. q3. unfold cross2. q3.
  set (D := ((b0 - a0) * (c1 - a1) - (b1 - a1) * (c0 - a0))%Q).
  assert (NZ : ~ (D == 0)%Q).
  { intro E. destruct (cross_zero_dependent (b0 - a0) (b1 - a1) 0 (c0 - a0) (c1 - a1) 0) as (s & t & NN & P0 & P1 & P2); [ring|ring|exact E|].
    apply ND. exists [- s - t; s; t]%Q. split; [reflexivity|]. split.
    { destruct NN; [constructor 2; constructor 1|constructor 2; constructor 2; constructor 1]; assumption. }
    split; [rewrite total3; ring|]. intros k K. rewrite combo3.
    destruct k as [|[|k]]; [| |lia]; cbn [nth]; [transitivity (s * (b0 - a0) + t * (c0 - a0))%Q|transitivity (s * (b1 - a1) + t * (c1 - a1))%Q]; try assumption; ring. }
  rewrite (proj2 (Qeq_bool_false _ _) NZ). discriminate.
Qed.

Lemma tri2_core a b c u : length a = 2 -> length b = 2 -> length c = 2 -> length u = 2 -> baryTriangle a b c u <> None ->
  exists w0 w1 w2, baryTriangle a b c u = Some (w0, w1, w2) /\ (w0 + w1 + w2 == 1)%Q /\
  (forall k, k < 2 -> (combo [w0; w1; w2] [a; b; c] k == nth k u 0)%Q) /\
  ((0 <= w0 /\ 0 <= w1 /\ 0 <= w2)%Q <-> inside 2 u [a; b; c]).
Proof.
  intros A B C U ND.
  destruct (len2 a A) as (a0 & a1 & ->). destruct (len2 b B) as (b0 & b1 & ->).
  destruct (len2 c C) as (c0 & c1 & ->). destruct (len2 u U) as (u0 & u1 & ->). clear A B C U.
  revert ND. unfold baryTriangle. q3. unfold cross2. q3.
  set (D := ((b0 - a0) * (c1 - a1) - (b1 - a1) * (c0 - a0))%Q).
  intro ND. assert (NZ : ~ (D == 0)%Q).
  { intro E. rewrite (Qeq_eq_bool _ _ E) in ND. auto. }
  rewrite (proj2 (Qeq_bool_false _ _) NZ).
  set (W0 := ((b0 - u0) * (c1 - u1) - (b1 - u1) * (c0 - u0))%Q).
  set (W1 := ((c0 - u0) * (a1 - u1) - (c1 - u1) * (a0 - u0))%Q).
  assert (G0 : (W0 * (1 / D) * D == W0)%Q) by (field; auto).
  assert (G1 : (W1 * (1 / D) * D == W1)%Q) by (field; auto).
  set (w0 := (W0 * (1 / D))%Q) in *. set (w1 := (W1 * (1 / D))%Q) in *.
  assert (FW : forall k, k < 2 -> (combo [w0; w1; 1 - w0 - w1]%Q [[a0; a1]; [b0; b1]; [c0; c1]] k == nth k [u0; u1] 0)%Q).
  { intros k K. rewrite combo3. destruct k as [|[|k]]; [| |lia]; cbn [nth].
    - cut (w0 * a0 + w1 * b0 + (1 - w0 - w1) * c0 - u0 == 0)%Q; [intro; lra|]. apply (Qmul_cancel D); auto.
      setoid_replace (D * (w0 * a0 + w1 * b0 + (1 - w0 - w1) * c0 - u0))%Q
        with ((w0 * D) * (a0 - c0) + (w1 * D) * (b0 - c0) + D * (c0 - u0))%Q by ring.
      rewrite G0, G1. unfold W0, W1, D. ring.
    - cut (w0 * a1 + w1 * b1 + (1 - w0 - w1) * c1 - u1 == 0)%Q; [intro; lra|]. apply (Qmul_cancel D); auto.
      setoid_replace (D * (w0 * a1 + w1 * b1 + (1 - w0 - w1) * c1 - u1))%Q
        with ((w0 * D) * (a1 - c1) + (w1 * D) * (b1 - c1) + D * (c1 - u1))%Q by ring.
      rewrite G0, G1. unfold W0, W1, D. ring. }
  exists w0, w1, (1 - w0 - w1)%Q. split; [reflexivity|]. split; [ring|]. split; [exact FW|].
  split.
  - intros (P0 & P1 & P2). exists [w0; w1; 1 - w0 - w1]%Q. split; [reflexivity|].
    split; [repeat (constructor; auto)|]. split; [rewrite total3; ring|exact FW].
  - intros (ws & L & P & S & F). destruct (len3 ws L) as (z0 & z1 & z2 & ->).
    rewrite total3 in S. inversion P as [|x l Q0 P' EQ]. inversion P' as [|x' l' Q1 P'' EQ']. inversion P'' as [|x'' l'' Q2 P''' EQ'']. subst l l' l'' x x' x''.
    assert (F0 := F 0%nat ltac:(lia)). assert (F1 := F 1%nat ltac:(lia)). rewrite combo3 in F0, F1. cbn [nth] in F0, F1.
    assert (EZ : (z2 == 1 - z0 - z1)%Q) by lra. rewrite EZ in F0, F1.
    assert (E0 : (w0 == z0)%Q).
    { assert (Z : (D * (w0 - z0) == 0)%Q).
      { setoid_replace (D * (w0 - z0))%Q with (w0 * D - z0 * D)%Q by ring. rewrite G0.
        unfold W0, D. rewrite <- F0, <- F1. ring. }
      apply (Qmul_cancel D) in Z; auto. lra. }
    assert (E1 : (w1 == z1)%Q).
    { assert (Z : (D * (w1 - z1) == 0)%Q).
      { setoid_replace (D * (w1 - z1))%Q with (w1 * D - z1 * D)%Q by ring. rewrite G1.
        unfold W1, D. rewrite <- F0, <- F1. ring. }
      apply (Qmul_cancel D) in Z; auto. lra. }
    rewrite E0, E1. lra.
Qed.
Lemma tri2_ok a b c u : length a = 2 -> length b = 2 -> length c = 2 -> length u = 2 -> ~ degenerate 2 [a; b; c] ->
  exists w0 w1 w2, baryTriangle a b c u = Some (w0, w1, w2) /\ (w0 + w1 + w2 == 1)%Q /\
  (forall k, k < 2 -> (combo [w0; w1; w2] [a; b; c] k == nth k u 0)%Q) /\
  ((0 <= w0 /\ 0 <= w1 /\ 0 <= w2)%Q <-> inside 2 u [a; b; c]).
Proof. intros. apply tri2_core; auto. apply tri2_def; auto. Qed.

Lemma tetra_def a b c d u : length a = 3 -> length b = 3 -> length c = 3 -> length d = 3 -> length u = 3 -> ~ degenerate 3 [a; b; c; d] ->
  baryTetra a b c d u <> None.
Proof.
  intros A B C DD U ND.
  destruct (len3 a A) as (a0 & a1 & a2 & ->). destruct (len3 b B) as (b0 & b1 & b2 & ->).
  destruct (len3 c C) as (c0 & c1 & c2 & ->). destruct (len3 d DD) as (d0 & d1 & d2 & ->).
  destruct (len3 u U) as (u0 & u1 & u2 & ->). clear A B C DD U.
  unfold baryTetra. q3.
  match goal with |- context [Qeq_bool ?x 0] => set (D := x) end.
  match goal with |- context [(1 - ?x / D - ?y / D - ?z / D)%Q] => set (W3 := x); set (W2 := y); set (W1 := z) end.
  assert (NZ : ~ (D == 0)%Q).
  { intro E.
    set (x0 := (b0 - a0)%Q) in *. set (x1 := (b1 - a1)%Q) in *. set (x2 := (b2 - a2)%Q) in *.
    set (y0 := (c0 - a0)%Q). set (y1 := (c1 - a1)%Q). set (y2 := (c2 - a2)%Q).
    set (z0 := (d0 - a0)%Q) in *. set (z1 := (d1 - a1)%Q) in *. set (z2 := (d2 - a2)%Q) in *.
    set (n0 := (x1 * y2 - x2 * y1)%Q). set (n1 := (x2 * y0 - x0 * y2)%Q). set (n2 := (x0 * y1 - x1 * y0)%Q).
    assert (EN : (n0 * z0 + n1 * z1 + n2 * z2 == 0)%Q).
    { rewrite <- E. unfold D, n0, n1, n2, y0, y1, y2, x0, x1, x2. ring. }
    assert (DEP : exists s t r, ((~ s == 0 \/ ~ t == 0 \/ ~ r == 0) /\ s * x0 + t * y0 + r * z0 == 0 /\
                   s * x1 + t * y1 + r * z1 == 0 /\ s * x2 + t * y2 + r * z2 == 0)%Q).
    { destruct (Qdec (n0 * n0 + (n1 * n1 + (n2 * n2 + 0)))) as [Z|NN].
      - apply sum3sq_zero in Z. destruct Z as (Z0 & Z1 & Z2).
        destruct (cross_zero_dependent x0 x1 x2 y0 y1 y2 Z0 Z1 Z2) as (s & t & NN & P0 & P1 & P2).
        exists s, t, 0%Q. split; [tauto|].
        split; [etransitivity; [|exact P0]; ring|]. split; [etransitivity; [|exact P1]; ring|etransitivity; [|exact P2]; ring].
      - exists (- ((z1 * y2 - z2 * y1) * n0 + (z2 * y0 - z0 * y2) * n1 + (z0 * y1 - z1 * y0) * n2))%Q,
               (- ((x1 * z2 - x2 * z1) * n0 + (x2 * z0 - x0 * z2) * n1 + (x0 * z1 - x1 * z0) * n2))%Q,
               (n0 * n0 + (n1 * n1 + (n2 * n2 + 0)))%Q.
        split; [tauto|].
        split; [|split].
        + transitivity (n0 * (n0 * z0 + n1 * z1 + n2 * z2))%Q; [unfold n0, n1, n2; ring|rewrite EN; ring].
        + transitivity (n1 * (n0 * z0 + n1 * z1 + n2 * z2))%Q; [unfold n0, n1, n2; ring|rewrite EN; ring].
        + transitivity (n2 * (n0 * z0 + n1 * z1 + n2 * z2))%Q; [unfold n0, n1, n2; ring|rewrite EN; ring]. }
    destruct DEP as (s & t & r & NN & P0 & P1 & P2).
    apply ND. exists [- s - t - r; s; t; r]%Q. split; [reflexivity|]. split.
    { destruct NN as [?|[?|?]]; [constructor 2; constructor 1|constructor 2; constructor 2; constructor 1|constructor 2; constructor 2; constructor 2; constructor 1]; assumption. }
    split; [rewrite total4; ring|]. intros k K. rewrite combo4.
    unfold x0, x1, x2, y0, y1, y2, z0, z1, z2 in P0, P1, P2.
    destruct k as [|[|[|k]]]; [| | |lia]; cbn [nth];
      [transitivity (s * (b0 - a0) + t * (c0 - a0) + r * (d0 - a0))%Q|transitivity (s * (b1 - a1) + t * (c1 - a1) + r * (d1 - a1))%Q
      |transitivity (s * (b2 - a2) + t * (c2 - a2) + r * (d2 - a2))%Q]; try assumption; ring. }
  rewrite (proj2 (Qeq_bool_false _ _) NZ). discriminate.
Qed.

Lemma tetra_core a b c d u : length a = 3 -> length b = 3 -> length c = 3 -> length d = 3 -> length u = 3 ->
  baryTetra a b c d u <> None ->
  exists w0 w1 w2 w3, baryTetra a b c d u = Some (w0, w1, w2, w3) /\ (w0 + w1 + w2 + w3 == 1)%Q /\
  (forall k, k < 3 -> (combo [w0; w1; w2; w3] [a; b; c; d] k == nth k u 0)%Q) /\
  ((0 <= w0 /\ 0 <= w1 /\ 0 <= w2 /\ 0 <= w3)%Q <-> inside 3 u [a; b; c; d]).
Proof.
  intros A B C DD U ND.
  destruct (len3 a A) as (a0 & a1 & a2 & ->). destruct (len3 b B) as (b0 & b1 & b2 & ->).
  destruct (len3 c C) as (c0 & c1 & c2 & ->). destruct (len3 d DD) as (d0 & d1 & d2 & ->).
  destruct (len3 u U) as (u0 & u1 & u2 & ->). clear A B C DD U.
  revert ND. unfold baryTetra. q3.
  match goal with |- context [Qeq_bool ?x 0] => set (D := x) end.
  match goal with |- context [(1 - ?x / D - ?y / D - ?z / D)%Q] => set (W3 := x); set (W2 := y); set (W1 := z) end.
  intro ND. assert (NZ : ~ (D == 0)%Q).
  { intro E. rewrite (Qeq_eq_bool _ _ E) in ND. auto. }
  rewrite (proj2 (Qeq_bool_false _ _) NZ).
  assert (G1 : (W1 / D * D == W1)%Q) by (field; auto).
  assert (G2 : (W2 / D * D == W2)%Q) by (field; auto).
  assert (G3 : (W3 / D * D == W3)%Q) by (field; auto).
  set (w1 := (W1 / D)%Q) in *. set (w2 := (W2 / D)%Q) in *. set (w3 := (W3 / D)%Q) in *.
  assert (FW : forall k, k < 3 -> (combo [1 - w3 - w2 - w1; w1; w2; w3]%Q
      [[a0; a1; a2]; [b0; b1; b2]; [c0; c1; c2]; [d0; d1; d2]] k == nth k [u0; u1; u2] 0)%Q).
  { intros k K. rewrite combo4. destruct k as [|[|[|k]]]; [| | |lia]; cbn [nth].
    - cut ((1 - w3 - w2 - w1) * a0 + w1 * b0 + w2 * c0 + w3 * d0 - u0 == 0)%Q; [intro; lra|]. apply (Qmul_cancel D); auto.
      setoid_replace (D * ((1 - w3 - w2 - w1) * a0 + w1 * b0 + w2 * c0 + w3 * d0 - u0))%Q
        with ((w1 * D) * (b0 - a0) + (w2 * D) * (c0 - a0) + (w3 * D) * (d0 - a0) + D * (a0 - u0))%Q by ring.
      rewrite G1, G2, G3. unfold W1, W2, W3, D. ring.
    - cut ((1 - w3 - w2 - w1) * a1 + w1 * b1 + w2 * c1 + w3 * d1 - u1 == 0)%Q; [intro; lra|]. apply (Qmul_cancel D); auto.
      setoid_replace (D * ((1 - w3 - w2 - w1) * a1 + w1 * b1 + w2 * c1 + w3 * d1 - u1))%Q
        with ((w1 * D) * (b1 - a1) + (w2 * D) * (c1 - a1) + (w3 * D) * (d1 - a1) + D * (a1 - u1))%Q by ring.
      rewrite G1, G2, G3. unfold W1, W2, W3, D. ring.
    - cut ((1 - w3 - w2 - w1) * a2 + w1 * b2 + w2 * c2 + w3 * d2 - u2 == 0)%Q; [intro; lra|]. apply (Qmul_cancel D); auto.
      setoid_replace (D * ((1 - w3 - w2 - w1) * a2 + w1 * b2 + w2 * c2 + w3 * d2 - u2))%Q
        with ((w1 * D) * (b2 - a2) + (w2 * D) * (c2 - a2) + (w3 * D) * (d2 - a2) + D * (a2 - u2))%Q by ring.
      rewrite G1, G2, G3. unfold W1, W2, W3, D. ring. }
  exists (1 - w3 - w2 - w1)%Q, w1, w2, w3. split; [reflexivity|]. split; [ring|]. split; [exact FW|].
  split.
  - intros (P0 & P1 & P2 & P3). exists [1 - w3 - w2 - w1; w1; w2; w3]%Q. split; [reflexivity|].
    split; [repeat (constructor; auto)|]. split; [rewrite total4; ring|exact FW].
  - intros (ws & L & P & S & F). destruct (len4 ws L) as (z0 & z1 & z2 & z3 & ->).
    rewrite total4 in S. inversion P as [|x l Q0 P' EQ]. inversion P' as [|x' l' Q1 P'' EQ']. inversion P'' as [|x'' l'' Q2 P''' EQ''].
    inversion P''' as [|x3 l3 Q3 P4 EQ3]. subst l l' l'' l3 x x' x'' x3.
    assert (F0 := F 0%nat ltac:(lia)). assert (F1 := F 1%nat ltac:(lia)). assert (F2 := F 2%nat ltac:(lia)).
    rewrite combo4 in F0, F1, F2. cbn [nth] in F0, F1, F2.
    assert (EZ : (z0 == 1 - z1 - z2 - z3)%Q) by lra. rewrite EZ in F0, F1, F2.
    assert (E1 : (w1 == z1)%Q).
    { assert (Z : (D * (w1 - z1) == 0)%Q).
      { setoid_replace (D * (w1 - z1))%Q with (w1 * D - z1 * D)%Q by ring. rewrite G1.
        unfold W1, D. rewrite <- F0, <- F1, <- F2. ring. }
      apply (Qmul_cancel D) in Z; auto. lra. }
    assert (E2 : (w2 == z2)%Q).
    { assert (Z : (D * (w2 - z2) == 0)%Q).
      { setoid_replace (D * (w2 - z2))%Q with (w2 * D - z2 * D)%Q by ring. rewrite G2.
        unfold W2, D. rewrite <- F0, <- F1, <- F2. ring. }
      apply (Qmul_cancel D) in Z; auto. lra. }
    assert (E3 : (w3 == z3)%Q).
    { assert (Z : (D * (w3 - z3) == 0)%Q).
      { setoid_replace (D * (w3 - z3))%Q with (w3 * D - z3 * D)%Q by ring. rewrite G3.
        unfold W3, D. rewrite <- F0, <- F1, <- F2. ring. }
      apply (Qmul_cancel D) in Z; auto. lra. }
    rewrite E1, E2, E3. lra.
Qed.
Lemma tetra_ok a b c d u : length a = 3 -> length b = 3 -> length c = 3 -> length d = 3 -> length u = 3 ->
  ~ degenerate 3 [a; b; c; d] ->
  exists w0 w1 w2 w3, baryTetra a b c d u = Some (w0, w1, w2, w3) /\ (w0 + w1 + w2 + w3 == 1)%Q /\
  (forall k, k < 3 -> (combo [w0; w1; w2; w3] [a; b; c; d] k == nth k u 0)%Q) /\
  ((0 <= w0 /\ 0 <= w1 /\ 0 <= w2 /\ 0 <= w3)%Q <-> inside 3 u [a; b; c; d]).
Proof. intros. apply tetra_core; auto. apply tetra_def; auto. Qed.
