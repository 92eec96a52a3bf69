From Coq Require Import ZArith QArith Bool List Arith Lia Lqa Permutation.
From Verif Require Import M_Mesh M_Prep M_Box M_Quad S_Quad P_Box.
Import ListNotations.
Open Scope nat_scope.

(** ** the sign of a turn depends on four numbers *)
Definition isGt (c : comparison) := match c with Gt => true | _ => false end.
Definition isLt (c : comparison) := match c with Lt => true | _ => false end.
Definition tbl (sA sB sC sD : comparison) (c n i : nat) : bool :=
  match c, n, i with
  | 0, 1, 2 | 1, 2, 0 | 2, 0, 1 => isGt sA
  | 0, 2, 1 | 2, 1, 0 | 1, 0, 2 => isLt sA
  | 0, 1, 3 | 1, 3, 0 | 3, 0, 1 => isGt sB
  | 0, 3, 1 | 3, 1, 0 | 1, 0, 3 => isLt sB
  | 0, 2, 3 | 2, 3, 0 | 3, 0, 2 => isGt sC
  | 0, 3, 2 | 3, 2, 0 | 2, 0, 3 => isLt sC
  | 1, 2, 3 | 2, 3, 1 | 3, 1, 2 => isGt sD
  | 1, 3, 2 | 3, 2, 1 | 2, 1, 3 => isLt sD
  | _, _, _ => false
  end.
Definition nextT (T : nat -> nat -> nat -> bool) (c : nat) : nat :=
  fold_left (fun next i => if T c next i then i else next) [0; 1; 2; 3] ((c + 1) mod 4).
Fixpoint wrapT (nx : nat -> nat) (start room current : nat) : option (list nat) :=
  match room with
  | 0 => None
  | S room' =>
      let next := nx current in
      if next =? start then Some [current]
      else match wrapT nx start room' next with Some r => Some (current :: r) | None => None end
  end.
Lemma gt0 q a : (q == a)%Q -> qlt 0 q = isGt (a ?= 0)%Q.
Proof.
  intros E. destruct (a ?= 0)%Q eqn:C; cbn.
  - apply Qeq_alt in C. apply qlt_false. lra.
  - apply Qlt_alt in C. apply qlt_false. lra.
  - apply Qgt_alt in C. apply qlt_iff. lra.
Qed.
Lemma lt0 q a : (q == - a)%Q -> qlt 0 q = isLt (a ?= 0)%Q.
Proof.
  intros E. destruct (a ?= 0)%Q eqn:C; cbn.
  - apply Qeq_alt in C. apply qlt_false. lra.
  - apply Qlt_alt in C. apply qlt_iff. lra.
  - apply Qgt_alt in C. apply qlt_false. lra.
Qed.
Lemma eq0 q : (q == 0)%Q -> qlt 0 q = false.
Proof. intros E. apply qlt_false. lra. Qed.
Section T.
Variable l : list (Q * Q).
Definition sA := (turn l 0 1 2 ?= 0)%Q.
Definition sB := (turn l 0 1 3 ?= 0)%Q.
Definition sC := (turn l 0 2 3 ?= 0)%Q.
Definition sD := (turn l 1 2 3 ?= 0)%Q.
Notation T := (tbl sA sB sC sD).
Lemma turn_tbl c n i : c < 4 -> n < 4 -> i < 4 -> qlt 0 (turn l c n i) = T c n i.
Proof.
  intros Hc Hn Hi. unfold sA, sB, sC, sD.
  destruct c as [|[|[|[|c]]]]; [| | | |lia]; (destruct n as [|[|[|[|n]]]]; [| | | |lia]); (destruct i as [|[|[|[|i]]]]; [| | | |lia]); cbn [tbl];
    first [apply eq0; unfold turn; ring | apply gt0; unfold turn; ring | apply lt0; unfold turn; ring].
Qed.
Lemma next_tbl c : c < 4 -> nextVertex l c = nextT T c /\ nextT T c < 4.
Proof.
  intros Hc. unfold nextVertex, nextT.
  assert (G : forall is n, n < 4 -> (forall i, In i is -> i < 4) ->
    fold_left (fun next i => if qlt 0 (turn l c next i) then i else next) is n = fold_left (fun next i => if T c next i then i else next) is n /\
    fold_left (fun next i => if T c next i then i else next) is n < 4).
  { induction is as [|i is IH]; intros n Hn Hi; cbn [fold_left]; [auto|].
    rewrite turn_tbl by (auto; apply Hi; left; reflexivity). apply IH; [|intros; apply Hi; right; assumption].
    destruct (T c n i); [apply Hi; left; reflexivity|exact Hn]. }
  apply G; [apply Nat.mod_upper_bound; lia|]. cbn. lia.
Qed.
Lemma wrap_tbl start : forall room c, c < 4 -> wrap l start room c = wrapT (nextT T) start room c.
Proof.
  induction room as [|room IH]; intros c Hc; cbn [wrap wrapT]; [reflexivity|].
  destruct (next_tbl c Hc) as [-> H]. rewrite IH by exact H. reflexivity.
Qed.
Lemma D_eq : (turn l 1 2 3 == turn l 0 1 2 - turn l 0 1 3 + turn l 0 2 3)%Q.
Proof. unfold turn. ring. Qed.
Lemma balance : (turn l 1 2 3 * fst (at4 l 0) - turn l 0 2 3 * fst (at4 l 1) + turn l 0 1 3 * fst (at4 l 2) - turn l 0 1 2 * fst (at4 l 3) == 0)%Q.
Proof. unfold turn. ring. Qed.
End T.

(** ** what the loop finds for all signs *)
Definition perms4 : list (nat * nat * nat * nat) :=
  flat_map (fun a => flat_map (fun b => flat_map (fun c => flat_map (fun d =>
    if uniqueElements Nat.eqb [a; b; c; d] then [(a, b, c, d)] else []) (seq 0 4)) (seq 0 4)) (seq 0 4)) (seq 0 4).
Definition round (T : nat -> nat -> nat -> bool) (a b c d : nat) : bool := T a b c && T b c d && T c d a && T d a b.
Definition noturn (T : nat -> nat -> nat -> bool) (a b c d : nat) : bool :=
  negb (T a b c) && negb (T b c d) && negb (T c d a) && negb (T d a b).
(** expected outcome of the loop *)
Definition expected (T : nat -> nat -> nat -> bool) (r : option (list nat)) : bool :=
  match r with
  | None => false
  | Some o =>
      match o with
      | [a; b; c; d] => uniqueElements Nat.eqb o && forallb (fun i => i <? 4) o && noturn T a b c d && negb (noturn T d c b a)
      | [_] | [_; _] | [_; _; _] => forallb (fun x => let '(a, b, c, d) := x in negb (round T a b c d)) perms4
      | _ => false
      end
  end.
Definition excluded (sB sC sD : comparison) (start : nat) : bool :=
  match start with
  | 0 => isLt sB && isGt sC && isGt sD
  | 1 => true
  | 2 => isGt sB && isGt sC && negb (isGt sD)
  | 3 => isGt sD && negb (isGt sC) && negb (isLt sB)
  | _ => true
  end.
(** D = A - B + C with A > 0 *)
Definition consistent (sB sC sD : comparison) : bool := isGt sD || isGt sB || isLt sC.
Lemma all_signs sB sC sD start : consistent sB sC sD = true -> excluded sB sC sD start = false ->
  expected (tbl Gt sB sC sD) (wrapT (nextT (tbl Gt sB sC sD)) start 4 start) = true.
Proof.
  intros Hc He. destruct start as [|[|[|[|start]]]]; try discriminate; destruct sB, sC, sD; try discriminate; vm_compute; reflexivity.
Qed.
Lemma all_zero start : start < 4 -> exists o, wrapT (nextT (tbl Eq Eq Eq Eq)) start 4 start = Some o /\ length o = 4.
Proof. intros H. destruct start as [|[|[|[|start]]]]; [| | | |lia]; eexists; vm_compute; split; reflexivity. Qed.

Lemma lowest_spec l : lowest l < 4 /\ (forall i, i < 4 -> (fst (at4 l (lowest l)) <= fst (at4 l i))%Q) /\
  (forall i, i < lowest l -> (fst (at4 l (lowest l)) < fst (at4 l i))%Q).
Proof.
  assert (G : forall k, k <= 4 -> 1 <= k -> let low := fold_left (fun low i => if qlt (fst (at4 l i)) (fst (at4 l low)) then i else low) (seq 1 (k - 1)) 0 in
    low < k /\ (forall i, i < k -> (fst (at4 l low) <= fst (at4 l i))%Q) /\ (forall i, i < low -> (fst (at4 l low) < fst (at4 l i))%Q)).
  { induction k as [|k IH]; intros Hk H1; [lia|]. destruct (Nat.eq_dec k 0) as [->|N].
    - cbn. split; [lia|]. split; [|lia]. intros i Hi. assert (i = 0) by lia. subst i. apply Qle_refl.
    - replace (S k - 1) with (S (k - 1)) by lia. rewrite seq_S, fold_left_app. cbn [fold_left]. replace (1 + (k - 1)) with k by lia.
      destruct IH as (I1 & I2 & I3); [lia|lia|]. cbn zeta in *.
      set (low := fold_left _ (seq 1 (k - 1)) 0) in *.
      destruct (qlt (fst (at4 l k)) (fst (at4 l low))) eqn:E.
      + apply qlt_iff in E. split; [lia|]. split; intros i Hi.
        * destruct (Nat.eq_dec i k) as [->|]; [apply Qle_refl|]. specialize (I2 i). assert (i < k) as L by lia. specialize (I2 L). lra.
        * specialize (I2 i Hi). lra.
      + apply qlt_false in E. split; [lia|]. split; [|exact I3]. intros i Hi.
        destruct (Nat.eq_dec i k) as [->|]; [exact E|]. apply I2. lia. }
  apply (G 4); lia.
Qed.

Lemma wrap_pos l : (fst (at4 l 0) < fst (at4 l 1))%Q -> (0 < turn l 0 1 2)%Q ->
  let T := tbl (sA l) (sB l) (sC l) (sD l) in expected T (wrap l (lowest l) 4 (lowest l)) = true.
Proof.
  intros H1 HA. cbn zeta. destruct (lowest_spec l) as (L4 & Lm & Ls).
  rewrite wrap_tbl by exact L4.
  assert (EA : sA l = Gt) by (apply Qgt_alt; exact HA). rewrite EA.
  pose proof (D_eq l) as D. pose proof (balance l) as Bal.
  assert (VB : forall P, (sB l = Gt -> (0 < turn l 0 1 3)%Q -> P) -> (sB l = Eq -> (turn l 0 1 3 == 0)%Q -> P) -> (sB l = Lt -> (turn l 0 1 3 < 0)%Q -> P) -> P).
  { intros P P1 P2 P3. unfold sB in *. destruct (turn l 0 1 3 ?= 0)%Q eqn:E; [apply Qeq_alt in E|apply Qlt_alt in E|apply Qgt_alt in E]; auto. }
  assert (VC : forall P, (sC l = Gt -> (0 < turn l 0 2 3)%Q -> P) -> (sC l = Eq -> (turn l 0 2 3 == 0)%Q -> P) -> (sC l = Lt -> (turn l 0 2 3 < 0)%Q -> P) -> P).
  { intros P P1 P2 P3. unfold sC in *. destruct (turn l 0 2 3 ?= 0)%Q eqn:E; [apply Qeq_alt in E|apply Qlt_alt in E|apply Qgt_alt in E]; auto. }
  assert (VD : forall P, (sD l = Gt -> (0 < turn l 1 2 3)%Q -> P) -> (sD l = Eq -> (turn l 1 2 3 == 0)%Q -> P) -> (sD l = Lt -> (turn l 1 2 3 < 0)%Q -> P) -> P).
  { intros P P1 P2 P3. unfold sD in *. destruct (turn l 1 2 3 ?= 0)%Q eqn:E; [apply Qeq_alt in E|apply Qlt_alt in E|apply Qgt_alt in E]; auto. }
  pose proof (Lm 0 ltac:(lia)) as M0. pose proof (Lm 1 ltac:(lia)) as M1. pose proof (Lm 2 ltac:(lia)) as M2. pose proof (Lm 3 ltac:(lia)) as M3.
  revert D Bal HA. generalize (turn l 0 1 2) (turn l 0 1 3) (turn l 0 2 3) (turn l 1 2 3) VB VC VD.
  clear VB VC VD. intros A B C D VB VC VD ED Bal HA.
  apply all_signs.
  - unfold consistent. apply VB; intros -> b; apply VC; intros -> c; apply VD; intros -> d; try reflexivity; exfalso; lra.
  - destruct (lowest l) as [|[|[|[|k]]]] eqn:Ek; [| | | |lia]; cbn [excluded].
    + apply VB; intros -> b; cbn [isLt isGt andb negb]; try reflexivity.
      apply VC; intros -> c; cbn [isLt isGt andb negb]; try reflexivity.
      apply VD; intros -> d; cbn [isLt isGt andb negb]; try reflexivity. exfalso. nra.
    + specialize (Ls 0 ltac:(lia)). exfalso. lra.
    + pose proof (Ls 0 ltac:(lia)) as S0. pose proof (Ls 1 ltac:(lia)) as S1.
      apply VB; intros -> b; cbn [isLt isGt andb negb]; try reflexivity.
      apply VC; intros -> c; cbn [isLt isGt andb negb]; try reflexivity.
      apply VD; intros -> d; cbn [isLt isGt andb negb]; try reflexivity; exfalso; nra.
    + pose proof (Ls 0 ltac:(lia)) as S0. pose proof (Ls 1 ltac:(lia)) as S1. pose proof (Ls 2 ltac:(lia)) as S2.
      apply VD; intros -> d; cbn [isLt isGt andb negb]; try reflexivity.
      apply VC; intros -> c; cbn [isLt isGt andb negb]; try reflexivity;
      apply VB; intros -> b; cbn [isLt isGt andb negb]; try reflexivity; exfalso; nra.
Qed.

(** ** the points in the plane or in space *)
Definition quadList (c0 c1 c2 c3 : list Q) := map (project c0 c1 c2) [c0; c1; c2; c3].
Lemma sq_nonneg (x : Q) : (0 <= x * x)%Q. Proof. nra. Qed.
Lemma sq_zero (x : Q) : (x * x == 0)%Q -> (x == 0)%Q.
Proof. intros H. apply Qmult_integral in H. tauto. Qed.
Ltac coords2 c := let x := fresh "x" in let y := fresh "y" in let z := fresh "z" in destruct c as [|x [|y [|z ?]]]; try discriminate.
Ltac coords3 c := let x := fresh "x" in let y := fresh "y" in let z := fresh "z" in let w := fresh "w" in destruct c as [|x [|y [|z [|w ?]]]]; try discriminate.

Lemma turns_nonneg c0 c1 c2 c3 : point c0 -> length c1 = length c0 -> length c2 = length c0 -> length c3 = length c0 ->
  let l := quadList c0 c1 c2 c3 in
  (0 < turn l 0 1 2)%Q \/ ((turn l 0 1 2 == 0)%Q /\ (turn l 0 1 3 == 0)%Q /\ (turn l 0 2 3 == 0)%Q /\ (turn l 1 2 3 == 0)%Q).
Proof.
  intros P L1 L2 L3. cbn zeta. destruct P as [P|P]; rewrite P in *.
  - coords2 c0; coords2 c1; coords2 c2; coords2 c3.
    rename x into a0, y into b0, x0 into a1, y0 into b1, x1 into a2, y1 into b2, x2 into a3, y2 into b3.
    set (det := ((a1 - a0) * (b2 - b0) - (b1 - b0) * (a2 - a0))%Q).
    assert (EA : (turn (quadList [a0; b0] [a1; b1] [a2; b2] [a3; b3]) 0 1 2 == det * det)%Q) by (unfold turn, det; cbn; ring).
    assert (EB : (turn (quadList [a0; b0] [a1; b1] [a2; b2] [a3; b3]) 0 1 3 == det * ((a1 - a0) * (b3 - b0) - (b1 - b0) * (a3 - a0)))%Q) by (unfold turn, det; cbn; ring).
    assert (EC : (turn (quadList [a0; b0] [a1; b1] [a2; b2] [a3; b3]) 0 2 3 == det * ((a2 - a0) * (b3 - b0) - (b2 - b0) * (a3 - a0)))%Q) by (unfold turn, det; cbn; ring).
    pose proof (D_eq (quadList [a0; b0] [a1; b1] [a2; b2] [a3; b3])) as ED.
    pose proof (sq_nonneg det). destruct (Qeq_dec det 0) as [Z|N].
    + right. rewrite ED, EA, EB, EC, Z. repeat split; ring.
    + left. rewrite EA. destruct (Qlt_le_dec 0 (det * det)) as [|Le]; [assumption|]. exfalso. apply N, sq_zero. lra.
  - coords3 c0; coords3 c1; coords3 c2; coords3 c3.
    rename x into a0, y into b0, z into d0, x0 into a1, y0 into b1, z0 into d1, x1 into a2, y1 into b2, z1 into d2, x2 into a3, y2 into b3, z2 into d3.
    set (n0 := ((b1 - b0) * (d2 - d0) - (d1 - d0) * (b2 - b0))%Q).
    set (n1 := ((d1 - d0) * (a2 - a0) - (a1 - a0) * (d2 - d0))%Q).
    set (n2 := ((a1 - a0) * (b2 - b0) - (b1 - b0) * (a2 - a0))%Q).
    set (l := quadList [a0; b0; d0] [a1; b1; d1] [a2; b2; d2] [a3; b3; d3]).
    assert (EA : (turn l 0 1 2 == n0 * n0 + n1 * n1 + n2 * n2)%Q) by (unfold l, turn, n0, n1, n2; cbn; ring).
    assert (EB : (turn l 0 1 3 == n0 * ((b1 - b0) * (d3 - d0) - (d1 - d0) * (b3 - b0)) + n1 * ((d1 - d0) * (a3 - a0) - (a1 - a0) * (d3 - d0))
      + n2 * ((a1 - a0) * (b3 - b0) - (b1 - b0) * (a3 - a0)))%Q) by (unfold l, turn, n0, n1, n2; cbn; ring).
    assert (EC : (turn l 0 2 3 == n0 * ((b2 - b0) * (d3 - d0) - (d2 - d0) * (b3 - b0)) + n1 * ((d2 - d0) * (a3 - a0) - (a2 - a0) * (d3 - d0))
      + n2 * ((a2 - a0) * (b3 - b0) - (b2 - b0) * (a3 - a0)))%Q) by (unfold l, turn, n0, n1, n2; cbn; ring).
    pose proof (D_eq l) as ED.
    pose proof (sq_nonneg n0) as S0. pose proof (sq_nonneg n1) as S1. pose proof (sq_nonneg n2) as S2.
    destruct (Qlt_le_dec 0 (turn l 0 1 2)) as [|Le]; [left; assumption|right]. rewrite EA in Le.
    assert (Z0 : (n0 == 0)%Q) by (apply sq_zero; lra). assert (Z1 : (n1 == 0)%Q) by (apply sq_zero; lra). assert (Z2 : (n2 == 0)%Q) by (apply sq_zero; lra).
    rewrite ED, EA, EB, EC, Z0, Z1, Z2. repeat split; ring.
Qed.
Lemma first_apart c0 c1 c2 c3 : point c0 -> length c1 = length c0 -> length c2 = length c0 -> length c3 = length c0 -> ~ same_point c0 c1 ->
  (fst (at4 (quadList c0 c1 c2 c3) 0) < fst (at4 (quadList c0 c1 c2 c3) 1))%Q.
Proof.
  intros P L1 L2 L3 N. destruct P as [P|P]; rewrite P in *.
  - coords2 c0; coords2 c1; coords2 c2; coords2 c3. cbn.
    pose proof (sq_nonneg (x0 - x)) as S0. pose proof (sq_nonneg (y0 - y)) as S1.
    destruct (Qlt_le_dec 0 ((x0 - x) * (x0 - x) + (y0 - y) * (y0 - y))) as [|Le]; [lra|]. exfalso. apply N.
    assert (Z0 : (x0 - x == 0)%Q) by (apply sq_zero; lra). assert (Z1 : (y0 - y == 0)%Q) by (apply sq_zero; lra).
    repeat constructor; lra.
  - coords3 c0; coords3 c1; coords3 c2; coords3 c3. cbn.
    pose proof (sq_nonneg (x0 - x)) as S0. pose proof (sq_nonneg (y0 - y)) as S1. pose proof (sq_nonneg (z0 - z)) as S2.
    destruct (Qlt_le_dec 0 ((x0 - x) * (x0 - x) + (y0 - y) * (y0 - y) + (z0 - z) * (z0 - z))) as [|Le]; [lra|]. exfalso. apply N.
    assert (Z0 : (x0 - x == 0)%Q) by (apply sq_zero; lra). assert (Z1 : (y0 - y == 0)%Q) by (apply sq_zero; lra). assert (Z2 : (z0 - z == 0)%Q) by (apply sq_zero; lra).
    repeat constructor; lra.
Qed.
Lemma convex_total tol c0 c1 c2 c3 : point c0 -> length c1 = length c0 -> length c2 = length c0 -> length c3 = length c0 -> ~ same_point c0 c1 ->
  isConvexQuad tol c0 c1 c2 c3 <> OutOfBounds.
Proof.
  intros P L1 L2 L3 N. unfold isConvexQuad. destruct (planarCheck tol c0 c1 c2 c3); [|discriminate].
  fold (quadList c0 c1 c2 c3).
  pose proof (turns_nonneg c0 c1 c2 c3 P L1 L2 L3) as TN. pose proof (first_apart c0 c1 c2 c3 P L1 L2 L3 N) as FA. cbn zeta in TN.
  set (l := quadList c0 c1 c2 c3) in *. destruct TN as [HA|(HA & HB & HC & HD)].
  - pose proof (wrap_pos l FA HA) as E. cbn zeta in E.
    destruct (wrap l (lowest l) 4 (lowest l)); [discriminate|discriminate E].
  - destruct (lowest_spec l) as (L4 & _). rewrite wrap_tbl by exact L4.
    assert (EA : sA l = Eq) by (apply Qeq_alt; exact HA). assert (EB : sB l = Eq) by (apply Qeq_alt; exact HB).
    assert (EC : sC l = Eq) by (apply Qeq_alt; exact HC). assert (ED : sD l = Eq) by (apply Qeq_alt; exact HD).
    rewrite EA, EB, EC, ED. destruct (all_zero _ L4) as (o & -> & _). discriminate.
Qed.

(** ** affine coordinates *)
Definition ori (s t : nat -> Q) (i j k : nat) : Q := ((s j - s i) * (t k - t i) - (t j - t i) * (s k - s i))%Q.
Definition comb3 (p f g : list Q) (s t : Q) : list Q :=
  map (fun x => (fst x + s * (fst (snd x) - fst x) + t * (snd (snd x) - fst x))%Q) (combine p (combine f g)).
Definition gram (p f g : list Q) : Q :=
  (vdot (vsub f p) (vsub f p) * vdot (vsub g p) (vsub g p) - vdot (vsub f p) (vsub g p) * vdot (vsub f p) (vsub g p))%Q.
Definition nth4 (c0 c1 c2 c3 : list Q) (i : nat) := nth i [c0; c1; c2; c3] [].
Lemma F2Q2 x y x' y' : Forall2 Qeq [x; y] [x'; y'] -> (x == x')%Q /\ (y == y')%Q.
Proof. intros H. inversion H as [|? ? ? ? H1 H2]; subst. inversion H2; subst. auto. Qed.
Lemma F2Q3 x y z x' y' z' : Forall2 Qeq [x; y; z] [x'; y'; z'] -> (x == x')%Q /\ (y == y')%Q /\ (z == z')%Q.
Proof. intros H. inversion H as [|? ? ? ? H1 H2]; subst. inversion H2 as [|? ? ? ? H3 H4]; subst. inversion H4; subst. auto. Qed.

Section Aff.
Variables (p f g : list Q) (c0 c1 c2 c3 : list Q) (s t : nat -> Q).
Hypothesis Pp : point p.
Hypothesis Lf : length f = length p.
Hypothesis Lg : length g = length p.
Hypothesis R0 : Forall2 Qeq c0 (comb3 p f g (s 0) (t 0)).
Hypothesis R1 : Forall2 Qeq c1 (comb3 p f g (s 1) (t 1)).
Hypothesis R2 : Forall2 Qeq c2 (comb3 p f g (s 2) (t 2)).
Hypothesis R3 : Forall2 Qeq c3 (comb3 p f g (s 3) (t 3)).
Notation G11 := (vdot (vsub f p) (vsub f p)).
Notation G12 := (vdot (vsub f p) (vsub g p)).
Notation G22 := (vdot (vsub g p) (vsub g p)).
Lemma vdot_comb a b a' b' c c' d d' sa ta sb tb sa' ta' sb' tb' :
  length a = length p -> length b = length p -> length a' = length p -> length b' = length p ->
  c = sa -> c' = sa' -> d = ta -> d' = ta' ->
  Forall2 Qeq a (comb3 p f g sa ta) -> Forall2 Qeq b (comb3 p f g sb tb) ->
  Forall2 Qeq a' (comb3 p f g sa' ta') -> Forall2 Qeq b' (comb3 p f g sb' tb') ->
  (vdot (vsub a b) (vsub a' b') == (sa - sb) * (sa' - sb') * G11 + ((sa - sb) * (ta' - tb') + (ta - tb) * (sa' - sb')) * G12 + (ta - tb) * (ta' - tb') * G22)%Q.
Proof.
  intros La Lb La' Lb' _ _ _ _ Ha Hb Ha' Hb'. destruct Pp as [P|P]; rewrite P in *.
  - coords2 p; coords2 f; coords2 g; coords2 a; coords2 b; coords2 a'; coords2 b'.
    apply F2Q2 in Ha, Hb, Ha', Hb'. destruct Ha as [A1 A2], Hb as [B1 B2], Ha' as [A1' A2'], Hb' as [B1' B2'].
    cbn in *. rewrite A1, A2, B1, B2, A1', A2', B1', B2'. ring.
  - coords3 p; coords3 f; coords3 g; coords3 a; coords3 b; coords3 a'; coords3 b'.
    apply F2Q3 in Ha, Hb, Ha', Hb'. destruct Ha as (A1 & A2 & A3), Hb as (B1 & B2 & B3), Ha' as (A1' & A2' & A3'), Hb' as (B1' & B2' & B3').
    cbn in *. rewrite A1, A2, A3, B1, B2, B3, A1', A2', A3', B1', B2', B3'. ring.
Qed.
Lemma comb3_length a b : length (comb3 p f g a b) = length p.
Proof. unfold comb3. rewrite map_length, !combine_length, Lf, Lg. lia. Qed.
Lemma lens : length c0 = length p /\ length c1 = length p /\ length c2 = length p /\ length c3 = length p.
Proof. apply F2_len in R0, R1, R2, R3. rewrite comb3_length in *. auto. Qed.
Notation l := (quadList c0 c1 c2 c3).
Lemma proj_aff i : i < 4 ->
  (fst (at4 l i) == (s 1 - s 0) * (s i - s 0) * G11 + ((s 1 - s 0) * (t i - t 0) + (t 1 - t 0) * (s i - s 0)) * G12 + (t 1 - t 0) * (t i - t 0) * G22)%Q /\
  (snd (at4 l i) == (s 2 - s 0) * (s i - s 0) * G11 + ((s 2 - s 0) * (t i - t 0) + (t 2 - t 0) * (s i - s 0)) * G12 + (t 2 - t 0) * (t i - t 0) * G22)%Q.
Proof.
  intros Hi. destruct lens as (L0 & L1 & L2 & L3).
  destruct i as [|[|[|[|i]]]]; [| | | |lia]; cbn [at4 quadList map nth project fst snd]; split; eapply vdot_comb; eauto.
Qed.
Lemma turn_aff i j k : i < 4 -> j < 4 -> k < 4 -> (turn l i j k == ori s t 0 1 2 * ori s t i j k * gram p f g)%Q.
Proof.
  intros Hi Hj Hk. destruct (proj_aff i Hi) as [Xi Yi], (proj_aff j Hj) as [Xj Yj], (proj_aff k Hk) as [Xk Yk].
  unfold turn. rewrite Xi, Yi, Xj, Yj, Xk, Yk. unfold ori, gram. ring.
Qed.
Lemma planar_aff tol : (0 <= tol)%Q -> planarCheck tol c0 c1 c2 c3 = true.
Proof.
  intros Ht. unfold planarCheck. destruct (Nat.eqb_spec (length c0) 3) as [E|]; [|reflexivity].
  destruct lens as (L0 & L1 & L2 & L3). apply Qle_bool_iff.
  assert (Z : (vdot (vcross (vsub c1 c0) (vsub c2 c0)) (vsub c3 c0) - 0 == 0)%Q).
  { assert (P3 : length p = 3) by lia. rewrite P3 in *. pose proof R0 as H0. pose proof R1 as H1. pose proof R2 as H2. pose proof R3 as H3.
    clear R0 R1 R2 R3 Pp. coords3 p; coords3 f; coords3 g; coords3 c0; coords3 c1; coords3 c2; coords3 c3.
    apply F2Q3 in H0, H1, H2, H3. destruct H0 as (A1 & A2 & A3), H1 as (B1 & B2 & B3), H2 as (C1 & C2 & C3), H3 as (D1 & D2 & D3).
    cbn in *. rewrite A1, A2, A3, B1, B2, B3, C1, C2, C3, D1, D2, D3. ring. }
  destruct (qabs_spec (vdot (vcross (vsub c1 c0) (vsub c2 c0)) (vsub c3 c0) - 0)) as [[? ->]|[? ->]]; lra.
Qed.
End Aff.
