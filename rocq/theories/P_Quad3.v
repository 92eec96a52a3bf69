From Coq Require Import ZArith QArith Bool List Arith Lia Lqa Permutation.
From Verif Require Import M_Mesh M_Prep M_Box M_Quad S_Mesh S_Quad P_Prep P_Box P_Quad P_Quad2.
Import ListNotations.
Open Scope nat_scope.

Lemma eqCoords_same a b : length a = length b -> same_point a b -> eqCoords a b = true.
Proof.
  intros _ H. unfold eqCoords. induction H as [|x y l r E F IH]; cbn; [reflexivity|].
  apply Qeq_bool_iff in E. cbn in E. rewrite E. exact IH.
Qed.
Lemma coordsAt_len m i : wf_mesh m -> i < nVertices m -> length (coordsAt m i) = m_dim m.
Proof.
  intros W H. unfold coordsAt. destruct (nth_error (m_verts m) i) as [v|] eqn:E.
  - apply (wm_coords m W). eapply nth_error_In; exact E.
  - apply nth_error_None in E. unfold nVertices in H. lia.
Qed.
(** four indices below four without repetition *)
Lemma order_perm a b c d (ids : list nat) : NoDup [a; b; c; d] -> (forall i, In i [a; b; c; d] -> i < 4) -> length ids = 4 ->
  Permutation (map (fun i => nth i ids 0) [a; b; c; d]) ids.
Proof.
  intros N L Li. assert (P : Permutation [a; b; c; d] (seq 0 4)).
  { apply NoDup_Permutation_bis; [exact N|reflexivity|]. intros i Hi. apply in_seq. specialize (L i Hi). lia. }
  transitivity (map (fun i => nth i ids 0) (seq 0 4)); [apply Permutation_map, P|].
  destruct ids as [|? [|? [|? [|? [|? ?]]]]]; try discriminate. reflexivity.
Qed.
(** whatever the check accepts is an arrangement of the four corners *)
Lemma accepted_order tol c0 c1 c2 c3 order : point c0 -> length c1 = length c0 -> length c2 = length c0 -> length c3 = length c0 -> ~ same_point c0 c1 ->
  isConvexQuad tol c0 c1 c2 c3 = Convexity true order -> length order = 4 /\ NoDup order /\ forall i, In i order -> i < 4.
Proof.
  intros P L1 L2 L3 NS H. unfold isConvexQuad in H. destruct (planarCheck tol c0 c1 c2 c3); [|discriminate]. fold (quadList c0 c1 c2 c3) in H.
  pose proof (turns_nonneg c0 c1 c2 c3 P L1 L2 L3) as TN. pose proof (first_apart c0 c1 c2 c3 P L1 L2 L3 NS) as FA. cbn zeta in TN.
  set (l := quadList c0 c1 c2 c3) in *. destruct TN as [HA|(HA & HB & HC & HD)].
  - pose proof (wrap_pos l FA HA) as W. cbn zeta in W. destruct (wrap l (lowest l) 4 (lowest l)) as [o|]; [|discriminate]. injection H as EL ->.
    destruct order as [|a [|b [|c [|d [|e o]]]]]; try discriminate. cbn [expected] in W. rewrite !andb_true_iff in W. destruct W as [[[W1 W2] _] _].
    split; [reflexivity|]. split; [apply uniqueElements_NoDup, W1|apply forallb_lt, W2].
  - destruct (lowest_spec l) as (L4 & _). rewrite wrap_tbl in H by exact L4.
    assert (EA : sA l = Eq) by (apply Qeq_alt; exact HA). assert (EB : sB l = Eq) by (apply Qeq_alt; exact HB).
    assert (EC : sC l = Eq) by (apply Qeq_alt; exact HC). assert (ED : sD l = Eq) by (apply Qeq_alt; exact HD).
    rewrite EA, EB, EC, ED in H. destruct (lowest l) as [|[|[|[|k]]]]; [| | | |lia]; vm_compute in H; injection H as <-;
      (split; [reflexivity|]; split; [repeat constructor; cbn; lia|cbn; lia]).
Qed.
(** the triangles made from a quad *)
Lemma quad_ok tol m a b c d m' : wf_mesh m -> setMeshQuad tol m a b c d = QDone m' ->
  exists p q r s, Permutation [p; q; r; s] (map Z.to_nat [a; b; c; d]) /\ NoDup [p; q; r; s] /\
    (forall i, In i [p; q; r; s] -> i < nVertices m) /\
    (sqdist (coordsAt m p) (coordsAt m r) <= sqdist (coordsAt m q) (coordsAt m s))%Q /\
    m_dim m' = m_dim m /\ m_verts m' = m_verts m /\ m_edges m' = m_edges m /\ m_tets m' = m_tets m /\
    exists t1 t2, m_tris m' = m_tris m ++ [t1; t2] /\ Permutation (ids3 t1) [p; q; r] /\ Permutation (ids3 t2) [p; r; s] /\
      (~ collinear (coordsAt m (Z.to_nat a)) (coordsAt m (Z.to_nat b)) (coordsAt m (Z.to_nat c)) ->
       (m_dim m = 2 \/ coplanar (coordsAt m (Z.to_nat a)) (coordsAt m (Z.to_nat b)) (coordsAt m (Z.to_nat c)) (coordsAt m (Z.to_nat d))) ->
       diagonals_meet (coordsAt m p) (coordsAt m q) (coordsAt m r) (coordsAt m s)).
Proof.
  intros W H. unfold setMeshQuad in H.
  destruct (isValidVertexID m a && isValidVertexID m b && isValidVertexID m c && isValidVertexID m d) eqn:V; [|discriminate].
  rewrite !andb_true_iff in V. destruct V as [[[Va Vb] Vc] Vd]. unfold isValidVertexID in Va, Vb, Vc, Vd. rewrite andb_true_iff, Z.leb_le, Z.ltb_lt in Va, Vb, Vc, Vd.
  set (na := Z.to_nat a) in *. set (nb := Z.to_nat b) in *. set (nc := Z.to_nat c) in *. set (nd := Z.to_nat d) in *.
  assert (Na : na < nVertices m) by (unfold na; lia). assert (Nb : nb < nVertices m) by (unfold nb; lia).
  assert (Nc : nc < nVertices m) by (unfold nc; lia). assert (Nd : nd < nVertices m) by (unfold nd; lia).
  unfold addQuad in H. destruct (uniqueElements Nat.eqb [na; nb; nc; nd]) eqn:U1; cbn [negb] in H; [|discriminate].
  destruct (uniqueElements eqCoords (map (coordsAt m) [na; nb; nc; nd])) eqn:U2; cbn [negb] in H; [|discriminate].
  set (c0 := coordsAt m na) in *. set (c1 := coordsAt m nb) in *. set (c2 := coordsAt m nc) in *. set (c3 := coordsAt m nd) in *.
  assert (Lc0 : length c0 = m_dim m) by (apply coordsAt_len; assumption). assert (Lc1 : length c1 = m_dim m) by (apply coordsAt_len; assumption).
  assert (Lc2 : length c2 = m_dim m) by (apply coordsAt_len; assumption). assert (Lc3 : length c3 = m_dim m) by (apply coordsAt_len; assumption).
  assert (P : point c0) by (unfold point; rewrite Lc0; apply (wm_dim m W)).
  assert (NS : ~ same_point c0 c1).
  { intros E. apply eqCoords_same in E; [|congruence]. cbn in U2. fold c0 c1 in U2. rewrite E in U2. discriminate. }
  destruct (isConvexQuad tol c0 c1 c2 c3) as [| |conv order] eqn:IC; try discriminate. destruct conv; [|discriminate].
  destruct (accepted_order tol c0 c1 c2 c3 order P) as (OL & ON & OB); auto; try congruence.
  destruct order as [|i [|j [|k [|o [|? ?]]]]]; try discriminate. clear OL.
  pose proof (order_perm i j k o [na; nb; nc; nd] ON OB eq_refl) as OP. cbn [map] in OP, H.
  set (q0 := nth i [na; nb; nc; nd] 0) in *. set (q1 := nth j [na; nb; nc; nd] 0) in *.
  set (q2 := nth k [na; nb; nc; nd] 0) in *. set (q3 := nth o [na; nb; nc; nd] 0) in *.
  assert (QN : NoDup [q0; q1; q2; q3]) by (apply (Permutation_NoDup (Permutation_sym OP)), uniqueElements_NoDup, U1).
  assert (QB : forall x, In x [q0; q1; q2; q3] -> x < nVertices m).
  { intros x Hx. apply (Permutation_in _ OP) in Hx. cbn in Hx. lia. }
  assert (Meet : ~ collinear c0 c1 c2 -> (m_dim m = 2 \/ coplanar c0 c1 c2 c3) ->
    diagonals_meet (coordsAt m q0) (coordsAt m q1) (coordsAt m q2) (coordsAt m q3)).
  { intros NC CP. destruct (accepted_ok tol c0 c1 c2 c3 [i; j; k; o] P) as (a' & b' & c' & d' & E & _ & _ & M); [congruence|congruence|congruence|exact NC|destruct CP; [left; congruence|right; assumption]|exact IC|].
    injection E as -> -> -> ->.
    assert (X : forall x, In x [a'; b'; c'; d'] -> nth4 c0 c1 c2 c3 x = coordsAt m (nth x [na; nb; nc; nd] 0)).
    { intros x Hx. specialize (OB x Hx). destruct x as [|[|[|[|x]]]]; [| | | |lia]; reflexivity. }
    rewrite !X in M by (cbn; auto). exact M. }
  injection H as <-. unfold splitQuad.
  destruct (Qle_bool (sqdist (coordsAt m q0) (coordsAt m q2)) (sqdist (coordsAt m q1) (coordsAt m q3))) eqn:D.
  - apply Qle_bool_iff in D. exists q0, q1, q2, q3. repeat (split; [first [assumption|reflexivity]|]).
    exists (sort3 q0 q2 q1), (sort3 q0 q2 q3). split; [cbn; rewrite <- app_assoc; reflexivity|].
    split; [rewrite (proj1 (sort3_spec _ _ _)); apply perm_skip, perm_swap|]. split; [apply sort3_spec|exact Meet].
  - assert (D' : (sqdist (coordsAt m q1) (coordsAt m q3) <= sqdist (coordsAt m q0) (coordsAt m q2))%Q).
    { apply Qlt_le_weak, qlt_iff. unfold qlt. rewrite D. reflexivity. }
    assert (RP : Permutation [q3; q0; q1; q2] [q0; q1; q2; q3]) by (apply (Permutation_cons_append [q0; q1; q2] q3)).
    assert (Sw : forall x y, (sqdist x y == sqdist y x)%Q).
    { induction x as [|p x IH]; intros [|q y]; try reflexivity. unfold sqdist in *. cbn [combine map fold_right fst snd]. rewrite (IH y). ring. }
    exists q3, q0, q1, q2. split; [rewrite RP; exact OP|]. split; [apply (Permutation_NoDup (Permutation_sym RP)), QN|].
    split; [intros x Hx; apply QB, (Permutation_in _ RP), Hx|]. split; [rewrite (Sw (coordsAt m q3)); exact D'|].
    repeat (split; [reflexivity|]).
    exists (sort3 q1 q3 q0), (sort3 q1 q3 q2).
    split; [cbn; rewrite <- app_assoc; reflexivity|]. split; [rewrite (proj1 (sort3_spec _ _ _)); apply (Permutation_cons_append [q3; q0] q1)|].
    split; [rewrite (proj1 (sort3_spec _ _ _)); apply perm_swap|]. intros NC CP. destruct (Meet NC CP) as (t & u & T1 & U1' & E).
    assert (Al : forall x y t, Forall2 Qeq (along t x y) (along (1 - t) y x)).
    { clear. induction x as [|p x IH]; intros [|q y] t; cbn; constructor; [ring|apply IH]. }
    assert (Tr : forall x y z, Forall2 Qeq x y -> Forall2 Qeq y z -> Forall2 Qeq x z).
    { clear. intros x y z H. revert z. induction H; intros z' H'; inversion H'; subst; constructor; auto. etransitivity; eassumption. }
    assert (Sy : forall x y, Forall2 Qeq x y -> Forall2 Qeq y x).
    { clear. induction 1; constructor; auto. symmetry. assumption. }
    exists (1 - u)%Q, t. split; [lra|]. split; [exact T1|].
    unfold same_point in *. apply (Tr _ (along u (coordsAt m q1) (coordsAt m q3))); [apply Sy, Al|apply Sy, E].
Qed.
Lemma quad_total tol m a b c d : wf_mesh m -> setMeshQuad tol m a b c d <> QUndefined.
Proof.
  intros W H. unfold setMeshQuad in H.
  destruct (isValidVertexID m a && isValidVertexID m b && isValidVertexID m c && isValidVertexID m d) eqn:V; [|discriminate].
  rewrite !andb_true_iff in V. destruct V as [[[Va Vb] Vc] Vd]. unfold isValidVertexID in Va, Vb, Vc, Vd. rewrite andb_true_iff, Z.leb_le, Z.ltb_lt in Va, Vb, Vc, Vd.
  set (na := Z.to_nat a) in *. set (nb := Z.to_nat b) in *. set (nc := Z.to_nat c) in *. set (nd := Z.to_nat d) in *.
  unfold addQuad in H. destruct (uniqueElements Nat.eqb [na; nb; nc; nd]) eqn:U1; cbn [negb] in H; [|discriminate].
  destruct (uniqueElements eqCoords (map (coordsAt m) [na; nb; nc; nd])) eqn:U2; cbn [negb] in H; [|discriminate].
  set (c0 := coordsAt m na) in *. set (c1 := coordsAt m nb) in *. set (c2 := coordsAt m nc) in *. set (c3 := coordsAt m nd) in *.
  assert (Lc0 : length c0 = m_dim m) by (apply coordsAt_len; [assumption|unfold na; lia]). assert (Lc1 : length c1 = m_dim m) by (apply coordsAt_len; [assumption|unfold nb; lia]).
  assert (Lc2 : length c2 = m_dim m) by (apply coordsAt_len; [assumption|unfold nc; lia]). assert (Lc3 : length c3 = m_dim m) by (apply coordsAt_len; [assumption|unfold nd; lia]).
  assert (P : point c0) by (unfold point; rewrite Lc0; apply (wm_dim m W)).
  assert (NS : ~ same_point c0 c1).
  { intros E. apply eqCoords_same in E; [|congruence]. cbn in U2. fold c0 c1 in U2. rewrite E in U2. discriminate. }
  pose proof (convex_total tol c0 c1 c2 c3 P) as CT.
  destruct (isConvexQuad tol c0 c1 c2 c3) as [| |conv order] eqn:IC; [discriminate|apply CT; auto; congruence|].
  destruct conv; [|discriminate].
  destruct (accepted_order tol c0 c1 c2 c3 order P) as (OL & ON & OB); auto; try congruence.
  destruct order as [|i [|j [|k [|o [|? ?]]]]]; try discriminate.
Qed.
Lemma eqCoords_true a b : length a = length b -> eqCoords a b = true -> same_point a b.
Proof.
  unfold eqCoords, same_point. revert b. induction a as [|x a IH]; intros [|y b] L; try discriminate; [constructor|].
  cbn. intros H. apply andb_prop in H. destruct H as [H1 H2]. constructor; [apply Qeq_bool_iff, H1|apply IH; [injection L as L; exact L|exact H2]].
Qed.
Lemma quad_proper tol m a b c d : (0 <= tol)%Q -> wf_mesh m -> (forall i, In i [a; b; c; d] -> (0 <= i < Z.of_nat (nVertices m))%Z) ->
  NoDup [a; b; c; d] ->
  (forall i j, In i [a; b; c; d] -> In j [a; b; c; d] -> i <> j -> ~ same_point (coordsAt m (Z.to_nat i)) (coordsAt m (Z.to_nat j))) ->
  (exists p q r s, Permutation [p; q; r; s] [a; b; c; d] /\
     diagonals_cross (coordsAt m (Z.to_nat p)) (coordsAt m (Z.to_nat q)) (coordsAt m (Z.to_nat r)) (coordsAt m (Z.to_nat s))) ->
  exists m', setMeshQuad tol m a b c d = QDone m'.
Proof.
  intros Ht W V ND NS (p & q & r & s & Pm & X).
  assert (Lc : forall i, In i [a; b; c; d] -> length (coordsAt m (Z.to_nat i)) = m_dim m).
  { intros i Hi. specialize (V i Hi). apply coordsAt_len; [exact W|lia]. }
  assert (P : point (coordsAt m (Z.to_nat a))) by (unfold point; rewrite Lc by (left; reflexivity); apply (wm_dim m W)).
  pose proof (quad_total tol m a b c d W) as QT. unfold setMeshQuad in *.
  assert (Vv : forall i, In i [a; b; c; d] -> isValidVertexID m i = true).
  { intros i Hi. specialize (V i Hi). unfold isValidVertexID. apply andb_true_intro. rewrite Z.leb_le, Z.ltb_lt. lia. }
  rewrite !Vv in * by (cbn; auto). cbn [andb] in *. unfold addQuad in *.
  assert (NE : forall i j, In i [a; b; c; d] -> In j [a; b; c; d] -> i <> j -> (Z.to_nat i =? Z.to_nat j) = false).
  { intros i j Hi Hj D. apply Nat.eqb_neq. apply V in Hi. apply V in Hj. lia. }
  assert (NC : forall i j, In i [a; b; c; d] -> In j [a; b; c; d] -> i <> j -> eqCoords (coordsAt m (Z.to_nat i)) (coordsAt m (Z.to_nat j)) = false).
  { intros i j Hi Hj D. destruct (eqCoords _ _) eqn:E; [|reflexivity]. exfalso. apply (NS i j Hi Hj D). apply eqCoords_true; [rewrite !Lc; auto|exact E]. }
  assert (D6 : a <> b /\ a <> c /\ a <> d /\ b <> c /\ b <> d /\ c <> d).
  { inversion ND as [|? ? N1 ND1]; subst. inversion ND1 as [|? ? N2 ND2]; subst. inversion ND2 as [|? ? N3 ND3]; subst. cbn in N1, N2, N3.
    repeat split; intros ->; tauto. }
  destruct D6 as (D1 & D2 & D3 & D4 & D5 & D6).
  assert (Ua : uniqueElements Nat.eqb [Z.to_nat a; Z.to_nat b; Z.to_nat c; Z.to_nat d] = true).
  { cbn [uniqueElements existsb]. rewrite (NE a b), (NE a c), (NE a d), (NE b c), (NE b d), (NE c d) by (cbn; auto). reflexivity. }
  assert (Uc : uniqueElements eqCoords (map (coordsAt m) [Z.to_nat a; Z.to_nat b; Z.to_nat c; Z.to_nat d]) = true).
  { cbn [uniqueElements existsb map]. rewrite (NC a b), (NC a c), (NC a d), (NC b c), (NC b d), (NC c d) by (cbn; auto). reflexivity. }
  rewrite Ua, Uc in *. cbn [negb] in *.
  assert (Px : exists i j k l, Permutation [i; j; k; l] [0; 1; 2; 3] /\ p = nth i [a; b; c; d] 0%Z /\ q = nth j [a; b; c; d] 0%Z /\ r = nth k [a; b; c; d] 0%Z /\ s = nth l [a; b; c; d] 0%Z).
  { assert (Ix : forall x, In x [a; b; c; d] -> exists n, n < 4 /\ x = nth n [a; b; c; d] 0%Z).
    { intros x [<-|[<-|[<-|[<-|[]]]]]; [exists 0|exists 1|exists 2|exists 3]; split; auto; lia. }
    destruct (Ix p) as (i & Hi & Ei); [apply (Permutation_in _ Pm); cbn; auto|]. destruct (Ix q) as (j & Hj & Ej); [apply (Permutation_in _ Pm); cbn; auto|].
    destruct (Ix r) as (k & Hk & Ek); [apply (Permutation_in _ Pm); cbn; auto|]. destruct (Ix s) as (l & Hl & El); [apply (Permutation_in _ Pm); cbn; auto|].
    exists i, j, k, l. split; [|auto]. apply NoDup_Permutation_bis; [|cbn; lia|intros n Hn; cbn in Hn |- *; lia].
    apply (Permutation_NoDup (Permutation_sym Pm)) in ND. apply (NoDup_map_inv (fun n => nth n [a; b; c; d] 0%Z)). cbn [map]. rewrite <- Ei, <- Ej, <- Ek, <- El. exact ND. }
  destruct Px as (i & j & k & l & Pi & Ei & Ej & Ek & El).
  assert (N4 : forall n, In n [i; j; k; l] -> nth4 (coordsAt m (Z.to_nat a)) (coordsAt m (Z.to_nat b)) (coordsAt m (Z.to_nat c)) (coordsAt m (Z.to_nat d)) n = coordsAt m (Z.to_nat (nth n [a; b; c; d] 0%Z))).
  { intros n Hn. apply (Permutation_in _ Pi) in Hn. destruct Hn as [<-|[<-|[<-|[<-|[]]]]]; reflexivity. }
  subst p q r s. rewrite <- !N4 in X by (cbn; auto).
  destruct (proper_ok tol (coordsAt m (Z.to_nat a)) (coordsAt m (Z.to_nat b)) (coordsAt m (Z.to_nat c)) (coordsAt m (Z.to_nat d)) i j k l Ht P ltac:(rewrite !Lc by (cbn; auto); reflexivity) ltac:(rewrite !Lc by (cbn; auto); reflexivity)
             ltac:(rewrite !Lc by (cbn; auto); reflexivity) (NS a b ltac:(cbn; auto) ltac:(cbn; auto) D1) Pi X) as (order & E).
  rewrite E in *. destruct (map _ order) as [|? [|? [|? [|? [|? ?]]]]]; eauto; exfalso; apply QT; reflexivity.
Qed.
