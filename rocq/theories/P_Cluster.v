(** Clusterings: proofs. *)
From Coq Require Import ZArith QArith Qabs Qminmax Qround Bool List Arith Lia Lqa Qfield.
From Verif Require Import M_Quad S_Mesh S_Map P_Bary P_Map M_Cluster S_Cluster.
Import ListNotations.
Open Scope nat_scope.

Lemma dist2_sqdist : forall n a b, length a = n -> length b = n -> (dist2 a b == sqdist n a b)%Q.
Proof.
  unfold dist2, sqdist. intros n a. revert n. induction a as [|x a IH]; intros n [|y b] LA LB; cbn in LA, LB; subst n; try discriminate; [reflexivity|].
  injection LB as LB. cbn [length combine fold_right fst snd]. rewrite qsum_S. cbn [nth]. rewrite (IH (length a) b eq_refl LB). ring.
Qed.
Lemma sqdist_sym n a b : (sqdist n a b == sqdist n b a)%Q.
Proof. unfold sqdist. apply qsum_ext. intros k _. ring. Qed.
Lemma closerThan_iff n r2 a b : length a = n -> length b = n -> closerThan r2 a b = true <-> (sqdist n a b < r2)%Q.
Proof.
  intros LA LB. unfold closerThan. rewrite negb_true_iff, <- (dist2_sqdist n a b LA LB). split; intros H.
  - apply Qnot_le_lt. intros X. apply Qle_bool_iff in X. congruence.
  - apply not_true_is_false. intros X. apply Qle_bool_iff in X. apply (Qlt_not_le _ _ H X).
Qed.

(** * The bounding box *)
Lemma fold_min : forall l x, (fold_left Qmin l x <= x)%Q /\ (forall y, In y l -> (fold_left Qmin l x <= y)%Q).
Proof.
  induction l as [|a l IH]; intros x; cbn [fold_left]; [split; [apply Qle_refl|intros y []]|]. destruct (IH (Qmin x a)) as (A & B). split.
  - eapply Qle_trans; [exact A|apply Q.le_min_l].
  - intros y [<-|Y]; [eapply Qle_trans; [exact A|apply Q.le_min_r]|apply B, Y].
Qed.
Lemma fold_max : forall l x, (x <= fold_left Qmax l x)%Q /\ (forall y, In y l -> (y <= fold_left Qmax l x)%Q).
Proof.
  induction l as [|a l IH]; intros x; cbn [fold_left]; [split; [apply Qle_refl|intros y []]|]. destruct (IH (Qmax x a)) as (A & B). split.
  - eapply Qle_trans; [apply Q.le_max_l|exact A].
  - intros y [<-|Y]; [eapply Qle_trans; [apply Q.le_max_r|exact A]|apply B, Y].
Qed.
Lemma lower_le d m p : In p m -> (lower d m <= nth d p 0)%Q.
Proof.
  intros H. unfold lower. assert (I : In (nth d p 0%Q) (axis d m)) by (unfold axis; apply in_map_iff; eauto). destruct (axis d m) as [|x r]; [contradiction|].
  destruct (fold_min r x) as (A & B). destruct I as [<-|I]; auto.
Qed.
Lemma upper_ge d m p : In p m -> (nth d p 0 <= upper d m)%Q.
Proof.
  intros H. unfold upper. assert (I : In (nth d p 0%Q) (axis d m)) by (unfold axis; apply in_map_iff; eauto). destruct (axis d m) as [|x r]; [contradiction|].
  destruct (fold_max r x) as (A & B). destruct I as [<-|I]; auto.
Qed.
Lemma inBox_bounds dim m x d : inBox dim m x -> d < dim -> (lower d m <= nth d x 0 <= upper d m)%Q.
Proof.
  intros (_ & H) D. destruct (H d D) as (p & q & P & Q0 & A & B). split; [eapply Qle_trans; [apply (lower_le d m p P)|exact A]|eapply Qle_trans; [exact B|apply (upper_ge d m q Q0)]].
Qed.
Lemma edge_nonneg d m : m <> [] -> (0 <= edgeLength d m)%Q.
Proof. intros NE. destruct m as [|p m]; [congruence|]. unfold edgeLength. assert (A := lower_le d (p :: m) p (or_introl eq_refl)). assert (B := upper_ge d (p :: m) p (or_introl eq_refl)). lra. Qed.
Lemma longest_ge dim m d : d < dim -> (edgeLength d m <= longestEdge dim m)%Q.
Proof.
  intros D. unfold longestEdge. assert (I : In d (seq 0 dim)) by (apply in_seq; lia). revert I. generalize (seq 0 dim). induction l as [|a l IH]; intros []; cbn [fold_right].
  - subst a. apply Q.le_max_l.
  - eapply Qle_trans; [apply IH; assumption|apply Q.le_max_r].
Qed.

(** * One axis *)
Lemma divisions_pos a b : 1 <= divisions a b.
Proof. unfold divisions. lia. Qed.
Lemma divisions_enough a b : (0 <= a)%Q -> (0 < b)%Q -> let n := inject_Z (Z.of_nat (divisions a b)) in (a <= n * n * b)%Q.
Proof.
  intros A B n. unfold n, divisions. set (c := Qceiling (a / b)). rewrite Z2Nat.id by lia. assert (C : (a / b <= inject_Z c)%Q) by apply Qle_ceiling.
  assert (S : (c <= Z.max 1 (Z.sqrt_up c) * Z.max 1 (Z.sqrt_up c))%Z).
  { destruct (Z_lt_le_dec 0 c) as [P|P]; [|nia]. assert (X := Z.sqrt_up_spec c P). nia. }
  rewrite <- inject_Z_mult. assert (D : (a / b <= inject_Z (Z.max 1 (Z.sqrt_up c) * Z.max 1 (Z.sqrt_up c)))%Q) by (eapply Qle_trans; [exact C|rewrite <- Zle_Qle; exact S]).
  apply (Qmult_le_r _ _ b B) in D. setoid_replace (a / b * b)%Q with a in D by (field; lra). exact D.
Qed.
Lemma floor_unique q z : (inject_Z z <= q)%Q -> (q < inject_Z z + 1)%Q -> Qfloor q = z.
Proof.
  intros A B. assert (C := Qfloor_le q). assert (D := Qlt_floor q). rewrite inject_Z_plus in D. change (inject_Z 1) with 1%Q in D.
  assert (X : (inject_Z (Qfloor q) < inject_Z (z + 1))%Q) by (rewrite inject_Z_plus; change (inject_Z 1) with 1%Q; lra).
  assert (Y : (inject_Z z < inject_Z (Qfloor q + 1))%Q) by (rewrite inject_Z_plus; change (inject_Z 1) with 1%Q; lra).
  rewrite <- Zlt_Qlt in X, Y. lia.
Qed.
Section Axis.
Variables (m : list point) (maximum2 : Q) (d : nat).
Hypothesis NE : m <> [].
Hypothesis MP : (0 < maximum2)%Q.
Let n := divisions (edgeLength d m * edgeLength d m) maximum2.
Let N := inject_Z (Z.of_nat n).
Lemma N_pos : (1 <= N)%Q.
Proof. unfold N. assert (A := divisions_pos (edgeLength d m * edgeLength d m) maximum2). fold n in A. change 1%Q with (inject_Z 1). rewrite <- Zle_Qle. lia. Qed.
Lemma distance_nonneg : (0 <= axisDistance m maximum2 d)%Q.
Proof.
  unfold axisDistance. fold n. fold N. assert (A := N_pos). apply Qle_shift_div_l; [lra|]. rewrite Qmult_0_l. apply edge_nonneg, NE.
Qed.
Lemma distance_times : (axisDistance m maximum2 d * N == edgeLength d m)%Q.
Proof. unfold axisDistance. fold n. fold N. assert (A := N_pos). field. lra. Qed.
Lemma distance_small : (axisDistance m maximum2 d * axisDistance m maximum2 d <= maximum2)%Q.
Proof.
  assert (E := edge_nonneg d m NE). assert (A := divisions_enough (edgeLength d m * edgeLength d m) maximum2 ltac:(nra) MP). cbv zeta in A. fold n in A. fold N in A.
  assert (B := N_pos). assert (T := distance_times). set (x := axisDistance m maximum2 d) in *.
  assert (C : (x * x * (N * N) <= maximum2 * (N * N))%Q) by (setoid_replace (x * x * (N * N))%Q with ((x * N) * (x * N))%Q by ring; rewrite T; lra).
  apply (proj1 (Qmult_le_r (x * x) maximum2 (N * N)%Q ltac:(nra))). exact C.
Qed.
(** each coordinate in the box is at most half a distance away from that of a center *)
Lemma axis_covers x : (lower d m <= x <= upper d m)%Q ->
  exists c, In c (axisCenters false m maximum2 d) /\ ((c - x) * (c - x) <= maximum2 / 4)%Q.
Proof.
  intros (X0 & X1). set (D := axisDistance m maximum2 d). assert (D0 := distance_nonneg). fold D in D0. assert (DT := distance_times). fold D in DT. assert (DS := distance_small). fold D in DS. assert (NP := N_pos).
  unfold edgeLength in DT. assert (half : forall c, (- ((1 # 2) * D) <= c - x <= (1 # 2) * D)%Q -> ((c - x) * (c - x) <= maximum2 / 4)%Q).
  { intros c H. setoid_replace (maximum2 / 4)%Q with (maximum2 * (1 # 4))%Q by field. nra. }
  unfold axisCenters, localCount, localStart. fold D. destruct (Qle_bool D 0) eqn:Z.
  - apply Qle_bool_iff in Z. exists (axisStart false m maximum2 d + inject_Z (Z.of_nat 0) * D)%Q. split; [left; reflexivity|]. apply half. unfold axisStart. fold D. cbn [Z.of_nat]. change (inject_Z 0) with 0%Q. assert (D == 0)%Q by lra. nra.
  - assert (DP : (0 < D)%Q). { apply Qnot_le_lt. intros H. apply Qle_bool_iff in H. congruence. }
    set (st := axisStart false m maximum2 d).
    assert (ST : (st == lower d m + (1 # 2) * D)%Q) by (unfold st, axisStart; fold D; reflexivity).
    assert (CE : Qceiling ((lower d m - st) / D - clusterEps) = 0%Z).
    { rewrite (Qceiling_comp _ (- (1 # 2) - clusterEps)%Q); [vm_compute; reflexivity|]. rewrite ST. field. lra. }
    rewrite CE. set (st' := (st + inject_Z 0 * D)%Q). assert (ST' : (st' == lower d m + (1 # 2) * D)%Q) by (unfold st'; rewrite ST; change (inject_Z 0) with 0%Q; ring).
    assert (FL : Qfloor ((upper d m - st') / D + clusterEps) = (Z.of_nat n - 1)%Z).
    { assert (E : ((upper d m - st') / D + clusterEps == N - (1 # 2) + clusterEps)%Q). { rewrite ST'. setoid_replace (upper d m) with (lower d m + D * N)%Q by (rewrite DT; ring). field. lra. }
      rewrite (Qfloor_comp _ _ E). apply floor_unique; unfold Zminus; rewrite inject_Z_plus; fold N; change (inject_Z (- (1))) with (-(1))%Q; assert (0 < clusterEps)%Q by reflexivity; assert (clusterEps < 1 # 2)%Q by reflexivity; set (eps := clusterEps) in *; lra. }
    rewrite FL. replace (Z.to_nat (1 + (Z.of_nat n - 1))) with n by lia.
    set (k0 := Qfloor ((x - lower d m) / D)). assert (K1 := Qfloor_le ((x - lower d m) / D)). assert (K2 := Qlt_floor ((x - lower d m) / D)). fold k0 in K1, K2. rewrite inject_Z_plus in K2. change (inject_Z 1) with 1%Q in K2.
    set (y := ((x - lower d m) / D)%Q) in *. assert (Y : (x == lower d m + y * D)%Q) by (unfold y; field; lra).
    assert (Y0 : (0 <= y)%Q) by (unfold y; apply Qle_shift_div_l; lra). assert (Y1 : (y <= N)%Q) by (unfold y; apply Qle_shift_div_r; lra).
    assert (KN : (0 <= k0)%Z). { assert (inject_Z (-1) < inject_Z k0)%Q by (change (inject_Z (-1)) with (-(1))%Q; lra). rewrite <- Zlt_Qlt in H. lia. }
    destruct (Z_lt_le_dec k0 (Z.of_nat n)) as [KL|KL].
    + exists (st' + inject_Z (Z.of_nat (Z.to_nat k0)) * D)%Q. split; [apply in_map_iff; exists (Z.to_nat k0); split; [reflexivity|apply in_seq; lia]|]. apply half. rewrite Z2Nat.id by exact KN. rewrite ST', Y.
      set (q := inject_Z k0) in *. split; nra.
    + assert (KQ : (N <= inject_Z k0)%Q) by (unfold N; rewrite <- Zle_Qle; exact KL).
      assert (NN : 1 <= n) by (unfold n; apply divisions_pos).
      exists (st' + inject_Z (Z.of_nat (n - 1)) * D)%Q. split; [apply in_map_iff; exists (n - 1); split; [reflexivity|apply in_seq; lia]|]. apply half.
      rewrite Nat2Z.inj_sub by exact NN. unfold Zminus. rewrite inject_Z_plus. fold N. change (inject_Z (- Z.of_nat 1)) with (-(1))%Q. rewrite ST', Y. assert (y == N)%Q by lra. rewrite H. split; nra.
Qed.
End Axis.

(** * The grid *)
Lemma two_length A B (P : A -> B -> Prop) l l' : Forall2 P l l' -> length l = length l'.
Proof. induction 1; cbn; congruence. Qed.
Lemma in_grid : forall axes p, In p (grid axes) <-> Forall2 (fun x a => In x a) p axes.
Proof.
  induction axes as [|a r IH]; intros p; cbn [grid]; split; intros H.
  - destruct H as [<-|[]]. constructor.
  - inversion H. left. reflexivity.
  - apply in_flat_map in H. destruct H as (x & X & H). apply in_map_iff in H. destruct H as (q & <- & H). constructor; [exact X|apply IH, H].
  - inversion H as [|x a' q r' X Q0]. subst. apply in_flat_map. exists x. split; [exact X|]. apply in_map. apply IH, Q0.
Qed.
Lemma Forall2_map_seq A (f : nat -> list A) (P : nat -> A -> Prop) : forall n s, (forall d, s <= d < s + n -> exists c, In c (f d) /\ P d c) ->
  exists l, Forall2 (fun x a => In x a) l (map f (seq s n)) /\ forall d, d < n -> forall def, P (s + d) (nth d l def).
Proof.
  induction n as [|n IH]; intros s H; cbn [seq map].
  - exists []. split; [constructor|]. intros d D. lia.
  - destruct (H s ltac:(lia)) as (c & C & PC). destruct (IH (S s)) as (l & L & PL); [intros d D; apply H; lia|].
    exists (c :: l). split; [constructor; assumption|]. intros [|d] D def; cbn [nth]; [rewrite Nat.add_0_r; exact PC|]. replace (s + S d) with (S s + d) by lia. apply PL. lia.
Qed.
Lemma grid_covers dim m maximum2 x : m <> [] -> (0 < maximum2)%Q -> inBox dim m x -> (forall p, In p m -> length p = dim) ->
  exists c, In c (grid (map (axisCenters false m maximum2) (seq 0 dim))) /\ length c = dim /\
  (sqdist dim c x <= inject_Z (Z.of_nat dim) * (maximum2 / 4))%Q.
Proof.
  intros NE MP B LM. destruct (Forall2_map_seq Q (axisCenters false m maximum2) (fun d c => ((c - nth d x 0) * (c - nth d x 0) <= maximum2 / 4)%Q) dim 0) as (c & C & P).
  - intros d D. apply axis_covers; auto. apply (inBox_bounds dim); auto. lia.
  - exists c. split; [apply in_grid, C|]. split.
    + assert (L := two_length _ _ _ _ _ C). rewrite map_length, seq_length in L. exact L.
    + unfold sqdist. apply Qle_trans with (qsum dim (fun _ => (maximum2 / 4)%Q)).
      * apply qsum_le. intros k K. assert (X := P k K 0%Q). exact X.
      * clear. induction dim as [|n IH]; [change (0 <= 0 * (maximum2 / 4))%Q; lra|]. cbn [qsum]. rewrite Nat2Z.inj_succ. unfold Z.succ. rewrite inject_Z_plus. change (inject_Z 1) with 1%Q. lra.
Qed.
(** centers of the grid have the dimension of the mesh *)
Lemma grid_length dim m maximum2 e c : In c (grid (map (axisCenters e m maximum2) (seq 0 dim))) -> length c = dim.
Proof. intros H. apply in_grid in H. apply two_length in H. rewrite map_length, seq_length in H. exact H. Qed.

(** a vertex near to one in the smaller cluster is in the cluster *)
Lemma stay_close dim o r2 c x y : (0 < o)%Q -> (o < 1)%Q -> (0 < r2)%Q -> (sqdist dim c x <= (1 - o) * (1 - o) * r2)%Q -> (sqdist dim x y < o * o * r2)%Q -> (sqdist dim c y < r2)%Q.
Proof.
  intros O0 O1 R A B.
  assert (K : (sqdist dim c y * (o * (1 - o)) <= o * sqdist dim c x + (1 - o) * sqdist dim x y)%Q).
  { unfold sqdist. rewrite Qmult_comm. rewrite <- !qsum_scale. rewrite <- qsum_plus. apply qsum_le. intros k _.
    set (a := (nth k c 0 - nth k x 0)%Q). set (b := (nth k x 0 - nth k y 0)%Q). setoid_replace (nth k c 0 - nth k y 0)%Q with (a + b)%Q by (unfold a, b; ring).
    assert (S : forall z, (0 <= z * z)%Q) by (intros z; nra). specialize (S (o * a - (1 - o) * b)%Q).
    setoid_replace ((o * a - (1 - o) * b) * (o * a - (1 - o) * b))%Q with (o * (a * a) + (1 - o) * (b * b) - o * (1 - o) * ((a + b) * (a + b)))%Q in S by ring. lra. }
  assert (OO : (0 < o * (1 - o))%Q) by nra. apply (Qmult_lt_r _ _ _ OO). eapply Qle_lt_trans; [exact K|].
  assert (A' : (o * sqdist dim c x <= o * ((1 - o) * (1 - o) * r2))%Q) by nra. assert (B' : ((1 - o) * sqdist dim x y < (1 - o) * (o * o * r2))%Q) by nra.
  setoid_replace (r2 * (o * (1 - o)))%Q with (o * ((1 - o) * (1 - o) * r2) + (1 - o) * (o * o * r2))%Q by ring. lra.
Qed.

(** * Tags *)
Lemma anyInside_iff dim m c r2 : length c = dim -> (forall p, In p m -> length p = dim) -> isAnyVertexInside m c r2 = true <-> exists y, In y m /\ (sqdist dim c y < r2)%Q.
Proof.
  intros LC LM. unfold isAnyVertexInside. rewrite existsb_exists. split; intros (y & Y & H); exists y; split; auto; apply (closerThan_iff dim r2 c y LC (LM y Y)); exact H.
Qed.
Lemma tagEmpty_keep dim r2 m cs c : (forall p, In p m -> length p = dim) -> length c = dim -> In (Ce c false) cs -> (exists y, In y m /\ (sqdist dim c y < r2)%Q) -> In (Ce c false) (tagEmptyClusters r2 m cs).
Proof.
  intros LM LC H E. unfold tagEmptyClusters. apply in_map_iff. exists (Ce c false). split; [|exact H]. cbn [c_tag c_at]. apply (anyInside_iff dim m c r2 LC LM) in E. rewrite E. reflexivity.
Qed.
Lemma tagEmpty_spec dim r2 m cs c : (forall p, In p m -> length p = dim) -> length c = dim -> In (Ce c false) (tagEmptyClusters r2 m cs) -> In (Ce c false) cs /\ exists y, In y m /\ (sqdist dim c y < r2)%Q.
Proof.
  intros LM LC H. unfold tagEmptyClusters in H. apply in_map_iff in H. destruct H as ([a t] & E & H). cbn [c_tag c_at] in E. destruct t; [discriminate|]. injection E as -> E. apply negb_false_iff in E. split; [exact H|]. apply (anyInside_iff dim m c r2 LC LM), E.
Qed.
Lemma removeTagged_in cs c : In c (removeTagged cs) <-> In (Ce c false) cs.
Proof.
  unfold removeTagged. rewrite in_map_iff. split.
  - intros ([a t] & <- & H). apply filter_In in H. destruct H as (H & T). cbn in T. destruct t; [discriminate|]. exact H.
  - intros H. exists (Ce c false). split; [reflexivity|]. apply filter_In. split; [exact H|reflexivity].
Qed.
Lemma tagAt_in : forall cs id s x, In x (map (fun p => if fst p =? id then Ce (c_at (snd p)) true else snd p) (combine (seq s (length cs)) cs)) -> c_tag x = false -> In x cs.
Proof.
  induction cs as [|c cs IH]; intros id s x H T; cbn [length seq combine map fst snd] in H; [contradiction|]. destruct H as [H|H].
  - destruct (s =? id); [subst x; discriminate|left; exact H].
  - right. eapply IH; eauto.
Qed.
Lemma tagDuplicate_in offsets t2 : forall ids cs x, In x (fold_left (fun cs id => match nth_error cs id with Some c => if negb (c_tag c) && hasNeighborWithin cs id t2 offsets then tagAt cs id else cs | None => cs end) ids cs) -> c_tag x = false -> In x cs.
Proof.
  induction ids as [|i r IH]; intros cs x H T; cbn [fold_left] in H; [exact H|]. apply IH in H; [|exact T]. destruct (nth_error cs i) as [c|]; [|exact H]. destruct (_ && _); [|exact H]. unfold tagAt in H. eapply tagAt_in; eauto.
Qed.

(** * The radius *)
Lemma insertQ_in x l y : In y (insertQ x l) <-> y = x \/ In y l.
Proof.
  induction l as [|a l IH]; cbn [insertQ]; [cbn; intuition|]. destruct (Qle_bool x a); cbn [In]; [intuition|]. rewrite IH. intuition.
Qed.
Lemma sortQ_in l y : In y (sortQ l) <-> In y l.
Proof. induction l as [|a l IH]; cbn [sortQ fold_right]; [reflexivity|]. fold (sortQ l). rewrite insertQ_in, IH. cbn. intuition. Qed.
Lemma insertQ_length x l : length (insertQ x l) = S (length l).
Proof. induction l as [|a l IH]; cbn [insertQ]; [reflexivity|]. destruct (Qle_bool x a); cbn; [reflexivity|rewrite IH; reflexivity]. Qed.
Lemma sortQ_length l : length (sortQ l) = length l.
Proof. induction l as [|a l IH]; cbn [sortQ fold_right]; [reflexivity|]. fold (sortQ l). rewrite insertQ_length, IH. reflexivity. Qed.
Lemma middle_in l : l <> [] -> In (middle l) l.
Proof.
  intros NE. unfold middle. apply sortQ_in. apply nth_In. rewrite sortQ_length. destruct l as [|a l]; [congruence|]. apply Nat.div_lt; cbn; lia.
Qed.
Lemma maxdist_pos (f : nat -> Q) l i : In i l -> (0 < f i)%Q -> (0 < fold_right (fun i x => Qmax (f i) x) 0 l)%Q.
Proof.
  intros I P. induction l as [|a l IH]; [contradiction|]. cbn [fold_right]. destruct I as [->|I]; [eapply Qlt_le_trans; [exact P|apply Q.le_max_l]|eapply Qlt_le_trans; [apply IH, I|apply Q.le_max_r]].
Qed.
Lemma maxdist_nonneg (f : nat -> Q) l : (0 <= fold_right (fun i x => Qmax (f i) x) 0 l)%Q.
Proof. induction l as [|a l IH]; cbn [fold_right]; [apply Qle_refl|eapply Qle_trans; [exact IH|apply Q.le_max_r]]. Qed.
Lemma sqdist_nonneg n a b : (0 <= sqdist n a b)%Q.
Proof. unfold sqdist. apply qsum_nonneg. intros k _. cbv beta. generalize (nth k a 0 - nth k b 0)%Q. intros z. nra. Qed.
Section Radius.
Variable closestVertex : list point -> point -> nat.
Variable closestVertices : list point -> point -> nat -> list nat.
Hypothesis Hs : searchesOk closestVertex closestVertices.
Lemma sampled_pos dim m k p : (forall q, In q m -> length q = dim) -> m <> [] -> k <= length m -> (forall i, i < length m -> sharing dim m i < k) ->
  (0 < sampledRadius closestVertex closestVertices m k p)%Q.
Proof.
  intros LM NE K SH. destruct Hs as (H1 & H2). unfold sampledRadius. set (i := closestVertex m p). assert (I : i < length m) by (apply H1, NE).
  set (s := pointOf m i). destruct (H2 m s k NE) as (ND & LN & BD). rewrite Nat.min_l in LN by exact K.
  assert (LP : forall j, j < length m -> length (pointOf m j) = dim) by (intros j J; apply LM; unfold pointOf; apply nth_In, J).
  destruct (existsb (fun j => negb (Qeq_bool (sqdist dim (nth i m []) (nth j m [])) 0)) (closestVertices m s k)) eqn:EX.
  - apply existsb_exists in EX. destruct EX as (j & J & E). apply (maxdist_pos (fun i => dist2 (pointOf m i) s) _ j J). rewrite (dist2_sqdist dim) by (unfold s; apply LP; auto). rewrite sqdist_sym. unfold s, pointOf.
    apply negb_true_iff in E. assert (X := sqdist_nonneg dim (nth i m []) (nth j m [])). apply Qnot_le_lt. intros Z. assert (Y : (sqdist dim (nth i m []) (nth j m []) == 0)%Q) by (apply Qle_antisym; [exact Z|exact X]). apply Qeq_bool_iff in Y. congruence.
  - exfalso. assert (LE : length (closestVertices m s k) <= sharing dim m i).
    { unfold sharing. apply NoDup_incl_length; [exact ND|]. intros j J. apply filter_In. split; [apply in_seq; specialize (BD j J); lia|].
      destruct (Qeq_bool (sqdist dim (nth i m []) (nth j m [])) 0) eqn:Q0; [exact Q0|]. assert (existsb (fun j => negb (Qeq_bool (sqdist dim (nth i m []) (nth j m [])) 0)) (closestVertices m s k) = true) by (apply existsb_exists; exists j; rewrite Q0; auto). congruence. }
    specialize (SH i I). lia.
Qed.
Lemma radius_pos dim m k : (forall q, In q m -> length q = dim) -> m <> [] -> k <= length m -> (forall i, i < length m -> sharing dim m i < k) ->
  (0 < estimateClusterRadius closestVertex closestVertices dim k m)%Q.
Proof.
  intros LM NE K SH. unfold estimateClusterRadius. set (l := map _ _). assert (I : In (middle l) l) by (apply middle_in; unfold l; discriminate). apply in_map_iff in I. destruct I as (p & E & _).
  rewrite <- E. apply (sampled_pos dim); auto.
Qed.
Lemma radius_nonneg dim m k : (0 <= estimateClusterRadius closestVertex closestVertices dim k m)%Q.
Proof.
  unfold estimateClusterRadius. set (l := map _ _). assert (I : In (middle l) l) by (apply middle_in; unfold l; discriminate). apply in_map_iff in I. destruct I as (p & E & _).
  rewrite <- E. apply maxdist_nonneg.
Qed.
End Radius.
