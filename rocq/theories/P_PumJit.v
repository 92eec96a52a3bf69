(** Exactness of the clusters together; reading and writing just in time. *)
From Coq Require Import List Arith Bool QArith Lia Setoid Morphisms.
From Verif Require Import M_Rbf S_Rbf P_Rbf P_RbfPar P_RbfLin M_Pum S_Pum P_PumLocal P_Pum.
Import ListNotations.
Open Scope Q_scope.

Lemma lsum_plus {A} (f g : A -> Q) l : lsum (fun x => f x + g x) l == lsum f l + lsum g l.
Proof. induction l as [|x l IH]; cbn [lsum]; [ring|]. rewrite IH. ring. Qed.
Lemma sumn_lsum {A} n (f : nat -> A -> Q) l : sumn n (fun k => lsum (f k) l) == lsum (fun x => sumn n (fun k => f k x)) l.
Proof.
  induction l as [|x l IH]; cbn [lsum]; [apply sumn_0; reflexivity|]. rewrite <- IH, <- sumn_plus. reflexivity.
Qed.
Lemma mean ws F X : lsum snd ws == 1 -> (forall p : nat * Q, In p ws -> F (fst p) == X) -> lsum (fun p => snd p * F (fst p)) ws == X.
Proof. intros S H. rewrite (lsum_ext _ (fun p => snd p * X)) by (intros p I; rewrite (H p I); reflexivity). rewrite lsum_mul_r, S. ring. Qed.

Lemma updNth_length {A} i f (l : list A) : length (updNth i f l) = length l.
Proof. revert i. induction l as [|x l IH]; intros [|i]; cbn; auto. Qed.
Lemma nth_updNth {A} i f (l : list A) k d : (k < length l)%nat -> nth k (updNth i f l) d = if (i =? k)%nat then f (nth k l d) else nth k l d.
Proof. revert i k. induction l as [|x l IH]; intros [|i] [|k] H; cbn in *; try lia; try reflexivity. apply IH. lia. Qed.

Section J.
Variable phi omega : Q -> Q.
Hypothesis phi_ext : forall x y, x == y -> phi x == phi y.
Variable ax : axes.
Variable pol : polynomial.
Variable radius margin : Q.
Variable dec : list vertex -> decomposition.
Notation nw := (computeNormalizedWeight omega radius).
Notation mkc := (makeClusters ax pol radius margin dec).
Variable inM centers : list vertex.
Hypothesis pol_ok : pol <> ON.
Hypothesis flat_in : forall w, In w inM -> flat ax w.

(** the clusters of another output mesh *)
Definition reout (out : list vertex) (c : cluster) : cluster := makeCluster ax pol radius margin dec inM out (c_center c).
Lemma mk_reout out1 out2 : mkc inM out2 centers = map (reout out2) (mkc inM out1 centers).
Proof.
  unfold makeClusters. induction centers as [|c r IH]; [reflexivity|]. cbn [map filter]. cbn [makeCluster c_in].
  destruct (insideBox inM c radius); cbn [map]; rewrite IH; reflexivity.
Qed.
Lemma nth_reout out1 out2 k : (k < length (mkc inM out1 centers))%nat -> nth k (mkc inM out2 centers) noCluster = reout out2 (nth k (mkc inM out1 centers) noCluster).
Proof.
  intros H. rewrite (mk_reout out1 out2). rewrite (nth_indep _ noCluster (reout out2 noCluster)) by (rewrite map_length; exact H). apply map_nth.
Qed.
Lemma length_reout out1 out2 : length (mkc inM out2 centers) = length (mkc inM out1 centers).
Proof. rewrite (mk_reout out1 out2). apply map_length. Qed.
Lemma nw_reout out1 out2 y : nw (mkc inM out2 centers) y = nw (mkc inM out1 centers) y.
Proof.
  unfold computeNormalizedWeight. rewrite (length_reout out1 out2).
  assert (forall k, In k (seq 0 (length (mkc inM out1 centers))) -> c_center (nth k (mkc inM out2 centers) noCluster) = c_center (nth k (mkc inM out1 centers) noCluster)) as C.
  { intros k H. apply in_seq in H. rewrite (nth_reout out1 out2) by lia. reflexivity. }
  assert (forall A B (f g : A -> B) l, (forall x, In x l -> f x = g x) -> map f l = map g l) as ME by (intros; apply map_ext_in; assumption).
  assert (forall (f g : nat -> bool) l, (forall x, In x l -> f x = g x) -> filter f l = filter g l) as FE by (intros; apply filter_ext_in; assumption).
  rewrite (FE _ (fun k => closer y (c_center (nth k (mkc inM out1 centers) noCluster)) radius)) by (intros k H; rewrite C by exact H; reflexivity).
  set (ids := filter _ _). assert (forall k, In k ids -> c_center (nth k (mkc inM out2 centers) noCluster) = c_center (nth k (mkc inM out1 centers) noCluster)) as C2.
  { intros k H. apply C. unfold ids in H. apply filter_In in H. apply H. }
  rewrite (ME _ _ (fun k => computeWeight omega (nth k (mkc inM out2 centers) noCluster) y) (fun k => computeWeight omega (nth k (mkc inM out1 centers) noCluster) y)); [reflexivity|].
  intros k H. unfold computeWeight. rewrite C2 by exact H. reflexivity.
Qed.

Section C.
Variable outM : list vertex.
Notation cl := (mkc inM outM centers).
Notation cls k := (nth k cl noCluster).
Hypothesis good : forall c, In c cl -> good_solver phi (c_solver c).
Definition valueAt (v : vec) (y : vertex) (k : nat) : Q := interpolateAt phi (c_solver (cls k)) y (computeCacheData (c_solver (cls k)) (map (at_ v) (c_in (cls k)))).
Lemma c_facts k : (k < length cl)%nat -> let c := cls k in good_solver phi (c_solver c) /\ s_axes (c_solver c) = ax /\ s_poly (c_solver c) = pol /\
  s_in (c_solver c) = map (vtx inM) (c_in c) /\ (forall i, In i (c_in c) <-> (i < length inM)%nat /\ closer (c_center c) (vtx inM i) radius = true) /\
  (forall w, In w (s_in (c_solver c)) -> flat ax w).
Proof.
  intros H c. assert (In c cl) as I by (apply nth_In; exact H). pose proof (mk_in ax pol radius margin dec inM outM centers c I) as E. split; [apply good; exact I|].
  rewrite E. cbn [makeCluster c_solver solverFor s_axes s_poly s_in c_in c_center]. split; [reflexivity|]. split; [reflexivity|]. split; [reflexivity|]. split; [intros i; apply insideBox_in|].
  intros w W. apply in_map_iff in W. destruct W as (i & <- & W). apply insideBox_in in W. apply flat_in, nth_In, W.
Qed.
Lemma valueAt_exact v y k i : (k < length cl)%nat -> closer y (c_center (cls k)) radius = true -> flat ax y -> (i < length inM)%nat ->
  same_place ax y (vtx inM i) -> valueAt v y k == at_ v i.
Proof.
  intros H C Fy Hi SP. destruct (c_facts k H) as (G & EA & EP & EI & MI & FI). cbn zeta in *.
  assert (NoDup ax /\ forall d, In d ax -> (d < 3)%nat) as (ND & H3) by (rewrite <- EA; destruct G as (_ & _ & _ & G2 & _ & G4); split; assumption).
  assert (In i (c_in (cls k))) as I.
  { apply MI. split; [exact Hi|]. rewrite closer_sym. apply closer_iff. apply closer_iff in C. rewrite <- sqdiff_distance in C. rewrite <- sqdiff_distance.
    assert (same_place all3 y (vtx inM i)) as S3.
    { intros d Hd. assert (d < 3)%nat as D3 by (cbn in Hd; lia). destruct (in_dec Nat.eq_dec d ax) as [J|J]; [apply SP; exact J|]. rewrite (Fy d D3 J), (flat_in (vtx inM i) (nth_In _ _ Hi) d D3 J). reflexivity. }
    rewrite <- (sqdiff_place all3 y (vtx inM i) _ S3). exact C. }
  destruct (In_nth _ _ 0%nat I) as (j & Hj & EJ). unfold valueAt.
  assert (vtx (s_in (c_solver (cls k))) j = vtx inM i) as EV.
  { rewrite EI. unfold vtx at 1. rewrite (nth_indep _ origin (vtx inM 0)) by (rewrite map_length; exact Hj). rewrite map_nth, EJ. reflexivity. }
  rewrite (local_exact phi phi_ext (c_solver (cls k)) (map (at_ v) (c_in (cls k))) y j).
  - rewrite at_sel by exact Hj. rewrite EJ. reflexivity.
  - exact G.
  - congruence.
  - unfold sizeN. rewrite EI, !map_length. reflexivity.
  - unfold sizeN. rewrite EI, map_length. exact Hj.
  - rewrite EA. exact Fy.
  - rewrite EA. exact FI.
  - rewrite EA, EV. exact SP.
Qed.
Lemma valueAt_linear a0 a1 a2 a3 y k : (k < length cl)%nat -> pol = SEPARATE -> depends_only_on (s_local (c_solver (cls k))) a1 a2 a3 -> flat ax y ->
  valueAt (map (linear a0 a1 a2 a3) inM) y k == linear a0 a1 a2 a3 y.
Proof.
  intros H ES D Fy. destruct (c_facts k H) as (G & EA & EP & EI & MI & FI). cbn zeta in *. unfold valueAt. apply (local_linear phi phi_ext); try assumption.
  - congruence.
  - unfold sizeN. rewrite EI, !map_length. reflexivity.
  - intros j Hj. unfold sizeN in Hj. rewrite EI, map_length in Hj. rewrite at_sel by exact Hj.
    rewrite EI. unfold vtx at 1. rewrite (nth_indep (map (vtx inM) _) origin (vtx inM 0)) by (rewrite map_length; exact Hj). rewrite map_nth.
    assert (nth j (c_in (cls k)) 0%nat < length inM)%nat as L by (apply (MI (nth j (c_in (cls k)) 0%nat)); apply nth_In; exact Hj).
    unfold at_, vtx. erewrite (nth_indep (map _ inM)) by (rewrite map_length; exact L). rewrite map_nth. reflexivity.
  - rewrite EA. exact Fy.
  - rewrite EA. exact FI.
Qed.
Lemma valueAt_reout out2 v y k : (k < length cl)%nat ->
  valueAt v y k = interpolateAt phi (c_solver (nth k (mkc inM out2 centers) noCluster)) y (computeCacheData (c_solver (nth k (mkc inM out2 centers) noCluster)) (map (at_ v) (c_in (nth k (mkc inM out2 centers) noCluster)))).
Proof.
  intros H. unfold valueAt. rewrite (nth_reout outM out2) by exact H. pose proof (mk_in ax pol radius margin dec inM outM centers (cls k) (nth_In _ _ H)) as E.
  rewrite E at 1 2 3. reflexivity.
Qed.

(** reading *)
Lemma nth_updateCache v k : (k < length cl)%nat -> nth k (updateCache cl v) ([], []) = computeCacheData (c_solver (cls k)) (map (at_ v) (c_in (cls k))).
Proof.
  intros H. unfold updateCache. set (f := fun c => computeCacheData (c_solver c) (map (at_ v) (c_in c))).
  rewrite (nth_indep (map f cl) ([], []) (f noCluster)) by (rewrite map_length; exact H). rewrite map_nth. reflexivity.
Qed.
Lemma readAt v y ws : nw cl y = Some ws -> exists x, mapConsistentAt phi omega radius cl (updateCache cl v) y = Some x /\ x == lsum (fun p => snd p * valueAt v y (fst p)) ws.
Proof.
  intros E. unfold mapConsistentAt. rewrite E. eexists. split; [reflexivity|]. rewrite (fold_plus (nat * Q)). rewrite Qplus_0_l. apply lsum_ext. intros p I.
  destruct (nw_spec omega radius cl y ws E) as (_ & MEM & _). rewrite nth_updateCache; [reflexivity|]. apply MEM. apply in_map. exact I.
Qed.

(** writing *)
Definition wk (y : vertex) (k : nat) : Q := match nw cl y with Some ws => match lookup k ws with Some w => w | None => 0 end | None => 0 end.
Definition epsSize (k : nat) : nat := match pol with SEPARATE => S (length (s_local (c_solver (cls k)))) | _ => 0%nat end.
Definition cacheOk (cache : list (vec * vec)) (loads : list (vertex * Q)) : Prop :=
  length cache = length cl /\ forall k, (k < length cl)%nat -> let ca := nth k cache ([], []) in
  length (fst ca) = epsSize k /\ length (snd ca) = sizeN (c_solver (cls k)) /\
  (forall j, (j < sizeN (c_solver (cls k)))%nat -> at_ (snd ca) j == lsum (fun l => wk (fst l) k * snd l * phi (sqdiff all3 (fst l) (vtx (s_in (c_solver (cls k))) j))) loads) /\
  (forall i, (i < epsSize k)%nat -> at_ (fst ca) i == lsum (fun l => wk (fst l) k * snd l * at_ (poly (s_local (c_solver (cls k))) (fst l)) i) loads).
Lemma cache_empty : cacheOk (emptyCache pol cl) [].
Proof.
  split; [apply map_length|]. intros k H ca. unfold ca, emptyCache. set (f := fun c => _).
  rewrite (nth_indep (map f cl) ([], []) (f noCluster)) by (rewrite map_length; exact H). rewrite map_nth. unfold f. cbn [fst snd].
  destruct (c_facts k H) as (G & EA & EP & EI & MI & FI). cbn zeta in *.
  split; [unfold epsSize; destruct pol; try reflexivity; apply repeat_length|]. split; [rewrite repeat_length; unfold sizeN; rewrite EI, map_length; reflexivity|].
  split; intros j _; cbn [lsum]; [rewrite at_repeat; reflexivity|]. destruct pol; [destruct j; reflexivity|destruct j; reflexivity|rewrite at_repeat; reflexivity].
Qed.
Lemma fold_updNth_len (g : nat -> Q -> vec * vec -> vec * vec) ws : forall cache, length (fold_left (fun ca p => updNth (fst p) (g (fst p) (snd p)) ca) ws cache) = length cache.
Proof. induction ws as [|p ws IH]; intros cache; cbn [fold_left]; [reflexivity|]. rewrite IH. apply updNth_length. Qed.
Lemma fold_updNth (g : nat -> Q -> vec * vec -> vec * vec) ws : forall cache k d, NoDup (map fst ws) -> (k < length cache)%nat ->
  length (fold_left (fun ca p => updNth (fst p) (g (fst p) (snd p)) ca) ws cache) = length cache /\
  nth k (fold_left (fun ca p => updNth (fst p) (g (fst p) (snd p)) ca) ws cache) d = match lookup k ws with Some w => g k w (nth k cache d) | None => nth k cache d end.
Proof.
  induction ws as [|(j, w) ws IH]; intros cache k d ND H; cbn [fold_left lookup fst snd]; [split; reflexivity|].
  cbn [map fst] in ND. inversion ND as [|? ? NI ND']; subst. destruct (IH (updNth j (g j w) cache) k d ND') as (A & B); [rewrite updNth_length; exact H|].
  rewrite A, B, updNth_length, nth_updNth by exact H. split; [reflexivity|]. destruct (Nat.eqb_spec j k) as [->|NE]; [|reflexivity].
  destruct (lookup k ws) as [x|] eqn:E; [|reflexivity]. exfalso. apply NI. apply in_map_iff. exists (k, x). split; [reflexivity|apply lookup_some; exact E].
Qed.
Lemma write_ok cache cache' y x loads : cacheOk cache loads -> mapConservativeAt phi omega radius cl cache y x = Some cache' -> cacheOk cache' (loads ++ [(y, x)]).
Proof.
  intros (L & CO) E. unfold mapConservativeAt in E. destruct (nw cl y) as [ws|] eqn:EW; [|discriminate]. injection E as <-. destruct (nw_spec omega radius cl y ws EW) as (ND & MEM & _).
  set (g := fun (k : nat) (w : Q) => addWriteData phi (c_solver (cls k)) y (w * x)).
  split.
  - rewrite (fold_updNth_len (fun k w => addWriteData phi (c_solver (cls k)) y (w * x))). exact L.
  - intros k Hk. pose proof (proj2 (fold_updNth g ws cache k ([], []) ND ltac:(rewrite L; exact Hk))) as NK. unfold g in NK. cbv zeta. rewrite NK. clear NK. destruct (CO k Hk) as (C1 & C2 & C3 & C4). set (ca := nth k cache ([], [])) in *.
    assert (wk y k = match lookup k ws with Some w => w | None => 0 end) as WK by (unfold wk; rewrite EW; reflexivity).
    destruct (lookup k ws) as [w|]; cbn [addWriteData fst snd].
    + split; [rewrite map_length, seq_length; exact C1|]. split; [rewrite map_length, seq_length; reflexivity|]. split.
      * intros j Hj. rewrite at_map. unfold sizeN in Hj at 1. rewrite (proj2 (Nat.ltb_lt j _) Hj). rewrite (C3 j Hj), lsum_app. cbn [lsum fst snd]. rewrite WK. ring.
      * intros i Hi. rewrite at_map. rewrite C1, (proj2 (Nat.ltb_lt i _) Hi). rewrite (C4 i Hi), lsum_app. cbn [lsum fst snd]. rewrite WK. ring.
    + split; [exact C1|]. split; [exact C2|]. split.
      * intros j Hj. rewrite (C3 j Hj), lsum_app. cbn [lsum fst snd]. rewrite WK. ring.
      * intros i Hi. rewrite (C4 i Hi), lsum_app. cbn [lsum fst snd]. rewrite WK. ring.
Qed.
Lemma writeAll_ok loads : forall cache cache' l0, cacheOk cache l0 -> writeAll phi omega radius cl cache loads = Some cache' -> cacheOk cache' (l0 ++ loads) /\ forall l, In l loads -> nw cl (fst l) <> None.
Proof.
  induction loads as [|(y, x) loads IH]; intros cache cache' l0 CO E; cbn [writeAll] in E.
  - injection E as <-. rewrite app_nil_r. split; [exact CO|]. intros l [].
  - destruct (mapConservativeAt phi omega radius cl cache y x) as [ca|] eqn:EM; [|discriminate]. destruct (IH ca cache' _ (write_ok _ _ _ _ _ CO EM) E) as (A & B).
    rewrite <- app_assoc in A. split; [exact A|]. intros l [<-|I]; [|exact (B l I)]. cbn [fst]. unfold mapConservativeAt in EM. destruct (nw cl y); [discriminate|discriminate].
Qed.

Lemma isZero_iff a : isZero a = true <-> forall j, at_ a j == 0.
Proof.
  unfold isZero. rewrite forallb_forall. split.
  - intros H j. unfold at_. destruct (nth_in_or_default j a 0) as [I|E]; [apply Qeq_bool_iff, H, I|rewrite E; reflexivity].
  - intros H q I. destruct (In_nth _ _ 0 I) as (j & Hj & E). apply Qeq_bool_iff. rewrite <- E. apply H.
Qed.
(** the result of writing, tested with any values [v] *)
Lemma complete_sum loads cache v : cacheOk cache loads -> (forall l, In l loads -> nw cl (fst l) <> None) -> (forall ca, In ca cache -> nothing_lost ca) ->
  length (completeJustInTime cl cache (length inM)) = length inM /\
  sumn (length inM) (fun g => at_ v g * at_ (completeJustInTime cl cache (length inM)) g) ==
  lsum (fun l => snd l * sumn (length cl) (fun k => wk (fst l) k * valueAt v (fst l) k)) loads.
Proof.
  intros (L & CO) _ NL. unfold completeJustInTime. set (n := length inM). set (step := fun (out : vec) (p : cluster * (vec * vec)) => _).
  assert (forall K, (K <= length cl)%nat -> length (fold_left step (firstn K (combine cl cache)) (repeat 0 n)) = n /\
    sumn n (fun g => at_ v g * at_ (fold_left step (firstn K (combine cl cache)) (repeat 0 n)) g) ==
    sumn K (fun k => lsum (fun l => snd l * (wk (fst l) k * valueAt v (fst l) k)) loads)) as K.
  { induction K as [|K IH]; intros HK.
    - cbn [firstn fold_left sumn]. split; [apply repeat_length|]. apply sumn_0. intros g _. rewrite at_repeat. ring.
    - destruct (IH (Nat.lt_le_incl _ _ HK)) as (LI & SI). clear IH.
      assert (firstn (S K) (combine cl cache) = firstn K (combine cl cache) ++ [(cls K, nth K cache ([], []))]) as EF.
      { assert (nth_error (combine cl cache) K = Some (cls K, nth K cache ([], []))) as NE.
        { etransitivity; [apply (nth_error_nth' (combine cl cache) (noCluster, ([], []))); rewrite combine_length, L, Nat.min_id; exact HK|]. f_equal. apply (combine_nth cl cache K noCluster ([], [])). symmetry. exact L. }
        revert NE. generalize (combine cl cache) K (cls K, nth K cache ([], [])). clear. intros l. induction l as [|a l IH]; intros [|K] x NE; cbn in *; try discriminate.
        - injection NE as ->. reflexivity.
        - f_equal. apply IH. exact NE. }
      rewrite EF, fold_left_app. cbn [fold_left sumn]. set (o := fold_left step _ _) in *. set (ca := nth K cache ([], [])) in *.
      assert (In ca cache) as IC by (apply nth_In; rewrite L; exact HK).
      destruct (CO K HK) as (C1 & C2 & C3 & C4). fold ca in C1, C2, C3, C4. destruct (c_facts K HK) as (G & EA & EP & EI & MI & FI). cbn zeta in *.
      assert (sumn (sizeN (c_solver (cls K))) (fun j => at_ (snd (computeCacheData (c_solver (cls K)) (map (at_ v) (c_in (cls K))))) j * at_ (snd ca) j) +
        sumn (length (fst ca)) (fun i => at_ (fst (computeCacheData (c_solver (cls K)) (map (at_ v) (c_in (cls K))))) i * at_ (fst ca) i) ==
        lsum (fun l => snd l * (wk (fst l) K * valueAt v (fst l) K)) loads) as PAIR.
      { set (dat := map (at_ v) (c_in (cls K))). set (pc := computeCacheData (c_solver (cls K)) dat).
        assert (length dat = sizeN (c_solver (cls K))) as Ld by (unfold dat, sizeN; rewrite EI, !map_length; reflexivity).
        destruct (cache_sizes phi (c_solver (cls K)) dat G ltac:(congruence) Ld) as (P1 & P2). fold pc in P1, P2.
        transitivity (sumn (sizeN (c_solver (cls K))) (fun j => lsum (fun l => at_ (snd pc) j * (wk (fst l) K * snd l * phi (sqdiff all3 (fst l) (vtx (s_in (c_solver (cls K))) j)))) loads) +
          sumn (length (fst ca)) (fun i => lsum (fun l => at_ (fst pc) i * (wk (fst l) K * snd l * at_ (poly (s_local (c_solver (cls K))) (fst l)) i)) loads)).
        { assert (forall c (f : vertex * Q -> Q), lsum (fun l => c * f l) loads == c * lsum f loads) as LM.
          { intros c f. clear. induction loads as [|a l IH]; cbn [lsum]; [ring|]. rewrite IH. ring. }
          apply Qplus_comp; apply sumn_ext; intros j Hj; rewrite LM; apply Qmult_comp; try reflexivity; [apply C3; exact Hj|apply C4; rewrite <- C1; exact Hj]. }
        rewrite !sumn_lsum, <- lsum_plus. apply lsum_ext. intros (y, x) _. cbn [fst snd].
        transitivity (x * wk y K * (sumn (sizeN (c_solver (cls K))) (fun j => phi (sqdiff all3 y (vtx (s_in (c_solver (cls K))) j)) * at_ (snd pc) j) +
          sumn (length (fst ca)) (fun i => at_ (poly (s_local (c_solver (cls K))) y) i * at_ (fst pc) i))).
        { rewrite Qmult_plus_distr_r, <- !sumn_mul_l. apply Qplus_comp; apply sumn_ext; intros j _; ring. }
        transitivity (x * wk y K * valueAt v y K); [|ring]. apply Qmult_comp; [reflexivity|]. unfold valueAt, interpolateAt. fold dat. fold pc. apply Qplus_comp; [reflexivity|].
        rewrite EP in P2. rewrite C1. unfold epsSize. destruct pol eqn:EPOL; [congruence| |]; destruct (fst pc) as [|p0 pr]; try discriminate P2; reflexivity. }
      unfold step. cbn [fst snd]. destruct (isZero (snd ca)) eqn:EZ.
      + split; [exact LI|]. rewrite SI, <- PAIR. rewrite isZero_iff in EZ. pose proof (NL ca IC EZ) as Z2.
        rewrite (sumn_0 (sizeN (c_solver (cls K)))) by (intros j _; rewrite EZ; ring). rewrite (sumn_0 (length (fst ca))) by (intros j _; rewrite Z2; ring). ring.
      + assert (length (evaluateConservativeCache (c_solver (cls K)) ca) = length (c_in (cls K)) /\
          sumn (length (c_in (cls K))) (fun i => at_ v (nth i (c_in (cls K)) 0%nat) * at_ (evaluateConservativeCache (c_solver (cls K)) ca) i) == lsum (fun l => snd l * (wk (fst l) K * valueAt v (fst l) K)) loads) as (LE & SE).
        { destruct (cache_transposed phi (c_solver (cls K)) (map (at_ v) (c_in (cls K))) (fst ca) (snd ca) G) as (T1 & T2).
          - congruence.
          - unfold sizeN. rewrite EI, !map_length. reflexivity.
          - exact C2.
          - rewrite EP. exact C1.
          - rewrite <- surjective_pairing in T1, T2. assert (sizeN (c_solver (cls K)) = length (c_in (cls K))) as SN by (unfold sizeN; rewrite EI, map_length; reflexivity).
            split; [congruence|]. rewrite <- PAIR, <- T2, SN. apply sumn_ext. intros i Hi. rewrite at_sel by exact Hi. reflexivity. }
        split; [rewrite accumulate_length; exact LI|]. rewrite <- LI at 1. rewrite accumulate_sum; [rewrite LI, SI, SE; reflexivity| |exact LE].
        intros i I. rewrite LI. apply MI in I. apply I. }
  assert (firstn (length cl) (combine cl cache) = combine cl cache) as FA by (apply firstn_all2; rewrite combine_length; lia).
  destruct (K (length cl) (Nat.le_refl _)) as (K1 & K2). rewrite FA in K1, K2. split; [exact K1|]. rewrite K2, sumn_lsum. apply lsum_ext. intros l _. rewrite sumn_mul_l. reflexivity.
Qed.
Lemma wk_read v y ws : nw cl y = Some ws -> sumn (length cl) (fun k => wk y k * valueAt v y k) == lsum (fun p => snd p * valueAt v y (fst p)) ws.
Proof.
  intros E. destruct (nw_spec omega radius cl y ws E) as (ND & MEM & _). rewrite (lookup_sum (length cl)) by (try exact ND; intros k Hk; apply MEM; exact Hk).
  apply sumn_ext. intros k _. unfold wk. rewrite E. destruct (lookup k ws); ring.
Qed.
End C.
End J.
