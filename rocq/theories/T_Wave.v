(** Stored samples and sampling (C25-C29, C56). *)
From Coq Require Import ZArith QArith Bool List Lia Arith Lqa Qminmax.
From Verif Require Import M_Time M_Wave M_WaveCache S_Wave P_Wave P_Spline.
Import ListNotations.
Open Scope nat_scope.

Section T.
Variable eps : Z.
Hypothesis E0 : (0 <= eps)%Z.
Variable qr : list row -> list Q -> list Q.
Context {G : Type}.
Notation smpl := (sample (G:=G)).
Notation wf := (waveform (G:=G)).
Notation op := (op (G:=G)).

(** [f] is the result of some sequence of operations on a new waveform *)
Definition reachable (f : wf) : Prop := exists d l, wf_run eps qr l (wf_new d) = Some f.
(** ... none of which writes into the samples behind the waveform's back *)
Definition reachable_clean (f : wf) : Prop :=
  exists d l, wf_run eps qr l (wf_new d) = Some f /\ forall o, In o l -> ~ in_place o.

Lemma clean_reachable (f : wf) : reachable_clean f -> reachable f.
Proof. intros (d & l & H & _). exists d, l. exact H. Qed.
Lemma reachable_ord (f : wf) : reachable f -> Ord eps (wf_st f).
Proof. intros (d & l & H). eapply run_ord; [exact E0| |exact H]. constructor. Qed.
Lemma reachable_fresh (f : wf) : reachable_clean f -> Fresh qr f.
Proof. intros (d & l & H & N). eapply run_fresh; [|exact N|exact H]. discriminate. Qed.

(** C25 *)
Theorem C25_samples_ordered : forall f : wf, reachable f -> ordered eps (wf_st f).
Proof. intros f R. apply ord_ordered, reachable_ord, R. Qed.

(** C26 *)
Theorem C26_read_at_stored_time : forall (f : wf) t x, reachable f -> In (t, x) (wf_st f) ->
  wf_sample eps qr f t = Some (fst x, f).
Proof. intros f t x R. apply sample_exact; [exact E0|apply reachable_ord, R]. Qed.
Theorem C26_write_replaces_only_that_sample : forall (f : wf) t y x, reachable f -> In (t, y) (wf_st f) ->
  wf_op eps qr (OSet t x) f = Some (Wf (map (fun p => if (fst p =? t)%Z then (t, x) else p) (wf_st f)) (wf_deg f) None).
Proof. intros f t y x R H. cbn [wf_op]. rewrite (set_exact eps E0 _ t y x (reachable_ord _ R) H). reflexivity. Qed.
Theorem C26_write_after_last_appends : forall (f : wf) t x, reachable f -> wf_st f <> [] -> (forall u y, In (u, y) (wf_st f) -> (u + eps < t)%Z) ->
  wf_op eps qr (OSet t x) f = Some (Wf (wf_st f ++ [(t, x)]) (wf_deg f) None).
Proof.
  intros f t x R N H. cbn [wf_op]. rewrite (set_new eps E0); [reflexivity|apply reachable_ord, R|exact N|].
  destruct (wf_st f) as [|p r]; [contradiction|]. destruct (last_cons r p) as ((u, y) & _ & Hq & ->). eapply H, Hq.
Qed.

(** C27 *)
Theorem C27_degree_0_returns_next_sample : forall (f : wf) k p q t, reachable f -> wf_deg f = 0 ->
  nth_error (wf_st f) k = Some p -> nth_error (wf_st f) (S k) = Some q ->
  (fst p + eps < t)%Z -> (t <= fst q)%Z ->
  wf_sample eps qr f t = Some (fst (snd q), f).
Proof.
  intros f k p q t R D Hp Hq L1 L2. unfold wf_sample. rewrite D. cbn [usedDegree Nat.min Nat.eqb].
  assert (A : w_atOrAfter eps (wf_st f) t = Some (snd q)).
  { unfold w_atOrAfter. rewrite (find_next eps E0 _ k t (reachable_ord _ R) p q Hp Hq L1) by lia.
    destruct (wf_st f) as [|a [|b r]]; [reflexivity| |destruct a; reflexivity]. destruct k; discriminate Hq. }
  rewrite A. destruct (wf_st f); [destruct k; discriminate Hp|reflexivity].
Qed.
Theorem C27_single_sample_is_constant : forall (f : wf) u x t, wf_st f = [(u, x)] -> wf_sample eps qr f t = Some (fst x, f).
Proof. intros f u x t H. unfold wf_sample. rewrite H. cbn [length]. replace (usedDegree (wf_deg f) 1) with 0 by (unfold usedDegree; lia). reflexivity. Qed.
Theorem C27_degree_1_interpolates_linearly : forall (f : wf) m k p q t, solver qr (system (wf_st f) 1) -> reachable_clean f -> wf_deg f = 1 ->
  (forall r, In r (wf_st f) -> length (fst (snd r)) = m) ->
  nth_error (wf_st f) k = Some p -> nth_error (wf_st f) (S k) = Some q ->
  (fst p + eps < t)%Z -> (t + eps < fst q)%Z ->
  exists v f', wf_sample eps qr f t = Some (v, f') /\ veq v (vline (fst p) (fst q) t (fst (snd p)) (fst (snd q))).
Proof.
  intros f m k p q t QR R D Hm Hp Hq L1 L2. pose proof (reachable_ord _ (clean_reachable _ R)) as O.
  assert (Hk : S k < length (wf_st f)) by (apply nth_error_Some; congruence).
  unfold wf_sample. rewrite D, (scan_between eps E0 _ k t O p q Hp Hq L1 L2).
  assert (Ud : usedDegree 1 (length (wf_st f)) = 1) by (unfold usedDegree; lia). rewrite Ud. cbn [Nat.eqb].
  destruct (wf_st f) as [|a r] eqn:W; [cbn in Hk; lia|]. rewrite <- W in *.
  eexists _, _. split; [reflexivity|].
  assert (Sp : match wf_spline f with Some sp => sp | None => mkSpline qr (wf_st f) 1 end = mkSpline qr (wf_st f) 1).
  { destruct (wf_spline f) as [sp|] eqn:S; [|reflexivity]. rewrite (reachable_fresh _ R sp S), D, Ud. reflexivity. }
  rewrite Sp. apply (interpolate_linear eps E0 qr (wf_st f) m k p q t O Hm QR Hp Hq); lia.
Qed.
(** the interpolated value lies between the neighbouring values ... *)
Theorem C27_line_stays_between : forall t0 t1 t a b, (t0 < t1)%Z -> (t0 <= t <= t1)%Z ->
  (Qmin a b <= line t0 t1 t a b <= Qmax a b)%Q.
Proof.
  intros t0 t1 t a b H (L1 & L2). unfold line.
  assert (P : (0 < inject_Z (t1 - t0))%Q) by (replace 0%Q with (inject_Z 0) by reflexivity; rewrite <- Zlt_Qlt; lia).
  assert (A : (0 <= inject_Z (t - t0) / inject_Z (t1 - t0))%Q).
  { apply Qle_shift_div_l; [exact P|]. rewrite Qmult_0_l. replace 0%Q with (inject_Z 0) by reflexivity. rewrite <- Zle_Qle. lia. }
  assert (B : (inject_Z (t - t0) / inject_Z (t1 - t0) <= 1)%Q).
  { apply Qle_shift_div_r; [exact P|]. rewrite Qmult_1_l. rewrite <- Zle_Qle. lia. }
  set (s := (inject_Z (t - t0) / inject_Z (t1 - t0))%Q) in *.
  destruct (Q.min_spec a b) as [(H1 & ->)|(H1 & ->)]; destruct (Q.max_spec a b) as [(H2 & ->)|(H2 & ->)]; split; nra.
Qed.
(** ... and is exact for data linear in time *)
Theorem C27_line_exact_for_linear_data : forall t0 t1 t (x v : Q), (t0 < t1)%Z ->
  (line t0 t1 t (x + v * inject_Z t0) (x + v * inject_Z t1) == x + v * inject_Z t)%Q.
Proof.
  intros t0 t1 t x v H. unfold line, Z.sub. rewrite !inject_Z_plus, !inject_Z_opp. field.
  assert (B := H). rewrite Zlt_Qlt in B. lra.
Qed.

(** C28: the value read is that of a waveform with the same samples and no history *)
Theorem C28_read_depends_on_samples_only : forall (f : wf) t, reachable_clean f ->
  option_map fst (wf_sample eps qr f t) = option_map fst (wf_sample eps qr (Wf (wf_st f) (wf_deg f) None) t).
Proof. intros f t R. exact (sample_fresh eps qr f t (reachable_fresh f R)). Qed.

(** C29 *)
Theorem C29_move_keeps_the_end_state : forall (f f' : wf), wf_op eps qr OMove f = Some f' ->
  exists p, nth_error (wf_st f) (length (wf_st f) - 1) = Some p /\ wf_st f' = [p] /\ wf_deg f' = wf_deg f.
Proof.
  intros f f' H. cbn [wf_op] in H. destruct (w_move (wf_st f)) as [w|] eqn:M; [|discriminate H]. injection H as <-.
  unfold w_move in M. destruct (wf_st f) as [|a [|b r]] eqn:W; try discriminate M.
  destruct (w_last (a :: b :: r)) as [p|] eqn:L; [|discriminate M]. injection M as <-. exists p. split; [|auto].
  clear -L. revert L. generalize (b :: r). intros l. revert a. induction l as [|c l IH]; intros a L; [cbn in *; congruence|].
  assert (w_last (a :: c :: l) = w_last (c :: l)) as Q by (destruct a; reflexivity). rewrite Q in L. specialize (IH _ L).
  cbn [length] in *. replace (S (S (length l)) - 1) with (S (S (length l) - 1)) by lia. exact IH.
Qed.
Theorem C29_data_moves_to_its_last_sample : forall w : wave smpl, w <> [] -> exists p,
  nth_error w (length w - 1) = Some p /\ d_moveToNextWindow w = [p].
Proof.
  intros w N. assert (L : forall (l : wave smpl) a, exists p, w_last (a :: l) = Some p /\ nth_error (a :: l) (length l) = Some p).
  { induction l as [|c l IH]; intros a; [exists a; destruct a; auto|]. destruct (IH c) as (p & A & B). exists p. split; [destruct a; exact A|exact B]. }
  destruct w as [|a [|b r]]; [contradiction|exists a; auto|]. destruct (L (b :: r) a) as (p & A & B).
  exists p. cbn [d_moveToNextWindow w_move]. rewrite A. cbn [length] in *. replace (S (S (length r)) - 1) with (S (length r)) by lia. auto.
Qed.
(** trimming keeps exactly the samples on the right side, in order *)
Theorem C29_trim_after : forall (f f' : wf) t, wf_op eps qr (OTrimAfter t) f = Some f' ->
  wf_st f' = filter (fun p => (fst p <=? t + eps)%Z) (wf_st f).
Proof.
  intros f f' t H. injection H as <-. cbn [wf_st]. apply filter_ext. intros p. unfold greater.
  destruct (Z.ltb_spec eps (fst p - t)); destruct (Z.leb_spec (fst p) (t + eps)); try reflexivity; lia.
Qed.
Theorem C29_trim_before : forall (f f' : wf) t, wf_op eps qr (OTrimBefore t) f = Some f' ->
  wf_st f' = filter (fun p => (t - eps <=? fst p)%Z) (wf_st f).
Proof.
  intros f f' t H. injection H as <-. cbn [wf_st]. apply filter_ext. intros p. unfold smaller.
  destruct (Z.ltb_spec (fst p - t) (- eps)); destruct (Z.leb_spec (t - eps) (fst p)); try reflexivity; lia.
Qed.
(** trimming to the start of the storage keeps exactly the first sample *)
Theorem C29_trim_to_window_start : forall (f f' : wf) p r, reachable f -> wf_st f = p :: r ->
  wf_op eps qr (OTrimAfter (fst p)) f = Some f' -> wf_st f' = [p].
Proof.
  intros f f' p r R W H. rewrite (C29_trim_after _ _ _ H). pose proof (reachable_ord _ R) as O. rewrite W in *. cbn [filter].
  destruct (Z.leb_spec (fst p) (fst p + eps)); [|lia]. f_equal.
  assert (B : forall q, In q r -> (fst p + eps < fst q)%Z) by (intros q; apply (ord_after eps), O).
  clear -B. induction r as [|q r IH]; [reflexivity|]. cbn [filter]. pose proof (B q (or_introl eq_refl)).
  destruct (Z.leb_spec (fst q) (fst p + eps)); [lia|]. apply IH. intros q' Hq. apply B. right. exact Hq.
Qed.

(** C56: if all samples are the same, every read returns that value, for every
    degree, as long as the interpolation problem has a unique solution *)
Theorem C56_constant_data : forall (f : wf) v t, reachable_clean f -> 2 <= length (wf_st f) -> 1 <= wf_deg f ->
  (forall r, In r (wf_st f) -> veq (fst (snd r)) v) ->
  (let A := system (wf_st f) (Nat.min (wf_deg f) (length (wf_st f) - 1)) in solver qr A /\ unique A) ->
  exists v' f', wf_sample eps qr f t = Some (v', f') /\ veq v' v.
Proof.
  intros f v t R L D Hv (QR & Un). pose proof (reachable_ord _ (clean_reachable _ R)) as O.
  fold (usedDegree (wf_deg f) (length (wf_st f))) in QR, Un. set (d := usedDegree (wf_deg f) (length (wf_st f))) in *. assert (D1 : 1 <= d) by (unfold d, usedDegree; lia).
  assert (D2 : d < length (wf_st f)) by (unfold d, usedDegree; lia).
  unfold wf_sample. fold d. destruct (wf_st f) as [|a r] eqn:W; [cbn in L; lia|]. rewrite <- W in *.
  destruct (Nat.eqb_spec d 0) as [Z|_]; [lia|]. destruct (scan eps (wf_st f) t) as [x|] eqn:S.
  - exists (fst x), f. split; [reflexivity|]. assert (exists u, In (u, x) (wf_st f)) as (u & Hu).
    { revert S. generalize (wf_st f). induction w as [|(u, z) w IH]; [discriminate|]. cbn [scan].
      destruct (equals eps u t); [intros Q; injection Q as <-; exists u; left; reflexivity|]. destruct (greater eps u t); [discriminate|].
      intros Q. destruct (IH Q) as (u' & Hu). exists u'. right. exact Hu. }
    apply (Hv (u, x) Hu).
  - eexists _, _. split; [reflexivity|].
    assert (Sp : match wf_spline f with Some sp => sp | None => mkSpline qr (wf_st f) d end = mkSpline qr (wf_st f) d).
    { destruct (wf_spline f) as [sp|] eqn:Q; [|reflexivity]. rewrite (reachable_fresh _ R sp Q). unfold d. rewrite W. reflexivity. }
    rewrite Sp. apply (interpolate_constant eps E0 qr); assumption.
Qed.
End T.
Print Assumptions C25_samples_ordered.
Print Assumptions C26_read_at_stored_time.
Print Assumptions C26_write_replaces_only_that_sample.
Print Assumptions C26_write_after_last_appends.
Print Assumptions C27_degree_0_returns_next_sample.
Print Assumptions C27_single_sample_is_constant.
Print Assumptions C27_degree_1_interpolates_linearly.
Print Assumptions C27_line_stays_between.
Print Assumptions C27_line_exact_for_linear_data.
Print Assumptions C28_read_depends_on_samples_only.
Print Assumptions C29_move_keeps_the_end_state.
Print Assumptions C29_data_moves_to_its_last_sample.
Print Assumptions C29_trim_after.
Print Assumptions C29_trim_before.
Print Assumptions C29_trim_to_window_start.
Print Assumptions C56_constant_data.

(** ** The hypotheses are met *)
(** three samples with two degrees of freedom, written, read, overwritten *)
Definition idqr (_ : list row) (b : list Q) : list Q := b.
Definition ex_ops : list (op (G:=unit)) :=
  [OSet 0 ([1%Q; 2%Q], tt); OSet 40 ([3%Q; 2%Q], tt); OSet 100 ([9%Q; 1%Q], tt); OSample 70; OSet 100 ([5%Q; 0%Q], tt); OSample 20].
Definition ex_wf (d : nat) := match wf_run 1 idqr ex_ops (wf_new d) with Some f => f | None => wf_new 0 end.
Example ex_reachable : forall d, In d [0; 1] -> reachable_clean 1 idqr (ex_wf d) /\ length (wf_st (ex_wf d)) = 3.
Proof.
  intros d Hd. split; [|destruct Hd as [<-|[<-|[]]]; reflexivity]. exists d, ex_ops.
  split; [destruct Hd as [<-|[<-|[]]]; vm_compute; reflexivity|].
  intros o H; cbn in H; decompose [or] H; subst; cbn; tauto.
Qed.
(** for degree 1 a solver may return the right-hand side *)
Example ex_solver1 : forall d, In d [0; 1] -> solver idqr (system (wf_st (ex_wf d)) 1).
Proof.
  intros d Hd b (c & L & F).
  assert (H : length b = 3). { rewrite <- (forall2_length _ _ _ F). destruct Hd as [<-|[<-|[]]]; vm_compute; reflexivity. }
  assert (P : params (rel (wf_st (ex_wf d)))). { destruct (ex_reachable d Hd) as (R & L3). apply (rel_params 1); [lia| |lia]. apply (reachable_ord 1 ltac:(lia) idqr), clean_reachable, R. }
  apply (solvable_id _ P b). rewrite rel_length, H. symmetry. apply (ex_reachable d Hd).
Qed.
Example ex_read : match wf_sample 1 idqr (ex_wf 1) 70 with Some (v, _) => veq v [4%Q; 1%Q] | None => False end.
Proof. vm_compute. repeat constructor. Qed.

(** a quadratic spline through three samples *)
Definition qr2 (_ : list row) (b : list Q) : list Q := [qat b 0; (2 * qat b 1 - (1#2) * qat b 0 - (1#2) * qat b 2)%Q; qat b 2].
Definition ex_ops2 : list (op (G:=unit)) := [OSet 0 ([7%Q], tt); OSet 50 ([7%Q], tt); OSet 100 ([7%Q], tt)].
Definition ex_wf2 := match wf_run 1 qr2 ex_ops2 (wf_new 2) with Some f => f | None => wf_new 0 end.
Lemma ex_rows2 : exists a b c, system (wf_st ex_wf2) 2 = [[(0, 1%Q)]; [(0, a); (1, b); (2, c)]; [(2, 1%Q)]] /\ a == 1#4 /\ b == 1#2 /\ c == 1#4.
Proof. vm_compute. eexists _, _, _. split; [reflexivity|]. repeat split. Qed.
Example ex_constant : reachable_clean 1 qr2 ex_wf2 /\ 2 <= length (wf_st ex_wf2) /\ 1 <= wf_deg ex_wf2 /\
  (forall r, In r (wf_st ex_wf2) -> veq (fst (snd r)) [7%Q]) /\ solver qr2 (system (wf_st ex_wf2) 2) /\ unique (system (wf_st ex_wf2) 2).
Proof.
  split; [exists 2, ex_ops2; split; [vm_compute; reflexivity|intros o H; cbn in H; decompose [or] H; subst; cbn; tauto]|].
  split; [cbn; lia|]. split; [cbn; lia|]. split; [intros r H; cbn in H; decompose [or] H; subst; try contradiction; repeat constructor|].
  destruct ex_rows2 as (x & y & z & -> & Hx & Hy & Hz). split.
  - intros b (c & L & F). pose proof (forall2_length _ _ _ F) as Lb. destruct b as [|b0 [|b1 [|b2 [|]]]]; try discriminate Lb.
    split; [reflexivity|]. unfold qr2, rowDot. repeat constructor; cbn; try lra. rewrite Hx, Hy, Hz. field.
  - intros b c c' (L & F) (L' & F'). pose proof (forall2_length _ _ _ F) as Lb. destruct b as [|b0 [|b1 [|b2 [|]]]]; try discriminate Lb.
    destruct c as [|c0 [|c1 [|c2 [|]]]]; try discriminate L. destruct c' as [|d0 [|d1 [|d2 [|]]]]; try discriminate L'.
    inversion F as [|? ? ? ? F0 G1]; subst. inversion G1 as [|? ? ? ? F1 G2]; subst. inversion G2 as [|? ? ? ? F2 G3]; subst.
    inversion F' as [|? ? ? ? F0' G1']; subst. inversion G1' as [|? ? ? ? F1' G2']; subst. inversion G2' as [|? ? ? ? F2' G3']; subst.
    unfold rowDot in *. cbn in *. rewrite Hx, Hy, Hz in F1, F1'. repeat constructor; lra.
Qed.

(** C28 fails if samples are changed behind the cached spline: setAllSamples
    (CouplingData::reinitialize, CouplingData.cpp 162-175) and writing through
    stamples() (Acceleration::applyRelaxation, Acceleration.cpp 28-44) *)
Theorem C28_stale_interpolation_refuted : exists (o : op (G:=unit)) f t,
  in_place o /\ (exists f0, reachable_clean 1 idqr f0 /\ wf_op 1 idqr o f0 = Some f) /\ solver idqr (system (wf_st f) 1) /\
  exists v v', option_map fst (wf_sample 1 idqr f t) = Some v /\
    option_map fst (wf_sample 1 idqr (Wf (wf_st f) (wf_deg f) None) t) = Some v' /\ ~ veq v v'.
Proof.
  exists (OSetAll ([0%Q; 0%Q], tt)). eexists. exists 70%Z. split; [exact I|]. split; [|split].
  - exists (ex_wf 1). split; [apply ex_reachable; right; left; reflexivity|]. cbn [wf_op]. reflexivity.
  - exact (ex_solver1 1 (or_intror (or_introl eq_refl))).
  - eexists _, _. split; [vm_compute; reflexivity|]. split; [vm_compute; reflexivity|]. intros H. inversion H as [|a b l l' H1 H2]. vm_compute in H1. discriminate H1.
Qed.
Print Assumptions C28_stale_interpolation_refuted.
