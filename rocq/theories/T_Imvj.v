(** C81: the IQN-IMVJ acceleration *)
From Coq Require Import Field QArith Qcanon Bool List Arith Lia.
From Verif Require Import S_Field P_Field M_Imvj S_Imvj P_Imvj.
From Verif Require T_QR.
Import ListNotations.
Close Scope Q_scope. Close Scope Qc_scope. Open Scope nat_scope.

Section T.
Variable F : field.
Add Field KT : (K_theory F).
Notation vec := (nat -> F).
Implicit Types (c : config F) (o : decisions F) (x xt : vec) (s t : imvj F) (evs : list (event F)).
Lemma reached c evs s : wf c -> run c evs start = Some s -> good F c (iterations evs) (experienced evs) s.
Proof. intros Wf H. exact (run_good F c evs Wf 0 false start s (good_start F c) H). Qed.

(** The efficient update and the restart modes: whatever happened before, the values after an update
    are those before plus the multi-vector Jacobian times the residual *)
Theorem C81_update c evs s o x xt x' s' : wf c -> run c evs start = Some s -> isAlways c = false ->
  0 < iterations evs \/ (experienced evs = true /\ c_force c = false /\ 0 < c_reused c) ->
  performAcceleration c o x xt s = Some (x', s') ->
  length (o_Z o) = length (s_V s') /\ length (s_W s') = length (s_V s') /\
  forall e, x' e = add (xt e) (multivector (rowsOf c) (previous c s) (s_V s') (s_W s') (o_Z o) (fun k => opp (residual c x xt k)) e).
Proof. intros Wf R A C H. exact (perform_update F _ _ _ _ _ _ _ _ _ Wf (reached _ _ _ Wf R) A C H). Qed.

(** always-build-jacobian: the same, also in the first iteration of a window; there, without reuse, the
    columns are those of the window before, kept for this purpose *)
Theorem C81_update_always c evs s o x xt x' s' : wf c -> run c evs start = Some s -> c_mode c = Always ->
  0 < iterations evs \/ (experienced evs = true /\ c_force c = false) ->
  performAcceleration c o x xt s = Some (x', s') ->
  exists V W, length (o_Z o) = length V /\ length W = length V /\
    (0 < iterations evs \/ 0 < c_reused c -> V = s_V s' /\ W = s_W s') /\
    (iterations evs = 0 -> c_reused c = 0 -> 0 < length V -> V = s_VBackup s' /\ W = s_WBackup s') /\
    (forall e, x' e = add (xt e) (multivector (rowsOf c) (previous c s) V W (o_Z o) (fun k => opp (residual c x xt k)) e)) /\
    (forall y e, apply (rowsOf c) (s_J s') y e = multivector (rowsOf c) (previous c s) V W (o_Z o) y e).
Proof.
  intros Wf R M C H. assert (A : isAlways c = true) by (unfold isAlways; rewrite M; reflexivity).
  destruct (perform_always F _ _ _ _ _ _ _ _ _ Wf (reached _ _ _ Wf R) A C H) as (V & W & P1 & P2 & P3 & P4 & P5 & P6 & _). exists V, W. auto 7.
Qed.

(** The initial relaxation *)
Theorem C81_relaxation c evs s o x xt x' s' : wf c -> run c evs start = Some s ->
  iterations evs = 0 -> experienced evs = false \/ c_force c = true -> performAcceleration c o x xt s = Some (x', s') ->
  forall e, x' e = add (mul (c_relaxation c) (xt e)) (mul (sub one (c_relaxation c)) (x e)).
Proof.
  intros Wf R I C H. destruct (reached _ _ _ Wf R) as [G1 G2 _ _ _]. rewrite I in G1. cbn [Nat.eqb] in G1.
  unfold performAcceleration in H. destruct (updateDifferenceMatrices c x xt (initializeMatrices c s)) as [i|] eqn:E; [|discriminate H]. cbn [bind] in H. apply ud_kept in E.
  assert (K : s_first (initializeMatrices c s) = true /\ s_firstWindow (initializeMatrices c s) = s_firstWindow s).
  { destruct (s_firstWindow s && s_first s) eqn:B; [|rewrite init_kept by exact B; auto]. destruct (init_empty F c s B) as (_ & _ & _ & _ & _ & K1 & K2 & _). rewrite K1, K2. auto. }
  destruct K as [K1 K2]. destruct E as (E1 & E2 & _). rewrite E1, E2, K1, K2, G2 in H.
  replace (true && (negb (experienced evs) || c_force c)) with true in H by (destruct C as [-> | ->]; cbn; [|rewrite orb_true_r]; reflexivity). injection H as <- _. reflexivity.
Qed.

(** The columns are differences of consecutive iterations, the newest one first *)
Theorem C81_columns c s o x xt x' s1 x2 xt2 t : performAcceleration c o x xt s = Some (x', s1) -> updateDifferenceMatrices c x2 xt2 s1 = Some t ->
  exists V W, (V = s_V s1 /\ W = s_W s1 \/ V = removelast (s_V s1) /\ W = removelast (s_W s1) /\ s_V s1 <> []) /\
    s_V t = (fun e => sub (residual c x2 xt2 e) (residual c x xt e)) :: V /\ s_W t = (fun e => sub (xt2 e) (xt e)) :: W.
Proof.
  intros H U. destruct (perform_old F _ _ _ _ _ _ _ H) as [F1 O]. injection O as O1 O2. destruct (ud_columns F _ _ _ _ _ F1 U) as [_ C]. unfold diffR, diffXt in C. rewrite O1, O2 in C.
  destruct C as [(_ & A & B)|(_ & N & A & B)].
  - exists (s_V s1), (s_W s1). auto.
  - exists (removelast (s_V s1)), (removelast (s_W s1)). auto 6.
Qed.

(** A window that ends after at least one update, the efficient update and restart modes with room
    left: its columns go into the Jacobian.  With forced relaxation and restart mode, after at least
    two updates. *)
Theorem C81_window c evs s o x xt s' : wf c -> run c evs start = Some s -> isAlways c = false -> 0 < iterations evs ->
  c_mode c = Efficient \/ c_force c = false \/ 2 <= iterations evs -> room c s -> iterationsConverged c o x xt s = Some s' ->
  exists t1 t, lastDifferences c x xt s = Some t1 /\ prepareStore c o t1 = Some t /\ length (o_Z o) = length (s_V t) /\ length (s_W t) = length (s_V t) /\
    forall y e, previous c s' y e = multivector (rowsOf c) (previous c s) (s_V t) (s_W t) (o_Z o) y e.
Proof.
  intros Wf R A I C Rm H. destruct (converged_spec F _ _ _ _ _ _ _ _ Wf (reached _ _ _ Wf R) A I C Rm H) as (t1 & t & P1 & P2 & P3 & P4 & P5 & _). exists t1, t. auto.
Qed.
(** If the pseudo-inverse is one, the new Jacobian maps all columns of the window as they were
    observed and agrees with the one before on everything the pseudo-inverse does not see *)
Theorem C81_window_secant c evs s o x xt s' : wf c -> run c evs start = Some s -> isAlways c = false -> 0 < iterations evs ->
  c_mode c = Efficient \/ c_force c = false \/ 2 <= iterations evs -> room c s -> iterationsConverged c o x xt s = Some s' ->
  exists t1 t, lastDifferences c x xt s = Some t1 /\ prepareStore c o t1 = Some t /\
    (left_inverse (rowsOf c) (o_Z o) (s_V t) -> secant (previous c s') (s_V t) (s_W t)) /\
    forall y, (forall j, j < length (s_V t) -> fdot (rowsOf c) (at_ (o_Z o) j) y = zero) -> forall e, previous c s' y e = previous c s y e.
Proof.
  intros Wf R A I C Rm H. destruct (C81_window _ _ _ _ _ _ _ Wf R A I C Rm H) as (t1 & t & P1 & P2 & P3 & P4 & P5). exists t1, t. split; [exact P1|]. split; [exact P2|]. split.
  - intros L j Hj e. rewrite P5. exact (multivector_secant F (rowsOf c) (previous c s) (s_V t) (s_W t) (o_Z o) L P4 j Hj e).
  - intros y K e. rewrite P5. apply multivector_kernel, K.
Qed.

(** always-build-jacobian: what a window leaves is the Jacobian of its last update *)
Theorem C81_window_always c evs s o x xt x' s1 o2 x2 xt2 s2 : wf c -> run c evs start = Some s -> c_mode c = Always ->
  0 < iterations evs \/ (experienced evs = true /\ c_force c = false) ->
  performAcceleration c o x xt s = Some (x', s1) -> iterationsConverged c o2 x2 xt2 s1 = Some s2 ->
  (forall e, x' e = add (xt e) (previous c s2 (fun k => opp (residual c x xt k)) e)) /\
  exists V W, length W = length V /\ (0 < iterations evs \/ 0 < c_reused c -> V = s_V s1 /\ W = s_W s1) /\
    forall y e, previous c s2 y e = multivector (rowsOf c) (previous c s) V W (o_Z o) y e.
Proof.
  intros Wf R M C H K. destruct (C81_update_always _ _ _ _ _ _ _ _ Wf R M C H) as (V & W & P1 & P2 & P3 & P4 & P5 & P6).
  destruct (perform_old F _ _ _ _ _ _ _ H) as [F1 _]. assert (Q : previous c s2 = apply (rowsOf c) (s_J s1)) by (unfold previous; rewrite M, (converged_always F _ _ _ _ _ _ M F1 K); reflexivity).
  rewrite Q. split; [|exists V, W; auto]. intros e. rewrite P5. f_equal. symmetry. apply P6.
Qed.

(** * Restarts *)
Theorem C81_restart_zero c evs s o x xt s' size : wf c -> run c evs start = Some s -> c_mode c = Chunks RsZero size -> 0 < iterations evs ->
  c_force c = false \/ 2 <= iterations evs -> size <= length (s_chunk s) -> iterationsConverged c o x xt s = Some s' ->
  forall y e, previous c s' y e = zero.
Proof.
  intros Wf R M I C Fu H y e. destruct (converged_restart F _ _ _ _ _ _ _ _ _ _ Wf (reached _ _ _ Wf R) I M C Fu H) as (t1 & t & u & _ & _ & _ & _ & _ & _ & _ & K & Q & _).
  cbn [restartIMVJ] in K. injection K as <-. unfold previous. rewrite M, Q. reflexivity.
Qed.
(** RS-LS: the columns of the windows that are kept for the restarts *)
Theorem C81_restart_ls c evs s o x xt s' size reused : wf c -> run c evs start = Some s -> c_mode c = Chunks (RsLS reused) size -> 0 < iterations evs ->
  c_force c = false \/ 2 <= iterations evs -> size <= length (s_chunk s) -> iterationsConverged c o x xt s = Some s' ->
  (forall y e, previous c s' y e = zero) \/
  ((forall y e, previous c s' y e = lowRank (rowsOf c) (s_lsW s', o_lsZ o) y e) /\
   (left_inverse (rowsOf c) (o_lsZ o) (s_lsV s') -> length (s_lsW s') = length (s_lsV s') -> secant (previous c s') (s_lsV s') (s_lsW s'))).
Proof.
  intros Wf R M I C Fu H. assert (A : isAlways c = false) by (unfold isAlways; rewrite M; reflexivity).
  destruct (converged_ls F _ _ _ _ _ _ _ _ M H) as (u & Q1 & Q2 & Q3 & t1 & t & L & P & Sw).
  destruct (at_store F _ _ _ _ _ _ _ _ _ Wf (reached _ _ _ Wf R) A I L P) as (_ & _ & AC & _).
  unfold storeWindow in Sw. destruct (pseudoInverse c o t) as [Z|]; [|discriminate Sw]. cbn [bind] in Sw. rewrite M in Sw. cbv zeta in Sw. cbn [s_chunk setChunk] in Sw.
  rewrite app_length, AC in Sw. cbn [length] in Sw. replace (size + 1 <=? length (s_chunk s) + 1) with true in Sw by (symmetry; apply Nat.leb_le; lia). cbn [restartIMVJ] in Sw.
  apply restart_ls in Sw. injection Q1 as Q1 _. unfold previous. rewrite M, Q1, Sw. destruct (_ =? 0); [left; reflexivity|right].
  assert (E : forall y e, chunkApply (rowsOf c) [(s_lsW u, o_lsZ o)] y e = lowRank (rowsOf c) (s_lsW s', o_lsZ o) y e) by (intros; rewrite Q3; cbn [chunkApply]; ring).
  split; [exact E|]. intros Li Le j Hj e. rewrite E. exact (lowrank_secant F (rowsOf c) (o_lsZ o) (s_lsV s') (s_lsW s') Li Le j Hj e).
Qed.
(** RS-LS needs at least three unknowns as soon as there is a column *)
Theorem C81_restart_ls_small c o s : c_all c <= 2 -> s_lsV s <> [] -> restartLS c o s = None.
Proof.
  intros A N. unfold restartLS. cbv zeta. cbn [s_lsV setChunk]. destruct (s_lsV s) as [|v V] eqn:E; [congruence|]. cbn [length Nat.eqb].
  assert (K : forall f t, s_lsV t <> [] -> notTooSquare (c_all c) f t = None).
  { induction f as [|f IH]; intros t Nt; cbn [notTooSquare].
    - replace (c_all c <=? _) with true; [reflexivity|]. symmetry. apply Nat.leb_le. destruct (s_lsV t); [congruence|]. cbn [length]. lia.
    - replace (c_all c <=? _) with true by (symmetry; apply Nat.leb_le; destruct (s_lsV t); [congruence|]; cbn [length]; lia).
      unfold removeLS at 1. destruct (length (s_lsV t) <=? 1) eqn:B; [reflexivity|]. apply Nat.leb_gt in B. destruct (M_QN.removeColumnFromMatrix _ (s_lsV t)) as [V'|] eqn:E1; [|reflexivity]. cbn [bind].
      destruct (M_QN.removeColumnFromMatrix _ (s_lsW t)) as [W'|]; [|reflexivity]. cbn [bind]. apply IH. cbn [s_lsV setLS]. apply remove_length in E1. destruct V'; [cbn in *; lia|discriminate]. }
  rewrite K; [reflexivity|]. cbn [s_lsV setChunk]. congruence.
Qed.
(** RS-LS: the columns that remain are columns that were kept, each with its own counterpart *)
Lemma combine_app_eq {A B} (a1 a2 : list A) (b1 b2 : list B) : length a1 = length b1 -> combine (a1 ++ a2) (b1 ++ b2) = combine a1 b1 ++ combine a2 b2.
Proof. revert b1. induction a1 as [|x a1 IH]; intros [|y b1] E; try discriminate E; [reflexivity|]. cbn [app combine]. f_equal. apply IH. injection E as E. exact E. Qed.
Lemma remove_pairs {A B} i (V V' : list A) (W W' : list B) : length V = length W -> M_QN.removeColumnFromMatrix i V = Some V' -> M_QN.removeColumnFromMatrix i W = Some W' ->
  length V' = length W' /\ incl (combine V' W') (combine V W).
Proof.
  intros L H1 H2. pose proof (remove_length _ _ _ H1). pose proof (remove_length _ _ _ H2). split; [lia|].
  apply remove_some in H1, H2. destruct H1 as [_ ->], H2 as [_ ->].
  assert (Lf : length (firstn i V) = length (firstn i W)) by (rewrite !firstn_length, L; reflexivity).
  rewrite (combine_app_eq _ _ _ _ Lf).
  assert (E : combine V W = combine (firstn i V) (firstn i W) ++ combine (skipn i V) (skipn i W)) by (rewrite <- (combine_app_eq _ _ _ _ Lf), !firstn_skipn; reflexivity).
  rewrite E. apply incl_app; [apply incl_appl, incl_refl|apply incl_appr].
  clear. revert V W. induction i as [|i IH]; intros V W.
  - destruct V as [|v V], W as [|w W]; cbn; try (intros ? []); [destruct V; intros ? []|]. apply incl_tl, incl_refl.
  - destruct V as [|v V], W as [|w W]; try (rewrite !skipn_nil); try (intros ? []; fail); [destruct (skipn (S (S i)) (v :: V)); intros ? []|]. apply IH.
Qed.
Lemma removeLS_pairs i s t : length (s_lsV s) = length (s_lsW s) -> removeLS i s = Some t -> length (s_lsV t) = length (s_lsW t) /\ incl (combine (s_lsV t) (s_lsW t)) (combine (s_lsV s) (s_lsW s)).
Proof.
  intros L. unfold removeLS. destruct (_ <=? 1); [discriminate|].
  destruct (M_QN.removeColumnFromMatrix i (s_lsV s)) as [V|] eqn:E1; [|discriminate]. destruct (M_QN.removeColumnFromMatrix i (s_lsW s)) as [W|] eqn:E2; [|discriminate].
  cbn [bind]. intros H. injection H as <-. cbn [s_lsV s_lsW setLS]. exact (remove_pairs _ _ _ _ _ L E1 E2).
Qed.
Theorem C81_restart_ls_pairs c o s u : length (s_lsV s) = length (s_lsW s) -> restartLS c o s = Some u ->
  length (s_lsV u) = length (s_lsW u) /\ incl (combine (s_lsV u) (s_lsW u)) (combine (s_lsV s) (s_lsW s)).
Proof.
  intros L. unfold restartLS. cbv zeta. cbn [s_lsV setChunk]. destruct (_ =? 0); [intros H; injection H as <-; split; [exact L|apply incl_refl]|].
  assert (K1 : forall n f (a b : imvj F), length (s_lsV a) = length (s_lsW a) -> notTooSquare n f a = Some b -> length (s_lsV b) = length (s_lsW b) /\ incl (combine (s_lsV b) (s_lsW b)) (combine (s_lsV a) (s_lsW a))).
  { intros n. induction f as [|f IH]; intros a b La H; cbn [notTooSquare] in H; destruct (n <=? _); try discriminate H; try (injection H as <-; split; [exact La|apply incl_refl]).
    destruct (removeLS _ a) as [t|] eqn:E; [|discriminate H]. cbn [bind] in H. destruct (removeLS_pairs _ _ _ La E) as [Lt It]. destruct (IH _ _ Lt H) as [Lb Ib]. split; [exact Lb|]. eapply incl_tran; [exact Ib|exact It]. }
  assert (K2 : forall is (a b : imvj F), length (s_lsV a) = length (s_lsW a) -> removeLSs is a = Some b -> length (s_lsV b) = length (s_lsW b) /\ incl (combine (s_lsV b) (s_lsW b)) (combine (s_lsV a) (s_lsW a))).
  { induction is as [|i is IH]; intros a b La H; cbn [removeLSs] in H; [injection H as <-; split; [exact La|apply incl_refl]|].
    destruct (removeLS _ a) as [t|] eqn:E; [|discriminate H]. cbn [bind] in H. destruct (removeLS_pairs _ _ _ La E) as [Lt It]. destruct (IH _ _ Lt H) as [Lb Ib]. split; [exact Lb|]. eapply incl_tran; [exact Ib|exact It]. }
  destruct (notTooSquare _ _ _) as [t1|] eqn:E1; [|discriminate]. cbn [bind]. destruct (removeLSs _ t1) as [t2|] eqn:E2; [|discriminate]. cbn [bind].
  destruct (_ =? _); [|discriminate]. intros H. injection H as <-. cbn [s_lsV s_lsW setChunk].
  assert (L1 : length (s_lsV (setChunk s [] (s_svd s))) = length (s_lsW (setChunk s [] (s_svd s)))) by exact L.
  destruct (K1 _ _ _ _ L1 E1) as [Lt1 It1]. destruct (K2 _ _ _ Lt1 E2) as [Lt2 It2]. split; [exact Lt2|]. eapply incl_tran; [exact It2|exact It1].
Qed.
(** RS-LS: when a window ends, at most as many windows as configured stay, the newest ones, with all their
    columns; without reuse nothing stays *)
Lemma dropBack_firstn n : forall V V' : list (nat -> F), dropBack n V = Some V' -> n <= length V /\ V' = firstn (length V - n) V.
Proof.
  induction n as [|n IH]; intros V V' H; cbn [dropBack] in H; [injection H as <-; rewrite Nat.sub_0_r, firstn_all; split; [lia|reflexivity]|].
  destruct (M_QN.removeColumnFromMatrix _ V) as [U|] eqn:E; [|discriminate H]. cbn [bind] in H. destruct (IH _ _ H) as [L ->]. apply remove_some in E. destruct E as [E ->].
  rewrite skipn_all2, app_nil_r in * by lia. rewrite firstn_length in *. replace (min (length V - 1) (length V)) with (length V - 1) in * by lia. split; [lia|].
  rewrite firstn_firstn. f_equal. lia.
Qed.
Lemma sum_removelast l : l <> [] -> list_sum l = list_sum (removelast l) + last l 0.
Proof. intros N. rewrite (app_removelast_last 0 N) at 1. rewrite list_sum_app. cbn. lia. Qed.
Lemma removelast_length {A} (l : list A) : length (removelast l) = length l - 1.
Proof. induction l as [|a [|b l] IH]; [reflexivity|reflexivity|]. cbn [removelast length] in *. rewrite IH. lia. Qed.
Theorem C81_restart_ls_window c s t reused size : c_mode c = Chunks (RsLS reused) size ->
  length (s_lsCols s) <= S reused -> list_sum (s_lsCols s) = length (s_lsV s) -> length (s_lsW s) = length (s_lsV s) -> truncateLS c s = Some t ->
  (exists n, n <= length (s_lsV s) /\ s_lsV t = firstn n (s_lsV s) /\ s_lsW t = firstn n (s_lsW s) /\ (reused = 0 -> n = 0)) /\
  (exists windows, s_lsCols t = 0 :: windows /\ length windows <= reused /\ list_sum windows = length (s_lsV t)) /\
  (0 < reused -> length (s_lsCols s) <= reused -> s_lsV t = s_lsV s /\ s_lsW t = s_lsW s).
Proof.
  intros M L S W. unfold truncateLS. rewrite M. destruct (s_lsCols s) as [|a r] eqn:C; [discriminate|]. cbn [bind].
  set (cols := match a :: r with [] => None | 0 :: r0 => Some r0 | l => Some l end).
  assert (K : exists l, cols = Some l /\ length l <= length (a :: r) /\ list_sum l = length (s_lsV s)).
  { subst cols. destruct a as [|a]; eexists; (split; [reflexivity|]); split; try exact S; cbn [length]; lia. }
  destruct K as (l & -> & Ll & Sl). cbn [bind]. cbn [length] in L, Ll.
  destruct (Nat.eqb_spec reused 0) as [R|R].
  - cbn [bind]. intros H. injection H as <-. cbn [s_lsV s_lsW s_lsCols setLS]. split; [exists 0; repeat split; lia|]. split; [exists []; repeat split; cbn; lia|]. lia.
  - destruct (Nat.ltb_spec reused (length l)) as [B|B]; cbv zeta.
    + destruct (_ || _); [discriminate|]. destruct (dropBack _ (s_lsV s)) as [V'|] eqn:E1; [|discriminate]. cbn [bind]. destruct (dropBack _ (s_lsW s)) as [W'|] eqn:E2; [|discriminate]. cbn [bind].
      intros H. injection H as <-. cbn [s_lsV s_lsW s_lsCols setLS]. apply dropBack_firstn in E1, E2. destruct E1 as [E1 ->], E2 as [E2 ->]. rewrite W.
      split; [exists (length (s_lsV s) - last l 0); repeat split; try reflexivity; lia|]. split.
      * exists (removelast l). split; [reflexivity|]. rewrite removelast_length, firstn_length. assert (N : l <> []) by (intros ->; cbn in B; lia). pose proof (sum_removelast l N). split; lia.
      * cbn [length]. lia.
    + cbn [bind]. intros H. injection H as <-. cbn [s_lsV s_lsW s_lsCols setLS].
      split; [exists (length (s_lsV s)); rewrite firstn_all, <- W, firstn_all; repeat split; lia|]. split; [exists l; repeat split; [lia|exact Sl]|]. split; reflexivity.
Qed.
(** RS-SVD: as long as the weights stay what they are, the matrix that gets decomposed is the
    Jacobian including the last window, scaled with the weights; if the decomposition is exact, the
    Jacobian stays what it is. *)
Theorem C81_restart_svd c evs s o x xt s' size w winv : wf c -> run c evs start = Some s -> c_mode c = Chunks RsSVD size -> 0 < iterations evs ->
  c_force c = false \/ 2 <= iterations evs -> size <= length (s_chunk s) ->
  (forall k, mul (w k) (winv k) = one) -> Forall (weighted w winv) (evs ++ [Converged o x xt]) -> iterationsConverged c o x xt s = Some s' ->
  exists t1 t M, lastDifferences c x xt s = Some t1 /\ prepareStore c o t1 = Some t /\
    M = updatedSVD o (setChunk t (s_chunk s ++ [(s_Wt t, o_Z o)]) (s_svd s)) /\
    (forall y e, unweighed (rowsOf c) w winv M y e = multivector (rowsOf c) (previous c s) (s_V t) (s_W t) (o_Z o) y e) /\
    (forall e, (forall k, k < rowsOf c -> product (o_svd o) e k = M e k) -> forall y, previous c s' y e = multivector (rowsOf c) (previous c s) (s_V t) (s_W t) (o_Z o) y e).
Proof.
  intros Wf R M I C Fu Iv We H. apply Forall_app in We. destruct We as [We1 We2]. apply Forall_inv in We2. destruct We2 as [<- <-].
  destruct (converged_restart F _ _ _ _ _ _ _ _ _ _ Wf (reached _ _ _ Wf R) I M C Fu H) as (t1 & t & u & P1 & P2 & P3 & P4 & P5 & P6 & P7 & K & Q & _).
  assert (D : decomposed F (o_w o) (o_winv o) s) by (refine (run_decomposed F c size _ _ evs M Iv We1 start s _ R); intros N E; discriminate E).
  exists t1, t, (updatedSVD o (setChunk t (s_chunk s ++ [(s_Wt t, o_Z o)]) (s_svd s))). split; [exact P1|]. split; [exact P2|]. split; [reflexivity|].
  assert (E : forall y e, unweighed (rowsOf c) (o_w o) (o_winv o) (updatedSVD o (setChunk t (s_chunk s ++ [(s_Wt t, o_Z o)]) (s_svd s))) y e = multivector (rowsOf c) (previous c s) (s_V t) (s_W t) (o_Z o) y e).
  { intros y e. rewrite (updated_svd F); [|exact Iv|].
    - cbn [s_chunk setChunk]. rewrite chunk_app, <- (lowRank_synced F (rowsOf c) _ _ _ _ (o_Z o) y e P6). unfold previous. rewrite M. cbn [chunkApply]. ring.
    - intros N EN. cbn [s_svd s_chunk setChunk] in *. destruct (D N EN) as (p & rest & Cs & Pp). exists p, (rest ++ [(s_Wt t, o_Z o)]). rewrite Cs. split; [reflexivity|exact Pp]. }
  split; [exact E|]. intros e Ex y. unfold previous at 1. rewrite M, Q, (restart_svd F _ _ _ _ K (rowsOf c) y e), <- E. apply unweighed_ext, Ex.
Qed.
(** RS-SLIDE: nothing but the columns of the last window is left *)
Theorem C81_restart_slide c evs s o x xt s' size : wf c -> run c evs start = Some s -> c_mode c = Chunks RsSlide size -> 0 < iterations evs ->
  c_force c = false \/ 2 <= iterations evs -> size <= length (s_chunk s) -> iterationsConverged c o x xt s = Some s' ->
  exists t1 t, lastDifferences c x xt s = Some t1 /\ prepareStore c o t1 = Some t /\
    forall y e, previous c s' y e = lowRank (rowsOf c) (s_W t, o_Z o) y e.
Proof.
  intros Wf R M I C Fu H. destruct (converged_restart F _ _ _ _ _ _ _ _ _ _ Wf (reached _ _ _ Wf R) I M C Fu H) as (t1 & t & u & P1 & P2 & P3 & P4 & P5 & P6 & P7 & K & Q & _).
  exists t1, t. split; [exact P1|]. split; [exact P2|]. intros y e. cbn [restartIMVJ s_V s_chunk setChunk] in K.
  rewrite app_length in K. cbn [length] in K. replace (length (s_chunk s) + 1 - 1) with (length (s_chunk s)) in K by lia.
  destruct (slide c (s_V t) (length (s_chunk s)) (s_chunk s ++ [(s_Wt t, o_Z o)])) as [l|] eqn:Sl; [|discriminate K]. cbn [bind] in K. injection K as <-. cbn [s_chunk setChunk] in Q.
  destruct (slide_spec F _ _ _ _ _ _ Sl) as (T' & -> & L1 & _ & Nth). destruct (synced_length F _ _ _ _ P6) as [LW LT].
  unfold previous. rewrite M, Q. cbn [chunkApply]. unfold lowRank. cbn [fst snd]. rewrite L1, LT, LW.
  match goal with |- add ?a _ = _ => transitivity a; [ring|] end. apply fsum_ext. intros j Hj. f_equal. change (at_ T' j e = at_ (s_W t) j e). rewrite Nth by (rewrite LT; exact Hj).
  rewrite (synced_nth F _ _ _ _ P6 j Hj). unfold previous. rewrite M. ring.
Qed.

(** * Between the windows *)
(** Without reuse and without forced relaxation, the columns of a window are still there in the first
    iteration of the next one: its update counts the correction of the Jacobian twice *)
Theorem C81_first_iteration c evs s o x xt s1 o2 x2 xt2 x' s' : wf c -> run c evs start = Some s -> isAlways c = false -> 0 < iterations evs ->
  c_mode c = Efficient \/ 2 <= iterations evs -> room c s -> c_reused c = 0 -> c_force c = false ->
  iterationsConverged c o x xt s = Some s1 -> o_deleted o2 = [] -> performAcceleration c o2 x2 xt2 s1 = Some (x', s') ->
  exists V W, V <> [] /\ length W = length V /\ length (o_Z o2) = length V /\
    (forall y e, previous c s1 y e = multivector (rowsOf c) (previous c s) V W (o_Z o) y e) /\
    forall e, x' e = add (xt2 e) (add (previous c s1 (fun k => opp (residual c x2 xt2 k)) e)
      (fsum (length V) (fun j => mul (sub (at_ W j e) (previous c s (at_ V j) e)) (fdot (rowsOf c) (at_ (o_Z o2) j) (fun k => opp (residual c x2 xt2 k)))))).
Proof.
  intros Wf R A I C Rm R0 F0 H D2 P. destruct (between F _ _ _ _ _ _ _ _ Wf (reached _ _ _ Wf R) A I C Rm R0 F0 H) as (B1 & B2 & B3 & B4 & B5).
  destruct (first_update F _ _ _ _ _ _ _ _ A B4 R0 F0 B1 B2 B3 D2 P) as (LZ & U). destruct (synced_length F _ _ _ _ B3) as [LW LT].
  exists (s_V s1), (s_W s1). split; [exact B2|]. split; [exact LW|]. split; [exact LZ|]. split; [exact B5|]. intros e. rewrite U. do 2 f_equal.
  unfold lowRank. cbn [fst snd]. rewrite LT. apply fsum_ext. intros j Hj. f_equal. exact (synced_nth F _ _ _ _ B3 j Hj e).
Qed.
(** The same happens to the Jacobian itself if the next window converges in its first iteration *)
Theorem C81_single_iteration c evs s o x xt s1 o2 x2 xt2 s2 : wf c -> run c evs start = Some s -> isAlways c = false -> 0 < iterations evs ->
  c_mode c = Efficient \/ 2 <= iterations evs -> room c s -> c_reused c = 0 -> c_force c = false ->
  iterationsConverged c o x xt s = Some s1 -> room c s1 -> o_deleted o2 = [] -> iterationsConverged c o2 x2 xt2 s1 = Some s2 ->
  exists V W, V <> [] /\ length W = length V /\ length (o_Z o2) = length V /\
    (forall y e, previous c s1 y e = multivector (rowsOf c) (previous c s) V W (o_Z o) y e) /\
    forall y e, previous c s2 y e = add (previous c s1 y e) (fsum (length V) (fun j => mul (sub (at_ W j e) (previous c s (at_ V j) e)) (fdot (rowsOf c) (at_ (o_Z o2) j) y))).
Proof.
  intros Wf R A I C Rm R0 F0 H Rm1 D2 P. destruct (between F _ _ _ _ _ _ _ _ Wf (reached _ _ _ Wf R) A I C Rm R0 F0 H) as (B1 & B2 & B3 & B4 & B5).
  destruct (single_iteration F _ _ _ _ _ _ A B4 R0 F0 B1 Rm1 D2 P) as (LZ & U). destruct (synced_length F _ _ _ _ B3) as [LW LT].
  exists (s_V s1), (s_W s1). split; [exact B2|]. split; [exact LW|]. split; [exact LZ|]. split; [exact B5|]. intros y e. rewrite U. f_equal.
  unfold lowRank. cbn [fst snd]. rewrite LT. apply fsum_ext. intros j Hj. f_equal. exact (synced_nth F _ _ _ _ B3 j Hj e).
Qed.
(** The filter QR3, which is the default, cannot be applied without columns: a first window that
    converges in its first iteration accesses columns that do not exist *)
Theorem C81_qr3_first c o x xt : isAlways c = false -> c_qr3 c = true -> iterationsConverged c o x xt start = None.
Proof.
  intros A Q. unfold iterationsConverged. assert (E : lastDifferences c x xt start = Some (setMatrices (initializeMatrices c start) [] [] [])).
  { unfold lastDifferences. cbn [getLSSystemCols start bind]. unfold initializeMatrices, updateDifferenceMatrices, isAlways. destruct (c_mode c) as [| |[|r| |] k]; reflexivity. }
  rewrite E. cbn [bind]. unfold specializedIterationsConverged, prepareStore. rewrite A.
  destruct (truncateLS c _) as [t|] eqn:T; [|reflexivity]. cbn [bind]. destruct (truncate_kept F _ _ _ T) as (_ & V & _). unfold applyFilter. rewrite Q, V. reflexivity.
Qed.
End T.
Print Assumptions C81_update. Print Assumptions C81_update_always. Print Assumptions C81_relaxation. Print Assumptions C81_columns. Print Assumptions C81_window. Print Assumptions C81_window_secant.
Print Assumptions C81_window_always. Print Assumptions C81_restart_zero. Print Assumptions C81_restart_ls. Print Assumptions C81_restart_ls_small. Print Assumptions C81_restart_ls_pairs. Print Assumptions C81_restart_ls_window. Print Assumptions C81_restart_svd.
Print Assumptions C81_restart_slide. Print Assumptions C81_first_iteration. Print Assumptions C81_single_iteration. Print Assumptions C81_qr3_first.

(** * Examples *)
Notation QQ := T_QR.rationals.
Notation q := T_QR.q.
Notation v_ := T_QR.vector.
Definition cfg (m : mode) (force : bool) (n : nat) : config QQ := Config m 20 0 force true (q 1 2) (seq 0 n) n.
Definition dec (Z : list (list QQ)) : decisions QQ := Decisions [] [] (map v_ Z) (fun _ => q 1 1) (fun _ => q 1 1) ([], []) [] [].
Definition is (n : nat) (a : nat -> QQ) (l : list QQ) : bool := T_QR.same (map a (seq 0 n)) l.
Definition got {A} (o : option A) : bool := match o with Some _ => true | None => false end.
Definition after (c : config QQ) (evs : list (event QQ)) (f : imvj QQ -> bool) : bool := match run c evs start with Some s => f s | None => false end.
Lemma after_true c evs f : after c evs f = true -> exists s, run c evs start = Some s /\ f s = true.
Proof. unfold after. destruct (run c evs start) as [s|]; [|discriminate]. exists s. auto. Qed.
Lemma is_true n a l : is n a l = true -> forall e, e < n -> a e = nth e l (q 0 1).
Proof.
  unfold is, T_QR.same. rewrite andb_true_iff. intros [L E] e He. apply Nat.eqb_eq in L. rewrite map_length, seq_length in L. rewrite forallb_forall in E.
  apply Qc_eq_bool_correct. specialize (E (a e, nth e l (q 0 1))). apply E.
  replace (a e) with (nth e (map a (seq 0 n)) (q 0 1)).
  - rewrite <- combine_nth by (rewrite map_length, seq_length; exact L). apply nth_In. rewrite combine_length, map_length, seq_length. lia.
  - rewrite (nth_indep _ (q 0 1) (a 0)) by (rewrite map_length, seq_length; exact He). rewrite (map_nth a), seq_nth by exact He. reflexivity.
Qed.
Definition P1 Z x xt : event QQ := Perform (dec Z) (v_ x) (v_ xt).
Definition C1 Z x xt : event QQ := Converged (dec Z) (v_ x) (v_ xt).
(** x/2 + 1 in the first window, x/2 + 2 in the second one *)
Definition w1 : list (event QQ) := [P1 [] [q 0 1] [q 1 1]].
Definition w1e : list (event QQ) := w1 ++ [C1 [[q (-4) 1]] [q 1 2] [q 5 4]].
Definition value (c : config QQ) (evs : list (event QQ)) Z x xt : option QQ :=
  match run c evs start with Some s => match performAcceleration c (dec Z) (v_ x) (v_ xt) s with Some (x', _) => Some (x' 0) | None => None end | None => None end.
Definition eqv (a : option QQ) (b : QQ) : bool := match a with Some a => Qc_eq_bool a b | None => false end.
Definition restarts : list mode := [Chunks RsZero 4; Chunks (RsLS 2) 4; Chunks RsSVD 4; Chunks RsSlide 4].
(** relaxation, then the solution in the second iteration, in all modes *)
Example linear_window :
  forallb (fun m => eqv (value (cfg m false 1) [] [] [q 0 1] [q 1 1]) (q 1 2) && eqv (value (cfg m false 1) w1 [[q (-4) 1]] [q 1 2] [q 5 4]) (q 2 1))
    (Always :: Efficient :: restarts) = true.
Proof. vm_compute. reflexivity. Qed.
(** the first update of the second window *)
Example second_window : eqv (value (cfg Always false 1) w1e [[q (-4) 1]] [q 1 2] [q 9 4]) (q 4 1) && forallb (fun m => eqv (value (cfg m false 1) w1e [[q (-4) 1]] [q 1 2] [q 9 4]) (q 23 4)) (Efficient :: restarts) = true.
Proof. vm_compute. reflexivity. Qed.
Definition J (c : config QQ) (evs : list (event QQ)) (n : nat) (y : list QQ) (l : list QQ) : bool := after c evs (fun s => is n (previous c s (v_ y)) l).
Example window_jacobian : forallb (fun m => J (cfg m false 1) w1e 1 [q 1 1] [q (-1) 1]) (Efficient :: restarts) = true.
Proof. vm_compute. reflexivity. Qed.

(** * What does not hold *)
Lemma wf_cfg m force n : wf (cfg m force n).
Proof. unfold wf, rowsOf, cfg. cbn [c_ids c_all]. rewrite seq_length. lia. Qed.
Definition differ (a b : Qc) : bool := negb (Qc_eq_bool a b).
Lemma differ_true (a b : Qc) : differ a b = true -> a <> b.
Proof. unfold differ, Qc_eq_bool. destruct (Qc_eq_dec a b); [discriminate|auto]. Qed.
Definition eff := cfg Efficient false 1.
Definition first_check : bool :=
  match run eff w1 start with
  | Some s =>
      match iterationsConverged eff (dec [[q (-4) 1]]) (v_ [q 1 2]) (v_ [q 5 4]) s with
      | Some s1 =>
          match performAcceleration eff (dec [[q (-4) 1]]) (v_ [q 1 2]) (v_ [q 9 4]) s1 with
          | Some (x', _) => (length (s_V s1) =? 1) && Qc_eq_bool (@fdot QQ 1 (v_ [q (-4) 1]) (at_ (s_V s1) 0)) (q 1 1) &&
              differ (x' 0) (add (v_ [q 9 4] 0) (previous eff s1 (fun k => opp (residual eff (v_ [q 1 2]) (v_ [q 9 4]) k)) 0))
          | None => false end
      | None => false end
  | None => false end.
Lemma first_checked : first_check = true. Proof. vm_compute. reflexivity. Qed.
(** The first update of a window should be the one of the Jacobian of the windows before *)
Theorem C81_first_iteration_refuted : ~ forall (c : config QQ) evs s o x xt s1 o2 x2 xt2 x' s', wf c -> run c evs start = Some s -> isAlways c = false -> 0 < iterations evs ->
  room c s -> c_reused c = 0 -> c_force c = false -> iterationsConverged c o x xt s = Some s1 -> left_inverse (rowsOf c) (o_Z o2) (s_V s1) -> performAcceleration c o2 x2 xt2 s1 = Some (x', s') ->
  forall e, e < rowsOf c -> x' e = add (xt2 e) (previous c s1 (fun k => opp (residual c x2 xt2 k)) e).
Proof.
  intros H. pose proof first_checked as K. unfold first_check in K.
  destruct (run eff w1 start) as [s|] eqn:R; [|discriminate K].
  destruct (iterationsConverged eff (dec [[q (-4) 1]]) (v_ [q 1 2]) (v_ [q 5 4]) s) as [s1|] eqn:E1; [|discriminate K].
  destruct (performAcceleration eff (dec [[q (-4) 1]]) (v_ [q 1 2]) (v_ [q 9 4]) s1) as [[x' s']|] eqn:E2; [|discriminate K].
  apply andb_true_iff in K. destruct K as [K K3]. apply andb_true_iff in K. destruct K as [K1 K2]. apply Nat.eqb_eq in K1. apply Qc_eq_bool_correct in K2.
  assert (L : left_inverse (rowsOf eff) (o_Z (dec [[q (-4) 1]])) (s_V s1)).
  { split; [exact (eq_sym K1)|]. intros j k Hj Hk. rewrite K1 in Hj, Hk. assert (j = 0) by lia. assert (k = 0) by lia. subst. exact K2. }
  apply differ_true in K3. apply K3.
  exact (H eff w1 s (dec [[q (-4) 1]]) (v_ [q 1 2]) (v_ [q 5 4]) s1 (dec [[q (-4) 1]]) (v_ [q 1 2]) (v_ [q 9 4]) x' s' (wf_cfg _ _ _) R eq_refl Nat.lt_0_1 I eq_refl eq_refl E1 L E2 0 Nat.lt_0_1).
Qed.
(** A window that converges at once should leave a Jacobian that fits the columns it had *)
Definition single_check : bool :=
  match run eff w1 start with
  | Some s =>
      match iterationsConverged eff (dec [[q (-4) 1]]) (v_ [q 1 2]) (v_ [q 5 4]) s with
      | Some s1 =>
          match iterationsConverged eff (dec [[q (-4) 1]]) (v_ [q 4 1]) (v_ [q 4 1]) s1 with
          | Some s2 => (length (s_V s1) =? 1) && Qc_eq_bool (@fdot QQ 1 (v_ [q (-4) 1]) (at_ (s_V s1) 0)) (q 1 1) && differ (previous eff s2 (at_ (s_V s1) 0) 0) (at_ (s_W s1) 0 0)
          | None => false end
      | None => false end
  | None => false end.
Lemma single_checked : single_check = true. Proof. vm_compute. reflexivity. Qed.
Theorem C81_single_iteration_refuted : ~ forall (c : config QQ) evs s o x xt s1 o2 x2 xt2 s2, wf c -> run c evs start = Some s -> isAlways c = false -> 0 < iterations evs ->
  room c s -> c_reused c = 0 -> c_force c = false -> iterationsConverged c o x xt s = Some s1 -> left_inverse (rowsOf c) (o_Z o2) (s_V s1) -> iterationsConverged c o2 x2 xt2 s1 = Some s2 ->
  forall j e, j < length (s_V s1) -> e < rowsOf c -> previous c s2 (at_ (s_V s1) j) e = at_ (s_W s1) j e.
Proof.
  intros H. pose proof single_checked as K. unfold single_check in K.
  destruct (run eff w1 start) as [s|] eqn:R; [|discriminate K].
  destruct (iterationsConverged eff (dec [[q (-4) 1]]) (v_ [q 1 2]) (v_ [q 5 4]) s) as [s1|] eqn:E1; [|discriminate K].
  destruct (iterationsConverged eff (dec [[q (-4) 1]]) (v_ [q 4 1]) (v_ [q 4 1]) s1) as [s2|] eqn:E2; [|discriminate K].
  apply andb_true_iff in K. destruct K as [K K3]. apply andb_true_iff in K. destruct K as [K1 K2]. apply Nat.eqb_eq in K1. apply Qc_eq_bool_correct in K2.
  assert (L : left_inverse (rowsOf eff) (o_Z (dec [[q (-4) 1]])) (s_V s1)).
  { split; [exact (eq_sym K1)|]. intros j k Hj Hk. rewrite K1 in Hj, Hk. assert (j = 0) by lia. assert (k = 0) by lia. subst. exact K2. }
  apply differ_true in K3. apply K3. refine (H eff w1 s (dec [[q (-4) 1]]) (v_ [q 1 2]) (v_ [q 5 4]) s1 (dec [[q (-4) 1]]) (v_ [q 4 1]) (v_ [q 4 1]) s2 (wf_cfg _ _ _) R eq_refl Nat.lt_0_1 I eq_refl eq_refl E1 L E2 0 0 _ Nat.lt_0_1).
  rewrite K1. exact Nat.lt_0_1.
Qed.
(** always-build-jacobian: the Jacobian should fit the last two iterations of a window *)
Definition alw := cfg Always false 1.
Definition always_check : bool :=
  match performAcceleration alw (dec []) (v_ [q 0 1]) (v_ [q 1 1]) start with
  | Some (_, s1) =>
      match iterationsConverged alw (dec []) (v_ [q 1 2]) (v_ [q 5 4]) s1 with
      | Some s2 => differ (previous alw s2 (fun e => sub (residual alw (v_ [q 1 2]) (v_ [q 5 4]) e) (residual alw (v_ [q 0 1]) (v_ [q 1 1]) e)) 0) (sub (v_ [q 5 4] 0) (v_ [q 1 1] 0))
      | None => false end
  | None => false end.
Lemma always_checked : always_check = true. Proof. vm_compute. reflexivity. Qed.
Theorem C81_window_always_refuted : ~ forall (c : config QQ) evs s o x xt x' s1 o2 x2 xt2 s2, wf c -> run c evs start = Some s -> c_mode c = Always ->
  performAcceleration c o x xt s = Some (x', s1) -> iterationsConverged c o2 x2 xt2 s1 = Some s2 ->
  forall e, e < rowsOf c -> previous c s2 (fun k => sub (residual c x2 xt2 k) (residual c x xt k)) e = sub (xt2 e) (xt e).
Proof.
  intros H. pose proof always_checked as K. unfold always_check in K.
  destruct (performAcceleration alw (dec []) (v_ [q 0 1]) (v_ [q 1 1]) start) as [[x' s1]|] eqn:E1; [|discriminate K].
  destruct (iterationsConverged alw (dec []) (v_ [q 1 2]) (v_ [q 5 4]) s1) as [s2|] eqn:E2; [|discriminate K].
  apply differ_true in K. apply K. exact (H alw [] start (dec []) (v_ [q 0 1]) (v_ [q 1 1]) x' s1 (dec []) (v_ [q 1 2]) (v_ [q 5 4]) s2 (wf_cfg _ _ _) eq_refl eq_refl E1 E2 0 Nat.lt_0_1).
Qed.
(** RS-SLIDE: what the last window did not see should stay what it is *)
Definition two (m : mode) := cfg m false 2.
Definition sli := two (Chunks RsSlide 1).
Definition l2 (a b c d : Z) : list QQ := [q a (Z.to_pos b); q c (Z.to_pos d)].
Definition sw : list (event QQ) :=
  [P1 [] (l2 0 1 0 1) (l2 1 1 0 1); C1 [l2 (-4) 1 0 1] (l2 1 2 0 1) (l2 5 4 0 1);
   P1 [l2 (-4) 1 0 1] (l2 1 2 0 1) (l2 1 2 1 1)].
Definition slide_check : bool :=
  match run sli sw start with
  | Some s => (1 <=? length (s_chunk s)) &&
      match lastDifferences sli (v_ (l2 1 2 1 1)) (v_ (l2 1 2 3 2)) s with
      | Some t1 =>
          match prepareStore sli (dec [l2 0 1 (-2) 1]) t1, iterationsConverged sli (dec [l2 0 1 (-2) 1]) (v_ (l2 1 2 1 1)) (v_ (l2 1 2 3 2)) s with
          | Some t, Some s' => (length (s_V t) =? 1) && Qc_eq_bool (@fdot QQ 2 (v_ (l2 0 1 (-2) 1)) (v_ (l2 1 1 0 1))) (q 0 1) &&
              differ (previous sli s' (v_ (l2 1 1 0 1)) 0) (previous sli s (v_ (l2 1 1 0 1)) 0)
          | _, _ => false end
      | None => false end
  | None => false end.
Lemma slide_checked : slide_check = true. Proof. vm_compute. reflexivity. Qed.
Theorem C81_restart_slide_refuted : ~ forall (c : config QQ) evs s o x xt s' size t1 t, wf c -> run c evs start = Some s -> c_mode c = Chunks RsSlide size -> 0 < iterations evs -> c_force c = false ->
  size <= length (s_chunk s) -> lastDifferences c x xt s = Some t1 -> prepareStore c o t1 = Some t -> iterationsConverged c o x xt s = Some s' ->
  forall y, (forall j, j < length (s_V t) -> fdot (rowsOf c) (at_ (o_Z o) j) y = zero) -> forall e, e < c_all c -> previous c s' y e = previous c s y e.
Proof.
  intros H. pose proof slide_checked as K. unfold slide_check in K. destruct (run sli sw start) as [s|] eqn:R; [|discriminate K]. apply andb_true_iff in K. destruct K as [K0 K].
  destruct (lastDifferences sli (v_ (l2 1 2 1 1)) (v_ (l2 1 2 3 2)) s) as [t1|] eqn:E1; [|discriminate K].
  destruct (prepareStore sli (dec [l2 0 1 (-2) 1]) t1) as [t|] eqn:E2; [|discriminate K].
  destruct (iterationsConverged sli (dec [l2 0 1 (-2) 1]) (v_ (l2 1 2 1 1)) (v_ (l2 1 2 3 2)) s) as [s'|] eqn:E3; [|discriminate K].
  apply andb_true_iff in K. destruct K as [K K3]. apply andb_true_iff in K. destruct K as [K1 K2]. apply Nat.eqb_eq in K1. apply Qc_eq_bool_correct in K2. apply Nat.leb_le in K0.
  apply differ_true in K3. apply K3.
  refine (H sli sw s (dec [l2 0 1 (-2) 1]) (v_ (l2 1 2 1 1)) (v_ (l2 1 2 3 2)) s' 1 t1 t (wf_cfg _ _ _) R eq_refl Nat.lt_0_1 eq_refl K0 E1 E2 E3 (v_ (l2 1 1 0 1)) _ 0 Nat.lt_0_2).
  intros j Hj. rewrite K1 in Hj. assert (j = 0) by lia. subst. refine (eq_trans K2 _). apply Qc_is_canon. reflexivity.
Qed.
(** RS-SVD: an exact decomposition should leave the Jacobian as it is, also after the weights changed *)
Definition svd := two (Chunks RsSVD 1).
Definition o2 : decisions QQ := Decisions [] [] [v_ (l2 (-1) 1 (-1) 1)] (fun _ => q 1 1) (fun _ => q 1 1) ([v_ (l2 1 1 1 1)], [v_ (l2 (-1) 1 0 1)]) [] [].
Definition o3 : decisions QQ := Decisions [] [] [v_ (l2 (-1) 1 1 1)] (v_ (l2 1 1 2 1)) (v_ (l2 1 1 1 2)) ([v_ (l2 (-2) 1 (-1) 1); v_ (l2 1 2 0 1)], [v_ (l2 1 1 0 1); v_ (l2 0 1 1 1)]) [] [].
Definition vw : list (event QQ) :=
  [P1 [] (l2 0 1 0 1) (l2 1 1 0 1); C1 [l2 (-2) 1 2 1] (l2 1 2 0 1) (l2 5 4 1 4);
   P1 [l2 (-2) 1 2 1] (l2 0 1 0 1) (l2 1 1 1 1); Converged o2 (v_ (l2 1 1 1 1)) (v_ (l2 3 2 3 2));
   P1 [l2 (-1) 1 (-1) 1] (l2 0 1 0 1) (l2 1 1 (-1) 1)].
Definition x3 := v_ (l2 2 1 0 1). Definition xt3 := v_ (l2 5 2 (-1) 2).
Definition below2 (f : nat -> nat -> bool) : bool := forallb (fun e => forallb (f e) [0; 1]) [0; 1].
Lemma below2_true f : below2 f = true -> forall e k, e < 2 -> k < 2 -> f e k = true.
Proof.
  unfold below2. rewrite forallb_forall. intros H e k He Hk. assert (E : In e [0; 1]) by (cbn; lia). specialize (H e E). rewrite forallb_forall in H. apply H. cbn. lia.
Qed.
Definition svd_check : bool :=
  match run svd vw start with
  | Some s => (1 <=? length (s_chunk s)) &&
      match lastDifferences svd x3 xt3 s with
      | Some t1 =>
          match prepareStore svd o3 t1, iterationsConverged svd o3 x3 xt3 s with
          | Some t, Some s' =>
              below2 (fun e k => Qc_eq_bool (product (o_svd o3) e k) (updatedSVD o3 (setChunk t (s_chunk s ++ [(s_Wt t, o_Z o3)]) (s_svd s)) e k)) &&
              differ (previous svd s' (v_ (l2 1 1 0 1)) 1) (multivector 2 (previous svd s) (s_V t) (s_W t) (o_Z o3) (v_ (l2 1 1 0 1)) 1)
          | _, _ => false end
      | None => false end
  | None => false end.
Lemma svd_checked : svd_check = true. Proof. vm_compute. reflexivity. Qed.
Theorem C81_restart_svd_refuted : ~ forall (c : config QQ) evs s o x xt s' size t1 t, wf c -> run c evs start = Some s -> c_mode c = Chunks RsSVD size -> 0 < iterations evs -> c_force c = false ->
  size <= length (s_chunk s) -> (forall k, k < rowsOf c -> mul (o_w o k) (o_winv o k) = one) -> lastDifferences c x xt s = Some t1 -> prepareStore c o t1 = Some t -> iterationsConverged c o x xt s = Some s' ->
  (forall e k, e < c_all c -> k < rowsOf c -> product (o_svd o) e k = updatedSVD o (setChunk t (s_chunk s ++ [(s_Wt t, o_Z o)]) (s_svd s)) e k) ->
  forall y e, e < c_all c -> previous c s' y e = multivector (rowsOf c) (previous c s) (s_V t) (s_W t) (o_Z o) y e.
Proof.
  intros H. pose proof svd_checked as K. unfold svd_check in K. destruct (run svd vw start) as [s|] eqn:R; [|discriminate K]. apply andb_true_iff in K. destruct K as [K0 K].
  destruct (lastDifferences svd x3 xt3 s) as [t1|] eqn:E1; [|discriminate K]. destruct (prepareStore svd o3 t1) as [t|] eqn:E2; [|discriminate K].
  destruct (iterationsConverged svd o3 x3 xt3 s) as [s'|] eqn:E3; [|discriminate K].
  apply andb_true_iff in K. destruct K as [K1 K2]. apply Nat.leb_le in K0. apply differ_true in K2. apply K2.
  refine (H svd vw s o3 x3 xt3 s' 1 t1 t (wf_cfg _ _ _) R eq_refl Nat.lt_0_1 eq_refl K0 _ E1 E2 E3 _ (v_ (l2 1 1 0 1)) 1 Nat.lt_1_2).
  - intros k Hk. change (k < 2) in Hk. assert (B : below2 (fun _ k => Qc_eq_bool (mul (o_w o3 k) (o_winv o3 k)) (q 1 1)) = true) by (vm_compute; reflexivity).
    refine (eq_trans (Qc_eq_bool_correct _ _ (below2_true _ B 0 k Nat.lt_0_2 Hk)) _). apply Qc_is_canon. reflexivity.
  - intros e k He Hk. exact (Qc_eq_bool_correct _ _ (below2_true _ K1 e k He Hk)).
Qed.
(** Forced relaxation in restart mode: after a window with a single update, the stored columns do not
    fit and the simulation cannot go on *)
Definition forced := cfg (Chunks RsSVD 4) true 1.
Definition fw : list (event QQ) := w1e ++ [P1 [] [q 1 2] [q 9 4]; C1 [[q (-4) 1]] [q 11 8] [q 43 16]; P1 [] [q 0 1] [q 1 1]].
Definition force_check : bool := match run forced fw start with Some s => negb (s_first s) && negb (consistent forced s) | None => false end.
Lemma force_checked : force_check = true. Proof. vm_compute. reflexivity. Qed.
Theorem C81_forced_relaxation_refuted : ~ forall (c : config QQ) evs s, wf c -> run c evs start = Some s -> 0 < iterations evs -> exists o x xt, performAcceleration c o x xt s <> None \/ iterationsConverged c o x xt s <> None.
Proof.
  intros H. pose proof force_checked as K. unfold force_check in K. destruct (run forced fw start) as [s|] eqn:R; [|discriminate K]. apply andb_true_iff in K. destruct K as [K1 K2].
  apply negb_true_iff in K1, K2. destruct (H forced fw s (wf_cfg _ _ _) R Nat.lt_0_1) as (o & x & xt & N).
  assert (U : updateDifferenceMatrices forced x xt (initializeMatrices forced s) = None).
  { rewrite init_kept by (rewrite K1; apply andb_false_r). unfold updateDifferenceMatrices. destruct (updateBase forced x xt s) as [i|] eqn:E; [|reflexivity]. cbn [bind].
    destruct (base_kept QQ _ _ _ _ _ E) as (Kk & _). change (isAlways forced) with false. replace (s_first i) with false by (destruct Kk as (-> & _); symmetry; exact K1). cbn [orb].
    rewrite (kept_consistent QQ forced s i Kk), K2. cbn [negb]. destruct (s_V i); [reflexivity|]. destruct (s_W i); reflexivity. }
  destruct N as [N|N]; apply N.
  - unfold performAcceleration. rewrite U. reflexivity.
  - unfold iterationsConverged, lastDifferences. destruct (getLSSystemCols s); [|reflexivity]. cbn [bind]. rewrite U. reflexivity.
Qed.
(** RS-LS with three unknowns: the restart keeps the column of the last window *)
Definition lsc : config QQ := Config (Chunks (RsLS 1) 1) 20 0 false true (q 1 2) [0; 1; 2] 3.
Definition ols : decisions QQ := Decisions [] [] [v_ (l2 0 1 (-2) 1)] (fun _ => q 1 1) (fun _ => q 1 1) ([], []) [] [v_ (l2 0 1 (-2) 1)].
Example restart_ls_run :
  after lsc (sw ++ [Converged ols (v_ (l2 1 2 1 1)) (v_ (l2 1 2 3 2))]) (fun s => (length (s_lsV s) =? 1) && is 3 (previous lsc s (at_ (s_lsV s) 0)) (map (at_ (s_lsW s) 0) [0; 1; 2]) && is 3 (at_ (s_lsW s) 0) [q 0 1; q 1 2; q 0 1]) = true.
Proof. vm_compute. reflexivity. Qed.
Example restart_ls_window_run : after lsc sw (fun s =>
  (length (s_lsCols s) <=? 2) && (list_sum (s_lsCols s) =? length (s_lsV s)) && (length (s_lsW s) =? length (s_lsV s)) && (0 <? length (s_lsV s)) && got (truncateLS lsc s)) = true.
Proof. vm_compute. reflexivity. Qed.
(** RS-SVD: the first restart of the example above, where the weights are still the same *)
Example restart_svd_run : after svd (firstn 4 vw) (fun s => (length (s_chunk s) =? 1) && is 2 (previous svd s (v_ (l2 1 1 0 1))) (l2 (-1) 1 (-1) 1) && is 2 (previous svd s (v_ (l2 0 1 1 1))) (l2 0 1 0 1)) = true.
Proof. vm_compute. reflexivity. Qed.
Print Assumptions C81_first_iteration_refuted. Print Assumptions C81_single_iteration_refuted. Print Assumptions C81_window_always_refuted. Print Assumptions C81_restart_slide_refuted.
Print Assumptions C81_restart_svd_refuted. Print Assumptions C81_forced_relaxation_refuted.
