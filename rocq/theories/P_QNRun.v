(** Proofs about the columns of quasi-Newton acceleration: runs without failing assertions. *)
From Coq Require Import Bool List Arith Lia Sorted.
From Verif Require Import M_QN P_QN S_QN P_QNWin.
Import ListNotations.

(** * Removing columns from the last to the first *)
Fixpoint keptFrom (keep : nat -> bool) (i : nat) (l : list column) : list column :=
  match l with [] => [] | v :: r => if keep i then v :: keptFrom keep (S i) r else keptFrom keep (S i) r end.
Definition failing (keep : nat -> bool) (i n : nat) : list nat := filter (fun k => negb (keep k)) (seq i n).
Lemma keptColumns_from keep : forall l i, map snd (filter (fun q => keep (fst q)) (combine (seq i (length l)) l)) = keptFrom keep i l.
Proof. induction l as [|v r IH]; intro i; cbn; [reflexivity|]. destruct (keep i); cbn; now rewrite IH. Qed.
Lemma keptFrom_length keep : forall l i, length (keptFrom keep i l) <= length l.
Proof. induction l as [|v r IH]; intro i; cbn; [lia|]. specialize (IH (S i)). destruct (keep i); cbn; lia. Qed.
Lemma keptFrom_hd keep l : keep 0 = true -> hd_error (keptFrom keep 0 l) = hd_error l.
Proof. intro K. destruct l; cbn; [reflexivity|now rewrite K]. Qed.
Lemma insertAll_kept rows keep : forall V i qr, length qr + length V <= rows ->
  insertAll rows keep i V qr = (qr ++ keptFrom keep i V, failing keep i (length V)).
Proof.
  induction V as [|v r IH]; intros i qr L; cbn [insertAll keptFrom length] in *; [now rewrite app_nil_r|].
  unfold insertable, failing. cbn [seq filter]. fold (failing keep (S i) (length r)).
  destruct (Nat.eqb_spec (length qr) rows); [lia|]. destruct (keep i); cbn [andb negb].
  - rewrite IH by (rewrite app_length; cbn; lia). now rewrite <- app_assoc.
  - now rewrite IH by lia.
Qed.
Lemma removeColumns_app a : forall b s, removeMatrixColumns (a ++ b) s = match removeMatrixColumns a s with None => None | Some t => removeMatrixColumns b t end.
Proof. induction a as [|i a IH]; intros b s; cbn; [reflexivity|]. destruct (removeMatrixColumn i s); [apply IH|reflexivity]. Qed.
(** with [p] columns in front that stay *)
Lemma remove_failing keep : forall l i s, core s -> 1 <= i -> 
  (exists p, length p = i /\ q_V s = p ++ l) ->
  exists s', removeMatrixColumns (rev (failing keep i (length l))) s = Some s' /\ core s' /\ q_V s' = firstn i (q_V s) ++ keptFrom keep i l /\ q_qr s' = q_qr s.
Proof.
  induction l as [|v r IH]; intros i s C I (p & Lp & E).
  - exists s. cbn. repeat split; try apply C. rewrite E, app_nil_r, app_nil_r. rewrite <- Lp. now rewrite firstn_all.
  - cbn [length keptFrom]. unfold failing. cbn [seq filter]. fold (failing keep (S i) (length r)).
    destruct (IH (S i) s C ltac:(lia)) as (t & R & Ct & Vt & Qt); [exists (p ++ [v]); split; [rewrite app_length; cbn; lia|now rewrite E, <- app_assoc]|].
    assert (Fi : firstn (S i) (q_V s) = p ++ [v]).
    { rewrite E. change (v :: r) with ([v] ++ r). rewrite app_assoc, firstn_app, app_length, Lp. cbn [length]. replace (S i - (i + 1)) with 0 by lia.
      change (firstn 0 r) with (@nil column). rewrite app_nil_r. apply firstn_all2. rewrite app_length. cbn. lia. }
    assert (Fp : firstn i (q_V s) = p) by (rewrite E, <- Lp, firstn_app, firstn_all, Nat.sub_diag; cbn; apply app_nil_r).
    rewrite Fi in Vt. rewrite Fp.
    destruct (keep i); cbn [negb].
    + exists t. split; [exact R|]. split; [exact Ct|]. split; [|exact Qt]. now rewrite Vt, <- app_assoc.
    + cbn [rev]. rewrite removeColumns_app, R. cbn [removeMatrixColumns].
      assert (Ex : removeColumnFromMatrix i (q_V t) = Some (p ++ keptFrom keep (S i) r)).
      { rewrite Vt. unfold removeColumnFromMatrix. rewrite !app_length. cbn [length]. destruct (Nat.ltb_spec i (length p + 1 + length (keptFrom keep (S i) r))); [|lia].
        f_equal. rewrite <- app_assoc. rewrite <- Lp at 1. rewrite firstn_app, firstn_all, Nat.sub_diag. cbn [firstn]. rewrite app_nil_r. f_equal.
        rewrite app_assoc. rewrite skipn_app, app_length, Lp. cbn [length]. replace (S i - (i + 1)) with 0 by lia. rewrite skipn_all2 by (rewrite app_length; cbn; lia). reflexivity. }
      assert (L2 : 2 <= length (q_V t)) by (rewrite Vt, !app_length, Lp; cbn; lia).
      destruct (removeMatrixColumn i t) as [x|] eqn:X.
      * exists x. split; [reflexivity|]. destruct (removeMatrixColumn_shrinks i t x Ct X) as [Sx Qx]. split; [apply Sx|]. split; [|congruence].
        unfold removeMatrixColumn in X. destruct (Nat.leb_spec (length (q_V t)) 1); [lia|]. destruct Ct as (_ & _ & _ & Wt). rewrite Wt, Ex in X.
        apply some_inj in X. now subst x.
      * exfalso. unfold removeMatrixColumn in X. destruct (Nat.leb_spec (length (q_V t)) 1); [lia|]. destruct Ct as (_ & _ & _ & Wt). rewrite Wt, Ex in X. discriminate.
Qed.
Lemma remove_failing_all keep s : core s -> keep 0 = true ->
  exists s', removeMatrixColumns (rev (failing keep 0 (length (q_V s)))) s = Some s' /\ core s' /\ q_V s' = keptFrom keep 0 (q_V s) /\ q_qr s' = q_qr s.
Proof.
  intros C K. destruct (q_V s) as [|v r] eqn:E.
  - exists s. cbn. split; [reflexivity|]. split; [exact C|]. now split.
  - cbn [length]. unfold failing. cbn [seq filter keptFrom]. rewrite K. cbn [negb]. fold (failing keep 1 (length r)).
    destruct (remove_failing keep r 1 s C ltac:(lia)) as (t & R & Ct & Vt & Qt); [exists [v]; now split|].
    exists t. split; [exact R|]. split; [exact Ct|]. split; [|exact Qt]. rewrite Vt, E. reflexivity.
Qed.

(** * The calls succeed *)
Section Run.
Variable c : config.
Hypothesis max_pos : 0 < c_max c.
Hypothesis max_rows : c_max c < c_rows c.

Definition synced (s : qn) : Prop := core s /\ q_qr s = q_V s /\ length (q_V s) <= c_max c.

Lemma checkColumns_ok s : length (q_qr s) = length (q_V s) -> checkColumns s = Some s.
Proof. intro E. unfold checkColumns. now rewrite E, Nat.eqb_refl. Qed.
Lemma failing_none n : forall i, failing (fun _ => true) i n = [].
Proof. induction n as [|n IH]; intro i; [reflexivity|]. unfold failing. cbn. apply IH. Qed.
Lemma failing_ext f g : (forall i, f i = g i) -> forall n i, failing f i n = failing g i n.
Proof. intros H n. induction n as [|n IH]; intro i; [reflexivity|]. unfold failing in *. cbn. rewrite H, IH. reflexivity. Qed.
Lemma keptFrom_all f : (forall i, f i = true) -> forall l i, keptFrom f i l = l.
Proof. intros H. induction l as [|v r IH]; intro i; cbn; [reflexivity|]. now rewrite H, IH. Qed.
Lemma resetQR_ok d s : (forall i, d i = true) -> synced s -> exists s', resetQR c d s = Some s' /\ synced s' /\ frame s s' /\ q_V s' = q_V s /\ q_cols s' = q_cols s.
Proof.
  intros H (C & Q & L). unfold resetQR. rewrite insertAll_kept by (cbn; lia). cbn [app]. rewrite (keptFrom_all d H).
  rewrite (failing_ext d (fun _ => true) H), failing_none. cbn [removeMatrixColumns]. rewrite checkColumns_ok by reflexivity.
  eexists. split; [reflexivity|]. split; [split; [apply C|split; [reflexivity|exact L]]|]. repeat split.
Qed.
Lemma newQR_ok o s : independent o -> synced s -> exists s', newQR c o s = Some s' /\ synced s' /\ frame s s' /\ q_V s' = q_V s.
Proof.
  intros (_ & H & _) S. unfold newQR. destruct (o_newQR o); [|exists s; repeat split; apply S].
  destruct (isQR23 (c_filter c)).
  - eexists. split; [reflexivity|]. repeat split; try apply S.
  - destruct (resetQR_ok (o_reset o) s H S) as (t & -> & St & Ft & Vt & _). eexists. split; [reflexivity|]. split; [exact St|]. split; [exact Ft|exact Vt].
Qed.
Lemma filter_common o s del qr : independent o -> synced s -> qr = keptFrom (o_keep o) 0 (q_V s) -> del = failing (o_keep o) 0 (length (q_V s)) ->
  exists t, removeMatrixColumns (rev del) (setMatrices s (q_cols s) (q_V s) (q_W s) qr) = Some t /\ synced t /\ frame s t /\ hd_error (q_V t) = hd_error (q_V s).
Proof.
  intros (_ & _ & K) (C & Q & L) -> ->. set (u := setMatrices _ _ _ _ _).
  destruct (remove_failing_all (o_keep o) u C K) as (t & R & Ct & Vt & Qt). exists t. split; [exact R|].
  destruct (removeMatrixColumns_shrinks _ u t C R) as [(_ & Ft & _ & _ & Lt & Nt & _) _].
  split; [split; [exact Ct|split; [rewrite Qt, Vt; reflexivity|]]|split; [exact Ft|rewrite Vt; apply keptFrom_hd, K]].
  change (length (q_V u)) with (length (q_V s)) in Lt. lia.
Qed.
Lemma applyFilter_ok o s : independent o -> synced s -> q_V s <> [] -> exists s', applyFilter c o s = Some s' /\ synced s' /\ frame s s' /\ hd_error (q_V s') = hd_error (q_V s).
Proof.
  intros I S N. pose proof S as (C & Q & L). unfold applyFilter.
  assert (Pos : 0 < length (q_V s)) by (destruct (q_V s); [contradiction|cbn; lia]).
  assert (Main : forall g, exists s', (match removeMatrixColumns (rev (failing (o_keep o) 0 (length (q_V s)))) (setMatrices s (q_cols s) (q_V s) (q_W s) (keptFrom (o_keep o) 0 (q_V s))) with
     None => None | Some s' => checkColumns (setFallback s' (g s')) end) = Some s' /\ synced s' /\ frame s s' /\ hd_error (q_V s') = hd_error (q_V s)).
  { intro g. destruct (filter_common o s _ _ I S eq_refl eq_refl) as (t & -> & St & Ft & Nt). rewrite checkColumns_ok.
    - eexists. split; [reflexivity|]. split; [exact St|]. split; [exact Ft|exact Nt].
    - cbn. f_equal. apply St. }
  assert (Same : forall g, exists s', (match removeMatrixColumns (rev []) (setMatrices s (q_cols s) (q_V s) (q_W s) (q_qr s)) with
     None => None | Some s' => checkColumns (setFallback s' (g s')) end) = Some s' /\ synced s' /\ frame s s' /\ hd_error (q_V s') = hd_error (q_V s)).
  { intro g. cbn [rev removeMatrixColumns]. rewrite checkColumns_ok by (cbn; now rewrite Q). eexists. split; [reflexivity|]. split; [exact S|]. split; [repeat split|reflexivity]. }
  assert (Ins : insertAll (c_rows c) (o_keep o) 0 (q_V s) [] = (keptFrom (o_keep o) 0 (q_V s), failing (o_keep o) 0 (length (q_V s)))) by (rewrite insertAll_kept by (cbn; lia); reflexivity).
  destruct (c_filter c) eqn:F; [exists s; repeat split; try apply S; assumption| | |]; unfold qrFilter; rewrite F.
  - destruct (Nat.leb_spec (length (q_qr s)) 1); [apply (Same (fun t => q_fallback t))|].
    unfold keptColumns. rewrite keptColumns_from, Q. apply (Main (fun t => q_fallback t)).
  - rewrite Ins. apply (Main (fun t => q_fallback t)).
  - rewrite Q. destruct (Nat.eqb_spec (length (q_V s)) 0); [lia|]. destruct (Nat.ltb_spec (length (q_V s)) (length (q_V s))); [lia|]. rewrite andb_false_r. cbn [orb].
    destruct (q_fallback s || o_rebuild o); [rewrite Ins; apply (Main (fun _ => false))|]. rewrite Q in Same. apply (Same (fun _ => false)).
Qed.
Lemma qnStep_ok o s : independent o -> synced s -> q_V s <> [] -> exists s', qnStep c o s = Some s' /\ synced s' /\ frame s s' /\ hd_error (q_V s') = hd_error (q_V s).
Proof.
  intros I S N. unfold qnStep. rewrite (restore_same c o s (proj1 S) (fun _ _ _ => N)). cbn [bind].
  destruct (newQR_ok o s I S) as (t & -> & St & Ft & Vt). cbn [bind].
  destruct (applyFilter_ok o t I St) as (u & -> & Su & Fu & Nu); [now rewrite Vt|]. cbn [bind].
  unfold computeQNUpdate. destruct Su as (Cu & Qu & Lu). rewrite (core_cols u Cu), Qu, Nat.eqb_refl. cbn [bind].
  exists u. split; [reflexivity|]. split; [now repeat split; try apply Cu|]. split; [now apply (frame_trans s t)|now rewrite Nu, Vt].
Qed.
Lemma update_ok o s : independent o -> synced s -> q_firstIteration s = false -> exists s', updateDifferenceMatrices c o s = Some s' /\ synced s' /\ hd_error (q_V s') = Some (q_window s, q_iteration s).
Proof.
  intros (I & _) (C & Q & L) F. pose proof C as (C1 & C2 & C3 & C4).
  assert (X : exists s', updateDifferenceMatrices c o s = Some s' /\ q_qr s' = q_V s').
  { unfold updateDifferenceMatrices. rewrite F, (core_cols s C), C4, Nat.eqb_refl. destruct (Nat.leb_spec (length (q_V s)) (c_max c)); [|lia]. cbn [negb orb].
    unfold insertable. rewrite I, Q. destruct (Nat.eqb_spec (length (q_V s)) (c_rows c)) as [|NR]; [lia|]. cbn [andb negb].
    destruct (q_cols s) as [|n r] eqn:E; [contradiction|]. cbn [frontIncrement]. cbn [tl sum] in C2, C3.
    destruct (Nat.eqb_spec (length (q_V s)) (c_max c)) as [M|M]; cbn [negb andb].
    - destruct (q_V s) as [|v V] eqn:EV; [cbn in M; lia|]. cbn [shiftSetFirst popBack].
      assert (B : exists l, backDecrement (S n :: r) = Some l).
      { assert (N : S n :: r <> []) by discriminate. rewrite (app_removelast_last 0 N). rewrite backDecrement_app; [eexists; reflexivity|].
        destruct r as [|m r']; [cbn; lia|]. change (last (S n :: m :: r') 0) with (last (m :: r') 0). 
        assert (In (last (m :: r') 0) (m :: r')) by (rewrite (app_removelast_last 0 (l := m :: r')) at 2 by discriminate; apply in_or_app; right; now left).
        unfold positive in C2. rewrite Forall_forall in C2. specialize (C2 _ H0). lia. }
      destruct B as [l ->]. eexists. split; [reflexivity|]. reflexivity.
    - destruct (Nat.leb_spec (length (q_V s)) (c_rows c)); [|lia]. eexists. split; [reflexivity|]. reflexivity. }
  destruct X as (s' & X & Q'). exists s'. split; [exact X|]. destruct (update_cases c o s s' max_pos C L F X) as (A1 & _ & A3 & A4 & _).
  split; [now repeat split; try apply A1|]. destruct A3 as [-> | ->]; reflexivity.
Qed.

(** [fresh]: the meshes were changed and nothing happened since *)
Record Good (fresh : bool) (s : qn) : Prop := {
  g_inv : Inv c s;
  g_uninit : uninitialized s = true -> fresh = true \/ q_V s = [];
  g_sync : uninitialized s = false -> q_qr s = q_V s;
  g_keep : q_firstWindow s = false -> ~ (c_reused c = 0 /\ c_force c = true) -> q_V s <> [] \/ q_firstIteration s = false }.

Lemma initializeMatrices_synced f s : Good f s -> synced (initializeMatrices s).
Proof.
  intro G. destruct (initializeMatrices_inv c s (g_inv _ _ G)) as (C & _ & _ & _ & L & _ & _ & Un & In_).
  split; [exact C|]. split; [|exact L]. destruct (uninitialized s) eqn:U; [destruct (Un eq_refl) as [-> ->]; reflexivity|]. rewrite (In_ eq_refl). now apply (g_sync _ _ G).
Qed.
Lemma hd_error_nonempty {A} (l : list A) x : hd_error l = Some x -> l <> [].
Proof. destruct l; [discriminate|intros _; discriminate]. Qed.
Lemma hd_error_In {A} (l : list A) x : hd_error l = Some x -> In x l.
Proof. destruct l; [discriminate|]. intro E. apply some_inj in E. now left. Qed.
Lemma perform_ok f o s : independent o -> Good f s -> exists s', performAcceleration c o s = Some s' /\ Good false s' /\ (q_firstIteration s = false -> current s').
Proof.
  intros I G. pose proof (initializeMatrices_synced f s G) as St. pose proof (g_inv _ _ G) as Iv.
  destruct (initializeMatrices_inv c s Iv) as (C & So & Ol & Fr & L1 & L2 & Ec & Un & In_).
  cut (exists s', performAcceleration c o s = Some s' /\ q_firstIteration s' = false /\ q_qr s' = q_V s' /\ (q_firstIteration s = false -> current s')).
  { intros (s' & E & F & Q & Cu). exists s'. split; [exact E|]. pose proof (perform_inv c o s s' max_pos Iv E) as I'. split; [|exact Cu].
    split; [exact I'| | |].
    - unfold uninitialized. rewrite F, andb_false_r. discriminate.
    - intros _. exact Q.
    - intros _ _. now right. }
  rewrite perform_unfold. set (t := initializeMatrices s) in *. destruct Fr as (F1 & F2 & F3 & F4).
  destruct (q_firstIteration s) eqn:FI.
  - rewrite update_first by congruence. cbn [bind]. rewrite F1. cbn [andb].
    destruct (q_firstWindow t || c_force c) eqn:FW; [eexists; split; [reflexivity|]; split; [reflexivity|split; [apply St|discriminate]]|].
    apply orb_false_iff in FW as [FW Fo]. assert (FWs : q_firstWindow s = false) by congruence.
    assert (N : q_V t <> []).
    { rewrite In_ by (unfold uninitialized; now rewrite FWs). destruct (g_keep _ _ G FWs) as [K|K]; [intros (_ & X); congruence|exact K|congruence]. }
    destruct (qnStep_ok o t I St N) as (u & -> & (Cu & Qu & Lu) & (G1 & G2 & G3 & G4) & Nu). cbn [bind].
    unfold pendingDeletion. rewrite G1, F1, Fo. cbn [andb negb].
    destruct (Nat.eqb_spec (c_reused c) 0) as [R|R]; cbn [andb bind].
    + rewrite (core_cols u Cu), G2, FW. cbn [bind]. eexists. split; [reflexivity|]. split; [reflexivity|split; [reflexivity|discriminate]].
    + eexists. split; [reflexivity|]. split; [reflexivity|split; [exact Qu|discriminate]].
  - destruct (update_ok o t I St F1) as (u & UP & Su & Nu). rewrite UP. cbn [bind].
    destruct (update_frame c o t u UP) as (G1 & G2 & G3 & G4). rewrite G1, F1. cbn [andb].
    destruct (qnStep_ok o u I Su (hd_error_nonempty _ _ Nu)) as (w & -> & (Cw & Qw & Lw) & (H1 & H2 & H3 & H4) & Nw). cbn [bind].
    unfold pendingDeletion. rewrite H1, G1, F1. cbn [andb bind]. eexists. split; [reflexivity|]. split; [reflexivity|split; [exact Qw|]]. intros _.
    unfold current. cbn. apply in_map_iff. exists (q_window t, q_iteration t). split; [cbn; congruence|]. apply hd_error_In. unfold column in *. now rewrite Nw, Nu.
Qed.

Lemma dropBack_ok n : forall V, n <= length V -> dropBack n V V V = Some (firstn (length V - n) V, firstn (length V - n) V, firstn (length V - n) V).
Proof.
  induction n as [|n IH]; intros V L; cbn [dropBack]; [rewrite Nat.sub_0_r, firstn_all; reflexivity|].
  destruct V as [|v r] eqn:E; [cbn in L; lia|]. rewrite <- E in *. assert (N : V <> []) by (rewrite E; discriminate).
  assert (R : removeColumnFromMatrix (length V - 1) V = Some (removelast V)).
  { unfold removeColumnFromMatrix. destruct (Nat.ltb_spec (length V - 1) (length V)); [|lia]. rewrite skipn_all2 by lia. rewrite app_nil_r, removelast_firstn_len. do 2 f_equal. lia. }
  rewrite R. assert (P : popBack V = Some (removelast V)) by (rewrite E; reflexivity). rewrite P.
  rewrite IH by (rewrite length_removelast; lia). rewrite length_removelast, removelast_firstn_len, firstn_firstn.
  replace (Nat.min (length V - 1 - n) (pred (length V))) with (length V - S n) by lia. reflexivity.
Qed.
Lemma last_lt_sum l : positive l -> 2 <= length l -> last l 0 <> 0 /\ last l 0 < sum l.
Proof.
  intros P L. destruct l as [|a [|b r]]; [cbn in L; lia|cbn in L; lia|]. assert (N : a :: b :: r <> []) by discriminate.
  pose proof (sum_removelast _ N) as S1. assert (In (last (a :: b :: r) 0) (a :: b :: r)) by (rewrite (app_removelast_last 0 N) at 2; apply in_or_app; right; now left).
  unfold positive in P. rewrite Forall_forall in P. pose proof (P _ H). split; [lia|]. cbn [removelast sum] in S1. specialize (P a (or_introl eq_refl)). cbn [sum] in *. lia.
Qed.
Lemma dropOldWindows_ok s : settled s -> q_qr s = q_V s -> exists s', dropOldWindows c s = Some s' /\ q_qr s' = q_V s' /\
  (~ (c_reused c = 0 /\ c_force c = true) -> q_V s <> [] -> q_V s' <> []).
Proof.
  intros S Q. pose proof S as (S1 & S2 & S3). unfold dropOldWindows. destruct (Nat.eqb_spec (c_reused c) 0) as [R|R].
  - destruct (c_force c) eqn:F; eexists; (split; [reflexivity|]); (split; [try reflexivity; exact Q|]); [intro X; exfalso; now apply X|auto].
  - destruct (Nat.ltb_spec (c_reused c) (length (q_cols s))) as [L|L]; [|exists s; repeat split; auto].
    destruct (last_lt_sum (q_cols s) S1 ltac:(lia)) as [A B]. destruct (Nat.eqb_spec (last (q_cols s) 0) 0); [contradiction|].
    rewrite (settled_cols s S). destruct (Nat.leb_spec (length (q_V s)) (last (q_cols s) 0)); [lia|]. rewrite S3, Q, dropBack_ok by lia.
    eexists. split; [reflexivity|]. split; [reflexivity|]. intros _ _ N. cbn in N. assert (E : length (firstn (length (q_V s) - last (q_cols s) 0) (q_V s)) = 0) by (rewrite N; reflexivity).
    rewrite firstn_length in E. lia.
Qed.
Lemma converged_ok o s : independent o -> Good false s -> exists s', iterationsConverged c o s = Some s' /\ Good false s'.
Proof.
  intros I G. pose proof (initializeMatrices_synced false s G) as St. pose proof (g_inv _ _ G) as Iv.
  destruct (initializeMatrices_inv c s Iv) as (C & So & Ol & Fr & L1 & L2 & Ec & Un & In_).
  cut (exists s', iterationsConverged c o s = Some s' /\ q_qr s' = q_V s' /\ (uninitialized s' = true -> q_V s' = []) /\
        (q_firstWindow s' = false -> ~ (c_reused c = 0 /\ c_force c = true) -> q_V s' <> [])).
  { intros (s' & E & Q & U & K). exists s'. split; [exact E|]. pose proof (converged_inv c o s s' max_pos Iv E) as I'.
    split; [exact I'|intro X; right; now apply U|intros _; exact Q|intros A B; left; now apply K]. }
  assert (GL : exists gl, getLSSystemCols s = Some gl).
  { destruct (uninitialized s) eqn:U.
    - destruct (g_uninit _ _ G U) as [X|V]; [discriminate|]. unfold getLSSystemCols. rewrite (i_first _ _ Iv U).
      destruct (i_limit _ _ Iv) as (_ & _ & W). rewrite W, V. eexists. reflexivity.
    - destruct (i_core _ _ Iv U) as (Cs & _). rewrite (core_cols s Cs). eexists. reflexivity. }
  destruct GL as (gl & GL). unfold iterationsConverged. rewrite GL. cbn [bind]. set (t := initializeMatrices s) in *. destruct Fr as (F1 & F2 & F3 & F4).
  assert (X : exists u, updateDifferenceMatrices c o t = Some u /\ synced u /\ (q_firstIteration s = false -> q_V u <> []) /\ (q_firstIteration s = true -> u = t)).
  { destruct (q_firstIteration s) eqn:FI; [exists t; split; [apply update_first; congruence|split; [exact St|split; [discriminate|auto]]]|].
    destruct (update_ok o t I St F1) as (u & UP & Su & Nu). exists u. split; [exact UP|]. split; [exact Su|]. split; [intros _; now apply hd_error_nonempty in Nu|discriminate]. }
  destruct X as (u & UP & (Cu & Qu & Lu) & Nu & Eu). rewrite UP. cbn [bind]. destruct (update_frame c o t u UP) as (G1 & G2 & G3 & G4).
  destruct Cu as (C1 & C2 & C3 & C4). destruct (popZeroFront_positive (q_cols u) C2) as (P1 & P2 & P3 & _).
  set (p := setMatrices u (popZeroFront (popZeroFront (q_cols u))) (q_V u) (q_W u) (q_qr u)) in *.
  assert (Sp : settled p) by (unfold settled, p; cbn; repeat split; [exact P1|congruence|exact C4]).
  destruct (dropOldWindows_ok p Sp Qu) as (w & D & Qw & Nw). rewrite D. cbn [bind].
  destruct (dropOldWindows_some c p w Sp D) as (_ & (D1 & D2 & D3 & D4) & _ & _ & Lw & _).
  change (q_firstIteration p) with (q_firstIteration u) in D1. change (q_firstWindow p) with (q_firstWindow u) in D2.
  eexists. split; [reflexivity|]. split; [exact Qw|]. cbn [uninitialized q_firstWindow q_firstIteration q_V]. split.
  - intro U. unfold uninitialized in U. cbn in U. rewrite andb_true_r in U. apply andb_true_iff in U as [U1 U2]. rewrite D1, G1, F1 in U2. rewrite D2, G2, F2 in U1.
    assert (Us : uninitialized s = true) by (unfold uninitialized; now rewrite U1, U2).
    destruct (Un Us) as [Vt _]. change (q_V p) with (q_V u) in Lw. rewrite (Eu U2), Vt in Lw. destruct (q_V w); [reflexivity|cbn in Lw; lia].
  - intros A B. apply (Nw B). change (q_V p) with (q_V u). destruct (q_firstIteration s) eqn:FI; [|now apply Nu].
    rewrite D1, D2, G1, G2, F1, F2, andb_true_r in A. rewrite (Eu eq_refl), In_ by (unfold uninitialized; now rewrite A).
    destruct (g_keep _ _ G A B) as [K|K]; [exact K|congruence].
Qed.

Definition changes (e : event) : bool := match e with Initialize => true | _ => false end.
Lemma initialize_good f s : Good f s -> Good true (initialize s).
Proof. intro G. split; [apply initialize_inv, G| | |]; cbn; try discriminate. intros _. now left. Qed.
Lemma run_ok : forall es f s, Good f s -> all_independent es ->
  (f = true -> forall o r, es <> Converged o :: r) -> (forall a o r, es <> a ++ Initialize :: Converged o :: r) ->
  exists s', run c es s = Some s' /\ exists f', Good f' s'.
Proof.
  induction es as [|e es IH]; intros f s G A B D; [exists s; split; [reflexivity|now exists f]|]. cbn [run].
  assert (A' : all_independent es) by (intros e' o J; apply A; now right).
  assert (D' : forall a o r, es <> a ++ Initialize :: Converged o :: r) by (intros a o r X; apply (D (e :: a) o r); now rewrite X).
  destruct e as [|o|o]; cbn [step].
  - cbn [bind]. apply (IH true); [now apply (initialize_good f)|exact A'| |exact D']. intros _ o r X. apply (D [] o r). now rewrite X.
  - destruct (perform_ok f o s) as (t & -> & Gt & _); [apply (A (Perform o)); [now left|reflexivity]|exact G|]. cbn [bind]. apply (IH false); auto; discriminate.
  - assert (f = false) by (destruct f; [exfalso; now apply (B eq_refl o es)|reflexivity]). subst f.
    destruct (converged_ok o s) as (t & -> & Gt); [apply (A (Converged o)); [now left|reflexivity]|exact G|]. cbn [bind]. apply (IH false); auto; discriminate.
Qed.
Lemma start_good : Good false start.
Proof. split; [apply start_inv| | |]; cbn; try discriminate. intros _. now right. Qed.
End Run.
