(** Proofs about the timing of exports. *)
From Coq Require Import ZArith QArith Bool List String Lia.
From Verif Require Import M_Net M_Time M_Cpl S_Prog S_Cpl P_Cpl P_CplRun M_Watch S_Watch.
Import ListNotations.
Open Scope list_scope.
Open Scope Z_scope.

Section P.
Context {V : Type}.
Variables (gnone vzero : V).
Notation logged := (logged (V:=V) gnone vzero).
Notation run := (run (V:=V) gnone vzero).

Lemma logged_run k c h s n l : logged k c h s n l -> run k c h s.
Proof. induction 1; econstructor; eassumption. Qed.
Lemma run_logged k c h s : run k c h s -> exists n l, logged k c h s n l.
Proof.
  induction 1 as [E s' R|E s' R|h s R IH|h s R IH|h s E dt s' R IH A].
  - do 2 eexists; eapply lg_init; eassumption.
  - do 2 eexists; eapply lg_init_asked; eassumption.
  - destruct IH as (n & l & IH). do 2 eexists; eapply lg_ask_read; eassumption.
  - destruct IH as (n & l & IH). do 2 eexists; eapply lg_ask_write; eassumption.
  - destruct IH as (n & l & IH). do 2 eexists; eapply lg_adv; eassumption.
Qed.

Definition times (l : list iexport) := map ie_time (filter ie_complete l).
Definition winds (l : list iexport) := map ie_window (filter ie_complete l).

Record Log (c : conf) (w : Z) (h : history) (s : st (V:=V)) (n : Z) (l : list iexport) : Prop := {
  g_calls : n = advances h;
  g_it : map ie_iteration l = end_calls h;
  g_winds : winds l = map Z.of_nat (seq 1 (Z.to_nat (completed h)));
  g_times : times l = match Z.to_nat (completed h) with
                      | O => []
                      | S m => map (fun j => Z.of_nat j * w) (seq 1 m) ++ [th_start (s_time s)]
                      end;
  g_final : isCouplingOngoing c s = false -> 0 < advances h ->
            exists l' e, l = l' ++ [e] /\ ie_final e = true /\ ie_complete e = true
}.

Lemma filter_snoc {A} (f : A -> bool) l a : filter f (l ++ [a]) = filter f l ++ (if f a then [a] else []).
Proof. rewrite filter_app. reflexivity. Qed.
Lemma times_snoc l e : times (l ++ [e]) = times l ++ (if ie_complete e then [ie_time e] else []).
Proof. unfold times. rewrite filter_snoc, map_app. destruct (ie_complete e); reflexivity. Qed.
Lemma winds_snoc l e : winds (l ++ [e]) = winds l ++ (if ie_complete e then [ie_window e] else []).
Proof. unfold winds. rewrite filter_snoc, map_app. destruct (ie_complete e); reflexivity. Qed.
Lemma advances_nonneg h : 0 <= advances h.
Proof. induction h as [|e h IH]; cbn [advances]; [lia|destruct e; lia]. Qed.

(** the step taken fits into the window and before max-time *)
Lemma step_fits k c w h s E dt s' : fixed k c w -> Inv c w h s -> returns (p_advance gnone k E c dt s) s' ->
  0 < dt /\ dt <= th_untilWindowEnd (s_time s) w + c_eps c.
Proof.
  intros F I A. pose proof (p_advance_spec _ _ _ _ _ _ _ _ _ F I A) as Sp.
  split; [exact (as_pos _ _ _ _ Sp)|].
  pose proof (as_max _ _ _ _ Sp) as M. unfold getMaxTimeStepSize in M.
  rewrite (as_ongoing _ _ _ _ Sp), (i_tws _ _ _ _ I) in M. exact M.
Qed.

Lemma log_inv k c w h s n l : fixed k c w -> logged k c h s n l -> Log c w h s n l.
Proof.
  intros F L. induction L as [E s' R|E s' R|h s n l L IH|h s n l L IH|h s n l E dt s' L IH A].
  - constructor; cbn [advances end_calls completed]; try reflexivity. intros _ H; lia.
  - constructor; cbn [advances end_calls completed]; try reflexivity. intros _ H; lia.
  - destruct IH as [a b d e f]. unfold answerRead. destruct (a_read (s_req s)); constructor; assumption.
  - destruct IH as [a b d e f]. unfold answerWrite. destruct (a_write (s_req s)); constructor; assumption.
  - pose proof (run_inv gnone vzero k c w h s F (logged_run _ _ _ _ _ _ L)) as I.
    assert (L' := lg_adv gnone vzero k c h s n l E dt s' L A).
    pose proof (run_inv gnone vzero k c w _ s' F (logged_run _ _ _ _ _ _ L')) as I'.
    pose proof (p_advance_spec _ _ _ _ _ _ _ _ _ F I A) as Sp.
    pose proof (as_ongoing _ _ _ _ Sp) as On.
    pose proof (ongoing_start _ _ _ _ I On) as St.
    destruct (step_fits _ _ _ _ _ _ _ _ F I A) as (Dp & Dm).
    assert (Ep : 0 <= c_eps c) by (destruct F as (_ & F & _); exact F).
    destruct IH as [gc gi gw gt gf].
    unfold exportAfterAdvance in *.
    destruct (reachedEndOfTimeWindow c (set_s_time (th_progressBy dt (s_time s)) s)) eqn:Re.
    + destruct (as_end _ _ _ _ Sp Re) as (w' & _ & _ & _ & Sc & Sy & Sn & _ & _ & Sr & _).
      set (e := handleExports c (n + 1) s').
      assert (Ee : o_complete (observe c s') || o_read (observe c s') = true).
      { cbn [observe o_complete o_read]. rewrite Sc, Sr. destruct (c_implicit c), (s_conv s'); reflexivity. }
      assert (Fin : ie_final e = true -> ie_complete e = true).
      { unfold e. cbn [handleExports ie_final ie_complete]. intros Fi. destruct (s_compl s') eqn:C; [reflexivity|].
        exfalso. destruct (Sn eq_refl) as (Ht & Hw).
        assert (isCouplingOngoing c s' = true).
        { clear -On Ht Hw I Dp Dm Ep. unfold isCouplingOngoing in *. rewrite Hw, Ht.
          apply andb_true_iff in On as (O1 & O2). rewrite O1. cbn [andb].
          destruct (th_reachedEnd (c_eps c) (th_resetProgress (s_time s))) eqn:X; [|reflexivity].
          exfalso. revert O2 X. unfold th_reachedEnd, th_resetProgress, th_untilTime, equals, th_time.
          cbn [th_max th_start th_prog]. destruct (th_max (s_time s)) as [T|] eqn:M; [|discriminate].
          pose proof (i_pnonneg _ _ _ _ I) as Pn. pose proof (i_prog _ _ _ _ I) as Pp.
          revert Dm. unfold th_untilWindowEnd, th_untilTime. rewrite M.
          rewrite negb_true_iff, !Z.leb_gt || idtac. intros. lia. }
        rewrite H in Fi. discriminate. }
      constructor; cbn [advances end_calls completed].
      * lia.
      * rewrite map_app, gi, Ee. cbn [map]. unfold e. cbn [handleExports ie_iteration]. rewrite gc. f_equal. f_equal. lia.
      * rewrite winds_snoc, gw. unfold e. cbn [handleExports ie_complete ie_window observe o_complete].
        destruct (s_compl s') eqn:C; [|rewrite app_nil_r; reflexivity].
        destruct (Sy eq_refl) as (_ & Hw). rewrite Hw, (i_windows _ _ _ _ I).
        pose proof (i_nonneg _ _ _ _ I) as Nn.
        replace (Z.to_nat (1 + completed h)) with (Z.to_nat (completed h) + 1)%nat by lia.
        rewrite seq_app, map_app. cbn [map seq]. f_equal. f_equal. lia.
      * rewrite times_snoc. unfold e. cbn [handleExports ie_complete ie_time observe o_complete].
        pose proof (i_nonneg _ _ _ _ I) as Nn.
        destruct (s_compl s') eqn:C.
        -- replace (Z.to_nat (1 + completed h)) with (S (Z.to_nat (completed h))) by lia.
           f_equal.
           ++ rewrite gt, St. destruct (Z.to_nat (completed h)) as [|m] eqn:Em; [reflexivity|].
              replace (S m) with (m + 1)%nat by lia. rewrite seq_app, map_app. cbn [map seq]. f_equal. f_equal. f_equal. lia.
           ++ pose proof (i_prog _ _ _ _ I') as Pr. cbn [progress observe o_complete o_read] in Pr. rewrite C in Pr. cbn [orb] in Pr.
              unfold th_time. rewrite Pr. f_equal. lia.
        -- destruct (Sn eq_refl) as (Ht & _). rewrite app_nil_r. replace (0 + completed h) with (completed h) by lia.
           rewrite gt, Ht. reflexivity.
      * intros Of _. exists l, e. split; [reflexivity|]. assert (ie_final e = true).
        { unfold e. cbn [handleExports ie_final]. rewrite Of. reflexivity. }
        auto.
    + destruct (as_sub _ _ _ _ Sp Re) as (Ht & Hw & _ & Hc & Hr & _).
      rewrite app_nil_r in *.
      constructor; cbn [advances end_calls completed].
      * lia.
      * cbn [observe o_complete o_read]. rewrite Hc, Hr. cbn. rewrite app_nil_r. exact gi.
      * cbn [observe o_complete]. rewrite Hc. exact gw.
      * cbn [observe o_complete]. rewrite Hc, Ht. exact gt.
      * intros Of _. exfalso. revert Of Re.
        unfold isCouplingOngoing in *. rewrite Hw, Ht. apply andb_true_iff in On as (O1 & _). rewrite O1. cbn [andb].
        rewrite negb_false_iff. unfold reachedEndOfTimeWindow. cbn [set_s_time s_tws s_time].
        rewrite (i_tws _ _ _ _ I). revert Dm.
        unfold th_reachedEnd, th_reachedEndOfWindow, th_untilWindowEnd, th_untilTime, th_untilProgress, th_progressBy, equals.
        cbn [th_max th_start th_prog]. destruct (th_max (s_time s)) as [T|]; [|discriminate].
        intros. lia.
Qed.

(** ** What the exporters do with the exports *)

Lemma fold_rows l p : pe_rows (fold_left (fun q e => exportIntermediate e q) l p) = pe_rows p ++ times l.
Proof.
  revert p. induction l as [|e l IH]; intros p; cbn [fold_left]; [unfold times; cbn; now rewrite app_nil_r|].
  rewrite IH. unfold times. cbn [filter exportIntermediate pe_rows]. destruct (ie_complete e); [|reflexivity].
  cbn [map]. rewrite <- app_assoc. reflexivity.
Qed.
Lemma fold_ctx l p : pe_ctx (fold_left (fun q e => exportIntermediate e q) l p) =
  map (fun x => fold_left (fun q e => exportIntermediate1 e q) l x) (pe_ctx p).
Proof.
  revert p. induction l as [|e l IH]; intros p; cbn [fold_left].
  - symmetry. apply map_id.
  - rewrite IH. cbn [exportIntermediate pe_ctx]. rewrite map_map. reflexivity.
Qed.

Lemma exported_rows p l : pe_rows (exported p l) = pe_rows p ++ 0 :: times l.
Proof. unfold exported. rewrite fold_rows. cbn [exportInitial pe_rows]. rewrite <- app_assoc. reflexivity. Qed.
Definition exported1 (l : list iexport) (x : xctx) : xctx :=
  fold_left (fun q e => exportIntermediate1 e q) l (exportInitial1 x).
Lemma exported_ctx p l : pe_ctx (exported p l) = map (exported1 l) (pe_ctx p).
Proof. unfold exported. rewrite fold_ctx. cbn [exportInitial pe_ctx]. rewrite map_map. reflexivity. Qed.

Lemma doExport_conf i t x : x_everyN (doExport i t x) = x_everyN x /\ x_everyIt (doExport i t x) = x_everyIt x /\
  x_update (doExport i t x) = x_update x /\ x_series (doExport i t x) = x_series x.
Proof. unfold doExport. destruct (keepExport x i); repeat split. Qed.
Lemma exportSeries_conf x : x_everyN (exportSeries x) = x_everyN x /\ x_everyIt (exportSeries x) = x_everyIt x /\
  x_update (exportSeries x) = x_update x /\ x_records (exportSeries x) = x_records x.
Proof. unfold exportSeries. destruct (x_records x) eqn:E; repeat split; exact E. Qed.
Lemma exportSeries_some x : x_records x <> [] -> x_series (exportSeries x) = Some (x_records x).
Proof. unfold exportSeries. destruct (x_records x); [congruence|reflexivity]. Qed.

Definition keepN (N : Z) (j : Z) := (0 <? N) && (j mod N =? 0).
Lemma step_windows e x : x_everyIt x = false ->
  let y := exportIntermediate1 e x in
  x_everyN y = x_everyN x /\ x_everyIt y = false /\ x_update y = x_update x /\
  x_records y = x_records x ++ (if ie_complete e && keepN (x_everyN x) (ie_window e) then [(ie_window e, ie_time e)] else []) /\
  (x_records y <> [] -> ie_final e = true -> x_series y = Some (x_records y)) /\
  (x_records y <> [] -> x_update x = true -> x_series x = Some (x_records x) -> x_series y = Some (x_records y)).
Proof.
  intros Hi. cbv zeta. unfold exportIntermediate1. rewrite Hi.
  set (x1 := if ie_complete e then doExport (ie_window e) (ie_time e) x else x).
  assert (H1 : x_everyN x1 = x_everyN x /\ x_everyIt x1 = x_everyIt x /\ x_update x1 = x_update x /\ x_series x1 = x_series x).
  { unfold x1. destruct (ie_complete e); [apply doExport_conf|repeat split]. }
  assert (H2 : x_records x1 = x_records x ++ (if ie_complete e && keepN (x_everyN x) (ie_window e) then [(ie_window e, ie_time e)] else [])).
  { unfold x1. destruct (ie_complete e); cbn [andb]; [|now rewrite app_nil_r]. unfold doExport, keepExport, keepN. rewrite Hi. cbn [orb].
    destruct ((0 <? x_everyN x) && (ie_window e mod x_everyN x =? 0)); [reflexivity|now rewrite app_nil_r]. }
  destruct H1 as (A & B & C & D). destruct (exportSeries_conf x1) as (A' & B' & C' & D').
  destruct (ie_final e || ie_complete e && x_update x1) eqn:G.
  - rewrite A', B', C', D', A, B, C, <- H2. repeat split; auto using exportSeries_some.
  - rewrite A, B, C, <- H2. apply orb_false_iff in G as (G1 & G2). repeat split; auto.
    + intros _ X. congruence.
    + intros _ U S0. rewrite C, U, andb_true_r in G2. rewrite G2 in H2. cbn [andb] in H2. rewrite app_nil_r in H2. congruence.
Qed.

Lemma records_windows l x : x_everyIt x = false ->
  let y := fold_left (fun q e => exportIntermediate1 e q) l x in
  x_everyN y = x_everyN x /\ x_everyIt y = false /\ x_update y = x_update x /\
  x_records y = x_records x ++ filter (fun jt => keepN (x_everyN x) (fst jt)) (combine (winds l) (times l)) /\
  (x_records x <> [] -> x_update x = true -> x_series x = Some (x_records x) -> x_series y = Some (x_records y)) /\
  (x_records x <> [] -> (exists l' e, l = l' ++ [e] /\ ie_final e = true) -> x_series y = Some (x_records y)).
Proof.
  revert x. induction l as [|e l IH]; intros x Hi; cbv zeta; cbn [fold_left].
  - repeat split; auto; [unfold winds; cbn; now rewrite app_nil_r|].
    intros _ (l' & e & X & _). destruct l'; discriminate.
  - destruct (step_windows e x Hi) as (A & B & C & D & E1 & E2).
    destruct (IH (exportIntermediate1 e x) B) as (A' & B' & C' & D' & E1' & E2').
    rewrite A', B', C', A, C. repeat split.
    + rewrite D', D, <- app_assoc, A. f_equal. unfold winds, times. cbn [filter].
      destruct (ie_complete e); cbn [andb map combine filter app fst]; [|reflexivity].
      destruct (keepN (x_everyN x) (ie_window e)); reflexivity.
    + intros N U S0. apply E1'; [rewrite D; destruct (x_records x); [congruence|discriminate]|congruence|].
      apply E2; auto. rewrite D; destruct (x_records x); [congruence|discriminate].
    + intros N (l' & e' & X & Fe). assert (Ny : x_records (exportIntermediate1 e x) <> []).
      { rewrite D; destruct (x_records x); [congruence|discriminate]. }
      destruct l' as [|e0 l'].
      * injection X as -> ->. cbn [fold_left]. apply E1; auto.
      * apply E2'; [exact Ny|]. injection X as _ ->. eauto.
Qed.

Lemma records_its l x : x_everyIt x = true ->
  let y := fold_left (fun q e => exportIntermediate1 e q) l x in
  x_everyN y = x_everyN x /\ x_everyIt y = true /\ x_series y = x_series x /\
  x_records y = x_records x ++ map (fun e => (ie_iteration e, ie_time e)) l.
Proof.
  revert x. induction l as [|e l IH]; intros x Hi; cbv zeta; cbn [fold_left map].
  - repeat split; auto. now rewrite app_nil_r.
  - assert (St : exportIntermediate1 e x = XC (x_everyN x) true (x_update x) (x_records x ++ [(ie_iteration e, ie_time e)]) (x_series x)).
    { unfold exportIntermediate1, doExport, keepExport. rewrite Hi. reflexivity. }
    destruct (IH (exportIntermediate1 e x)) as (A & B & C & D); [rewrite St; reflexivity|].
    rewrite A, B, C, D, St. cbn [x_everyN x_everyIt x_series x_records]. repeat split. rewrite <- app_assoc. reflexivity.
Qed.

Lemma init_windows N u : 1 <= N -> exportInitial1 (fresh_ctx N false u) = XC N false u [(0, 0)] (if u then Some [(0, 0)] else None).
Proof.
  intros H. unfold exportInitial1, fresh_ctx. cbn [x_everyN]. replace (N <? 1) with false by lia.
  unfold doExport, keepExport. cbn [x_everyN x_everyIt orb x_update x_records x_series]. replace (0 <? N) with true by lia.
  rewrite Zmod_0_l. cbn [Z.eqb andb]. destruct u; reflexivity.
Qed.
Lemma init_its N u : exportInitial1 (fresh_ctx N true u) =
  if N <? 1 then fresh_ctx N true u else XC N true u [(0, 0)] (if u then Some [(0, 0)] else None).
Proof. unfold exportInitial1, fresh_ctx. cbn [x_everyN]. destruct (N <? 1); [reflexivity|]. destruct u; reflexivity. Qed.

(** ** The statements *)

Lemma nth_times w m t j : (1 <= j <= S m)%nat ->
  nth j (0 :: map (fun i => Z.of_nat i * w) (seq 1 m) ++ [t]) 0 = if (j =? S m)%nat then t else Z.of_nat j * w.
Proof.
  intros H. destruct j as [|j]; [lia|]. cbn [nth].
  destruct (Nat.eqb_spec (S j) (S m)) as [E|E].
  - assert (j = m) by lia. subst j. rewrite app_nth2 by (rewrite map_length, seq_length; lia).
    rewrite map_length, seq_length, Nat.sub_diag. reflexivity.
  - rewrite app_nth1 by (rewrite map_length, seq_length; lia).
    rewrite (nth_indep _ 0 ((fun i => Z.of_nat i * w) O)) by (rewrite map_length, seq_length; lia).
    rewrite (map_nth (fun i => Z.of_nat i * w)), seq_nth by lia. reflexivity.
Qed.

Theorem watch_rows k c w h s n l ctx : fixed k c w -> logged k c h s n l ->
  let rows := pe_rows (exported (PE ctx []) l) in
  List.length rows = S (Z.to_nat (completed h)) /\ nth 0 rows (-1) = 0 /\
  forall j, 1 <= j <= completed h ->
    nth (Z.to_nat j) rows 0 = j * w \/
    (j = completed h /\ isCouplingOngoing c s = false /\
     exists T, c_maxTime c = Some T /\ Z.abs (T - nth (Z.to_nat j) rows 0) <= c_eps c).
Proof.
  intros F L. cbv zeta. rewrite exported_rows. cbn [pe_rows app].
  pose proof (log_inv _ _ _ _ _ _ _ F L) as G. pose proof (run_inv gnone vzero k c w _ s F (logged_run _ _ _ _ _ _ L)) as I.
  rewrite (g_times _ _ _ _ _ _ G). split; [|split; [reflexivity|]].
  - destruct (Z.to_nat (completed h)) as [|m]; [reflexivity|].
    cbn [List.length]. rewrite app_length, map_length, seq_length. cbn. lia.
  - intros j Hj. destruct (Z.to_nat (completed h)) as [|m] eqn:Em; [lia|].
    rewrite nth_times by lia. destruct (Nat.eqb_spec (Z.to_nat j) (S m)) as [E|E]; [|left; lia].
    assert (j = completed h) by lia. subst j.
    destruct (i_start _ _ _ _ I) as [X|(X & Y & _)]; [left; exact X|right].
    split; [reflexivity|]. split; [unfold isCouplingOngoing; rewrite X; apply andb_false_r|].
    revert X. unfold th_reachedEnd. rewrite (i_max _ _ _ _ I). destruct (c_maxTime c) as [T|]; [|discriminate].
    unfold equals, th_untilTime. rewrite (i_prog _ _ _ _ I), Y. intros X. exists T. split; [reflexivity|]. lia.
Qed.

Lemma records_spec N l C ts : 1 <= N -> winds l = map Z.of_nat (seq 1 C) -> times l = ts -> List.length ts = C ->
  (0, 0) :: filter (fun jt => keepN N (fst jt)) (combine (winds l) (times l)) =
  map (fun j => (j, nth (Z.to_nat j) (0 :: ts) 0)) (multiples N (Z.of_nat C)).
Proof.
  intros HN Hw Ht Hl. rewrite Hw, Ht. unfold multiples, upto. rewrite Nat2Z.id. cbn [seq map filter].
  replace (Z.of_nat 0 mod N =? 0) with true by (cbn [Z.of_nat]; rewrite Zmod_0_l; reflexivity).
  cbn [map]. f_equal. clear Hw Ht l.
  assert (G : forall a us, 0 <= a -> (forall i, (i < List.length ts)%nat -> nth i ts 0 = nth (Z.to_nat a + i) us 0) ->
     filter (fun jt => keepN N (fst jt)) (combine (map Z.of_nat (seq (S (Z.to_nat a)) C)) ts) =
     map (fun j => (j, nth (Z.to_nat j) (0 :: us) 0)) (filter (fun j => j mod N =? 0) (map Z.of_nat (seq (S (Z.to_nat a)) C)))).
  { revert C Hl. induction ts as [|t ts IH]; intros C Hl a us Ha Hn; cbn [List.length] in Hl; subst C; [reflexivity|].
    cbn [seq map combine filter fst].
    assert (IH' := IH _ eq_refl (a + 1) us ltac:(lia)). replace (Z.to_nat (a + 1)) with (S (Z.to_nat a)) in IH' by lia.
    rewrite IH' by (intros i Hi; specialize (Hn (S i)); cbn [List.length nth] in Hn; rewrite Hn by lia; f_equal; lia).
    unfold keepN at 1. replace (0 <? N) with true by lia. cbn [andb].
    destruct (Z.of_nat (S (Z.to_nat a)) mod N =? 0); [|reflexivity]. cbn [map]. f_equal. f_equal.
    rewrite Nat2Z.id. cbn [nth]. specialize (Hn O). cbn [List.length nth] in Hn. rewrite Hn by lia. f_equal. lia. }
  apply (G 0 ts); [lia|]. reflexivity.
Qed.

Lemma times_length c w h s n l : Inv c w h s -> Log c w h s n l -> List.length (times l) = Z.to_nat (completed h).
Proof.
  intros I G. rewrite (g_times _ _ _ _ _ _ G). destruct (Z.to_nat (completed h)) as [|m]; [reflexivity|].
  rewrite app_length, map_length, seq_length. cbn. lia.
Qed.

Theorem window_exports k c w h s n l N u : fixed k c w -> logged k c h s n l -> 1 <= N ->
  let p := exported (PE [fresh_ctx N false u] []) l in
  exists x, pe_ctx p = [x] /\
  x_records x = map (fun j => (j, nth (Z.to_nat j) (pe_rows p) 0)) (multiples N (completed h)) /\
  (u = true -> x_series x = Some (x_records x)) /\
  (isCouplingOngoing c s = false -> 0 < advances h -> x_series x = Some (x_records x)).
Proof.
  intros F L HN. cbv zeta. rewrite exported_rows, exported_ctx. cbn [pe_rows pe_ctx app map].
  pose proof (log_inv _ _ _ _ _ _ _ F L) as G. pose proof (run_inv gnone vzero k c w _ s F (logged_run _ _ _ _ _ _ L)) as I.
  unfold exported1. rewrite init_windows by exact HN.
  destruct (records_windows l (XC N false u [(0, 0)] (if u then Some [(0, 0)] else None)) eq_refl) as (_ & _ & _ & D & E1 & E2).
  eexists; split; [reflexivity|]. cbn [x_everyN x_records x_series x_update] in *. split; [|split].
  - rewrite D. cbn [app]. rewrite (records_spec N l (Z.to_nat (completed h)) (times l) HN (g_winds _ _ _ _ _ _ G) eq_refl (times_length _ _ _ _ _ _ I G)).
    rewrite Z2Nat.id by apply (i_nonneg _ _ _ _ I). reflexivity.
  - intros ->. apply E1; [discriminate|reflexivity|reflexivity].
  - intros Of Ha. apply E2; [discriminate|]. destruct (g_final _ _ _ _ _ _ G Of Ha) as (l' & e & A & B & _). eauto.
Qed.

Theorem iteration_exports k c w h s n l N u : fixed k c w -> logged k c h s n l ->
  let p := exported (PE [fresh_ctx N true u] []) l in
  exists x, pe_ctx p = [x] /\
  map fst (x_records x) = (if N <? 1 then [] else [0]) ++ end_calls h /\
  x_series x = (if (N <? 1) || negb u then None else Some [(0, 0)]).
Proof.
  intros F L. cbv zeta. rewrite exported_ctx. cbn [pe_ctx map].
  pose proof (log_inv _ _ _ _ _ _ _ F L) as G. unfold exported1. rewrite init_its.
  assert (E : x_everyIt (if N <? 1 then fresh_ctx N true u else XC N true u [(0, 0)] (if u then Some [(0, 0)] else None)) = true)
    by (destruct (N <? 1); reflexivity).
  destruct (records_its l _ E) as (_ & _ & C & D).
  eexists; split; [reflexivity|]. rewrite C, D, map_app, map_map. cbn [fst].
  rewrite (map_ext _ ie_iteration) by reflexivity.
  rewrite (g_it _ _ _ _ _ _ G). destruct (N <? 1), u; split; reflexivity.
Qed.
End P.
