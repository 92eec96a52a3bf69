(** C70: data actions. *)
From Coq Require Import ZArith QArith Bool List Lia Arith Sorted.
From Verif Require Import M_Time M_Wave M_WaveCache M_MapTime S_Wave S_MapTime P_Wave P_MapTime T_MapTime M_Action S_Action P_Action.
Import ListNotations.
Open Scope nat_scope.

Section T.
Variable eps : Z.
Hypothesis E0 : (0 <= eps)%Z.
Notation store := (store values).

(** multiply-by-area and divide-by-area treat every sample of their data, and nothing else *)
Theorem C70_scaling divide d dims m (s s' : store) : ordered eps (s d) -> performAction eps (ScaleByArea divide d dims m) s = Ok s' ->
  (forall e, e <> d -> s' e = s e) /\ every_sample (if divide then divided dims m else multiplied dims m) (s d) (s' d).
Proof.
  intros O H. cbn [performAction] in H. destruct (scaleLoop eps divide dims m (length (s d)) 0 (s d)) as [w| |] eqn:E; try discriminate. cbn [bindR] in H. injection H as <-.
  split; [intros e He; apply upd_other, He|]. rewrite upd_same. destruct (scaleLoop_ok eps E0 divide dims m (s d) [] w (ordered_ord eps _ O) E) as [b [-> B]]. destruct divide; exact B.
Qed.
(** they work on every mesh with elements, if every vertex has an area where values are divided *)
Theorem C70_scaling_succeeds divide d dims m (s : store) : ordered eps (s d) -> (forall p, In p (s d) -> length (snd p) = am_n m * dims) -> elements m <> [] ->
  (divide = true -> forall i, i < am_n m -> ~ (vertex_area m i == 0)%Q) -> exists s', performAction eps (ScaleByArea divide d dims m) s = Ok s'.
Proof.
  intros O L N D. destruct (scaleLoop_succeeds eps E0 divide dims m N D (s d) [] (ordered_ord eps _ O) L) as [w E]. exists (upd s d w).
  exact (f_equal (fun r => bindR r (fun w => Ok (upd s d w))) E).
Qed.
(** multiplying turns a density into values that sum up to its integral *)
Theorem C70_integral dims m v v' c : corners_ok m -> multiplied dims m v v' -> c < dims ->
  (total (am_n m) (component dims c v') == integral m (component dims c v))%Q.
Proof.
  intros C [_ [_ H]] Hc. rewrite <- integral_ok by exact C. apply total_ext. intros i Hi. apply H; assumption.
Qed.
(** dividing undoes multiplying, and the other way round *)
Theorem C70_inverse dims m v v' v'' : multiplied dims m v v' /\ divided dims m v' v'' \/ divided dims m v v' /\ multiplied dims m v' v'' ->
  length v'' = length v /\ forall i c, i < am_n m -> c < dims -> (component dims c v'' i == component dims c v i)%Q.
Proof.
  intros [[[L1 [L2 M]] [L3 [L4 D]]]|[[L1 [L2 D]] [L3 [L4 M]]]]; (split; [congruence|]); intros i c Hi Hc.
  - destruct (D i c Hi Hc) as [N E]. rewrite E, (M i c Hi Hc). field. exact N.
  - destruct (D i c Hi Hc) as [N E]. rewrite (M i c Hi Hc), E. field. exact N.
Qed.

(** summation stores the sum of the sources for each of their times, and touches nothing else *)
Theorem C70_summation sources target size (s : store) new : sources <> [] -> ~ In target sources -> let ref := s (hd 0 sources) in
  ordered eps ref -> ordered eps (s target) -> fits eps ref (s target) new ->
  (forall e, In e sources -> same_times eps ref (s e) /\ forall p, In p (s e) -> length (snd p) = size) ->
  exists s', performAction eps (Summation sources target size) s = Ok s' /\ (forall e, e <> target -> s' e = s e) /\ ordered eps (s' target) /\
    map fst (s' target) = map fst (s target) ++ new /\
    (forall k p, nth_error ref k = Some p -> exists v, In (fst p, v) (s' target) /\ adds_up (map s sources) k size v) /\
    (forall q, In q (s target) -> ~ In (fst q) (map fst ref) -> In q (s' target)).
Proof.
  destruct sources as [|d r]; [contradiction|]. intros _ NT ref O1 O2 F H. cbn [hd] in ref.
  destruct (summationLoop_ok eps E0 d r target size s NT (s d) [] s new eq_refl ltac:(reflexivity) (ordered_ord eps _ O1) (ordered_ord eps _ O2) F) as [s' [H1 [H2 [H3 [H4 [H5 H6]]]]]].
  { intros k p Hk e He. cbn [length Nat.add]. destruct (H e He) as [T L]. revert k Hk L. unfold ref in T. clear -T. induction T as [|a b la lb Hab T IH]; intros [|k] Hk L; try discriminate.
    - cbn in Hk. injection Hk as <-. destruct b as [u x]. exists u, x. split; [reflexivity|]. split; [exact Hab|]. exact (L _ (or_introl eq_refl)).
    - apply IH; [exact Hk|]. intros q Hq. apply L. right. exact Hq. }
  exists s'. split; [exact H1|]. split; [exact H2|]. split; [apply ord_ordered, H3|]. split; [exact H4|]. split; [exact H5|exact H6].
Qed.
(** samples of different times are never summed up *)
Theorem C70_summation_checks_times sources target size (s s' : store) : ~ In target sources -> performAction eps (Summation sources target size) s = Ok s' ->
  forall k e, k < length (s (hd 0 sources)) -> In e sources ->
  exists t v u x, nth_error (s (hd 0 sources)) k = Some (t, v) /\ nth_error (s e) k = Some (u, x) /\ (Z.abs (u - t) <= eps)%Z.
Proof.
  destruct sources as [|d r]; [discriminate|]. intros NT H k e Hk He. exact (summationLoop_checks eps d r target size s NT _ 0 s s' ltac:(reflexivity) H k ltac:(cbn [hd] in Hk; lia) e He).
Qed.

(** * In a run *)
Variable small : values -> bool.
Definition target_of (a : action) : nat := match a with Summation _ t _ => t | ScaleByArea _ t _ _ => t end.
Lemma summationLoop_other sources target size : forall n k s s', summationLoop eps sources target size n k s = Ok s' -> forall e, e <> target -> s' e = s e.
Proof.
  induction n as [|n IH]; intros k s s' H e He; cbn [summationLoop] in H; [injection H as <-; reflexivity|]. destruct (nth_error (s (hd 0 sources)) k) as [[t x]|]; [|discriminate].
  destruct (sumSources eps sources k t s (repeat 0%Q size)) as [v| |]; try discriminate. cbn [bindR] in H. destruct (w_set eps (s target) t v); [|discriminate].
  rewrite (IH _ _ _ H e He). apply upd_other, He.
Qed.
Lemma performAction_other a s s' : performAction eps a s = Ok s' -> forall e, e <> target_of a -> s' e = s e.
Proof.
  destruct a as [sources target size|divide target dims m]; cbn [performAction target_of]; intros H e He.
  - destruct sources as [|d r]; [discriminate|]. exact (summationLoop_other _ _ _ _ _ _ _ H e He).
  - destruct (scaleLoop eps divide dims m (length (s target)) 0 (s target)); try discriminate. injection H as <-. apply upd_other, He.
Qed.
(** [a] is the only action of the given time that changes its data *)
Definition only (w : timing) (a : action) (acts : list (timing * action)) : Prop :=
  exists l1 l2, acts = l1 ++ (w, a) :: l2 /\ forall b, In b (l1 ++ l2) -> isTiming (fst b) w = true -> target_of (snd b) <> target_of a.
Lemma actions_other w acts d : (forall b, In b acts -> isTiming (fst b) w = true -> target_of (snd b) <> d) -> forall s s', performDataActions eps w acts s = Ok s' -> s' d = s d.
Proof.
  induction acts as [|[w' a] r IH]; intros N s s' H; cbn [performDataActions] in H; [injection H as <-; reflexivity|].
  assert (Nr : forall b, In b r -> isTiming (fst b) w = true -> target_of (snd b) <> d) by (intros b Hb; apply N; right; exact Hb).
  destruct (isTiming w' w) eqn:E; [|exact (IH Nr s s' H)]. destruct (performAction eps a s) as [s1| |] eqn:A; try discriminate. cbn [bindR] in H. rewrite (IH Nr s1 s' H).
  apply (performAction_other a s s1 A). intros Q. exact (N _ (or_introl eq_refl) E (eq_sym Q)).
Qed.
Lemma isTiming_refl w : isTiming w w = true. Proof. destruct w; reflexivity. Qed.
Lemma actions_scale w acts divide d dims m : only w (ScaleByArea divide d dims m) acts -> forall s s', ordered eps (s d) -> performDataActions eps w acts s = Ok s' ->
  every_sample (if divide then divided dims m else multiplied dims m) (s d) (s' d).
Proof.
  intros [l1 [l2 [-> N]]]. cbn [target_of] in N. induction l1 as [|[w' a] r IH]; intros s s' O H; cbn [app performDataActions] in H.
  - rewrite isTiming_refl in H. destruct (performAction eps (ScaleByArea divide d dims m) s) as [s1| |] eqn:A; try discriminate. cbn [bindR] in H.
    rewrite (actions_other w l2 d) with (s := s1) (s' := s'); [|intros b Hb; apply N; exact Hb|exact H]. exact (proj2 (C70_scaling divide d dims m s s1 O A)).
  - assert (Nr : forall b, In b (r ++ l2) -> isTiming (fst b) w = true -> target_of (snd b) <> d) by (intros b Hb; apply N; right; exact Hb).
    destruct (isTiming w' w) eqn:E; [|exact (IH Nr s s' O H)]. destruct (performAction eps a s) as [s1| |] eqn:A; try discriminate. cbn [bindR] in H.
    assert (Q : s1 d = s d). { apply (performAction_other a s s1 A). intros Q. exact (N _ (or_introl eq_refl) E (eq_sym Q)). }
    rewrite <- Q. apply (IH Nr s1 s'); [rewrite Q; exact O|exact H].
Qed.

Lemma after_other p complete stepped now start rcv (s s' : store) d : NoDup (map cx_to (readContexts p)) -> ~ In d (map cx_to (readContexts p)) -> ~ In d (written_data p) ->
  handleDataAfterAdvance eps small p true complete stepped now start rcv s = Ok s' -> s' d = if complete then w_trimBefore eps (s d) start else s d.
Proof.
  intros ND NT NW H. unfold handleDataAfterAdvance, mapRead in H. cbn [negb] in H. destruct complete.
  - destruct (greaterEquals eps now stepped); [|discriminate].
    match type of H with bindR ?m _ = _ => destruct m as [(s1, k)| |] eqn:E; cbn [bindR fst] in H; try discriminate end.
    injection H as <-. rewrite (mapData_other eps small _ _ _ _ _ _ _ E d NT).
    unfold trimReadMappedData. rewrite (proj1 (fold_read eps true now rcv (readContexts p) _ ND) d NT). reflexivity.
  - destruct (greater eps stepped now); [|discriminate].
    match type of H with bindR ?m _ = _ => destruct m as [(s1, k)| |] eqn:E; cbn [bindR fst] in H; try discriminate end.
    injection H as <-. rewrite (mapData_other eps small _ _ _ _ _ _ _ E d NT).
    unfold trimReadMappedData. rewrite (proj1 (fold_read eps false now rcv (readContexts p) _ ND) d NT).
    unfold trimSendDataAfter. rewrite fold_send. fold (written_data p). rewrite (existsb_false d _ NW). reflexivity.
Qed.
Lemma advance_parts p acts substeps o buffer arrive (s s' : store) : o_atEnd o = true -> advanceData eps small p acts substeps o buffer arrive s = Ok s' ->
  exists s1 s2 s3, arrive s1 = Ok s2 /\ handleDataAfterAdvance eps small p true (o_complete o) (o_steppedTo o) (o_after o) (o_startAfter o) (o_received o) s2 = Ok s3 /\
    performDataActions eps ReadMappingPost acts s3 = Ok s'.
Proof.
  intros A H. unfold advanceData in H. rewrite A in H.
  destruct (handleDataBeforeAdvance eps small p true substeps (o_steppedTo o) (o_startBefore o) buffer s) as [s0| |]; try discriminate. cbn [bindR] in H.
  destruct (performDataActions eps WriteMappingPost acts s0) as [s1| |]; try discriminate. cbn [bindR] in H.
  destruct (arrive s1) as [s2| |] eqn:E2; try discriminate. cbn [bindR] in H.
  destruct (handleDataAfterAdvance eps small p true (o_complete o) (o_steppedTo o) (o_after o) (o_startAfter o) (o_received o) s2) as [s3| |] eqn:E3; try discriminate. cbn [bindR] in H.
  exists s1, s2, s3. auto.
Qed.
Lemma setMany_ordered : forall w a : wave values, Ord eps (a ++ w) -> w_setMany eps a w = Some (a ++ w).
Proof.
  induction w as [|[t v] r IH]; intros a O; cbn [w_setMany]; [rewrite app_nil_r; reflexivity|].
  rewrite (set_append eps E0) with (w := a).
  - rewrite (app_assoc1 a r (t, v)) in O |- *. apply IH, O.
  - clear IH. induction a as [|q a IH]; [constructor|]. cbn [app] in O. inversion O as [|x y O1 O2]; subst. constructor; [apply IH, O1|]. apply Forall_app in O2 as [O2 _]. exact O2.
  - intros u Hu. apply in_map_iff in Hu as [q [<- Hq]]. clear -O Hq. induction a as [|q' a IH]; [destruct Hq|]. destruct Hq as [->|Hq].
    + cbn [app] in O. exact (ord_after eps _ _ O (t, v) ltac:(apply in_or_app; right; left; reflexivity)).
    + apply IH; [|exact Hq]. cbn [app] in O. inversion O; assumption.
Qed.

(** Data that arrives with all its samples and is not mapped: after every call at the end of a window,
    whatever happened before, every sample of the window is the received one, scaled exactly once. *)
Theorem C70_received_with_substeps_once p acts o buffer (s s' : store) divide d dims m substeps w :
  only ReadMappingPost (ScaleByArea divide d dims m) acts -> NoDup (map cx_to (readContexts p)) -> ~ In d (map cx_to (readContexts p)) -> ~ In d (written_data p) ->
  o_atEnd o = true -> ordered eps w -> advanceData eps small p acts substeps o buffer (arriveAll eps d w) s = Ok s' ->
  every_sample (if divide then divided dims m else multiplied dims m) (if o_complete o then w_trimBefore eps w (o_startAfter o) else w) (s' d).
Proof.
  intros On ND NT NW A O H. destruct (advance_parts _ _ _ _ _ _ _ _ A H) as [s1 [s2 [s3 [H1 [H2 H3]]]]].
  unfold arriveAll in H1. rewrite (setMany_ordered w [] (ordered_ord eps _ O)) in H1. injection H1 as <-.
  pose proof (after_other p _ _ _ _ _ _ _ d ND NT NW H2) as Q. rewrite upd_same in Q. cbn [app] in Q. rewrite <- Q.
  apply (actions_scale _ _ _ _ _ _ On s3 s'); [|exact H3]. apply ord_ordered. rewrite Q. destruct (o_complete o); [apply ord_filter|]; exact (ordered_ord eps _ O).
Qed.
(** Data that arrives for the end of the window only: the value at the end is scaled exactly once. *)
Theorem C70_received_at_the_end_once p acts o buffer (s s' : store) divide d dims m substeps t v :
  only ReadMappingPost (ScaleByArea divide d dims m) acts -> NoDup (map cx_to (readContexts p)) -> ~ In d (map cx_to (readContexts p)) -> ~ In d (written_data p) ->
  o_atEnd o = true -> (o_startAfter o <= t)%Z ->
  (forall b, In b acts -> isTiming (fst b) WriteMappingPost = true -> target_of (snd b) <> d) -> ordered eps (s d) -> (exists new, fits eps [(t, v)] (s d) new) ->
  advanceData eps small p acts substeps o buffer (arriveEnd eps d t v) s = Ok s' ->
  exists v', In (t, v') (s' d) /\ (if divide then divided dims m else multiplied dims m) v v'.
Proof.
  intros On ND NT NW A Lt NA O Fi H. unfold advanceData in H. rewrite A in H.
  destruct (handleDataBeforeAdvance eps small p true substeps (o_steppedTo o) (o_startBefore o) buffer s) as [s0| |] eqn:E0'; try discriminate. cbn [bindR] in H.
  destruct (performDataActions eps WriteMappingPost acts s0) as [s1| |] eqn:E1; try discriminate. cbn [bindR] in H.
  assert (Q0 : s0 d = s d).
  { unfold handleDataBeforeAdvance in E0'. cbn [orb] in E0'. destruct (samplize eps (writeContexts p) (o_steppedTo o) buffer s) as [sa| |] eqn:SA; try discriminate. cbn [bindR] in E0'.
    destruct (mapWritten eps small (writeContexts p) (Some (o_startBefore o)) false sa 0) as [[sb k]| |] eqn:SB; try discriminate. cbn [bindR fst] in E0'. injection E0' as <-.
    unfold written_data in NW. transitivity (sa d).
    - clear -SB NW. revert sa k SB. generalize 0. induction (writeContexts p) as [|c r IH]; intros n sa k SB; cbn [mapWritten] in SB; [injection SB as -> _; reflexivity|].
      cbn [flat_map] in NW. destruct (mapData eps small (Some (o_startBefore o)) false (wc_mappings c) sa n) as [[sc k']| |] eqn:MD; try discriminate. cbn [bindR fst snd] in SB.
      rewrite (IH ltac:(intros X; apply NW, in_or_app; right; exact X) _ _ _ SB). apply (mapData_other eps small _ _ _ _ _ _ _ MD). intros X. apply NW, in_or_app. left. right. exact X.
    - clear -SA NW. revert s sa SA. induction (writeContexts p) as [|c r IH]; intros s sa SA; cbn [samplize] in SA; [injection SA as ->; reflexivity|].
      cbn [flat_map] in NW. destruct (w_set eps (s (wc_data c)) (o_steppedTo o) (buffer (wc_data c))) as [w|]; [|discriminate].
      rewrite (IH ltac:(intros X; apply NW, in_or_app; right; exact X) _ _ SA). apply upd_other. intros X. apply NW, in_or_app. left. left. symmetry. exact X. }
  assert (Q1 : s1 d = s d) by (rewrite (actions_other _ _ d NA _ _ E1); exact Q0).
  destruct (arriveEnd eps d t v s1) as [s2| |] eqn:E2; try discriminate. cbn [bindR] in H.
  destruct (handleDataAfterAdvance eps small p true (o_complete o) (o_steppedTo o) (o_after o) (o_startAfter o) (o_received o) s2) as [s3| |] eqn:E3; try discriminate. cbn [bindR] in H.
  pose proof (after_other p _ _ _ _ _ _ _ d ND NT NW E3) as Q3.
  assert (I2 : Ord eps (s2 d) /\ In (t, v) (s2 d)).
  { unfold arriveEnd in E2. rewrite Q1 in E2. destruct (w_set eps (s d) t v) as [w|] eqn:W; [|discriminate]. injection E2 as <-. rewrite upd_same. split; [exact (ord_set eps E0 _ _ _ _ (ordered_ord eps _ O) W)|].
    destruct Fi as [new [old [F1 [F2 F3]]]]. cbn [map fst] in F1. destruct old as [|t' [|]]; cbn [app] in F1.
    - rewrite set_append in W; [injection W as <-; apply in_or_app; right; left; reflexivity|exact E0|exact (ordered_ord eps _ O)|]. intros u Hu. apply F3; [rewrite <- F1; left; reflexivity|exact Hu].
    - injection F1 as <- _. specialize (F2 t (or_introl eq_refl)). apply in_map_iff in F2 as [[u y] [Eu Hy]]. cbn in Eu. subst u. rewrite (set_exact eps E0 _ t y v (ordered_ord eps _ O) Hy) in W. injection W as <-.
      apply in_map_iff. exists (t, y). split; [cbn; rewrite Z.eqb_refl; reflexivity|exact Hy].
    - discriminate. }
  destruct I2 as [O2 I2].
  assert (I3 : In (t, v) (s3 d)). { rewrite Q3. destruct (o_complete o); [|exact I2]. apply filter_In. split; [exact I2|]. unfold smaller. cbn [fst]. apply negb_true_iff, Z.ltb_ge. lia. }
  assert (O3 : Ord eps (s3 d)) by (rewrite Q3; destruct (o_complete o); [apply ord_filter|]; exact O2).
  pose proof (actions_scale _ _ _ _ _ _ On s3 s' (ord_ordered eps _ O3) H) as R. clear -R I3. induction R as [|a b la lb [R1 R2] R IH]; [destruct I3|]. destruct I3 as [->|I3].
  - exists (snd b). destruct b as [u x]. cbn in *. subst u. split; [left; reflexivity|exact R2].
  - destruct (IH I3) as [v' [V1 V2]]. exists v'. split; [right; exact V1|exact V2].
Qed.
End T.
Print Assumptions C70_scaling.
Print Assumptions C70_scaling_succeeds.
Print Assumptions C70_integral.
Print Assumptions C70_inverse.
Print Assumptions C70_summation.
Print Assumptions C70_summation_checks_times.
Print Assumptions C70_received_with_substeps_once.
Print Assumptions C70_received_at_the_end_once.

(** * Where it does not hold *)
(** two vertices and an edge of length 4: every vertex has the area 2 *)
Definition rod : areaMesh := AreaMesh 2 2 [(0, 1, 4%Q)] [].
Definition rodAction := ScaleByArea false 0 1 rod.
Lemma rod_scale a b : scaleValues false 1 rod [a; b] = Ok [(a * (4 # 2))%Q; (b * (4 # 2))%Q].
Proof. reflexivity. Qed.
Definition noMapping : participant values := Part [] [].
Definition readAction := [(ReadMappingPost, rodAction)].
(** a repeated iteration of the first window, from 0 to 10 *)
Definition again := Outcome true false 10 0 0 0 (fun _ => None).
Fixpoint iterations (k : nat) (s : store values) : res (store values) :=
  match k with
  | O => Ok s
  | S k => bindR (advanceData 0 (fun _ => false) noMapping readAction false again (fun _ => []) (arriveEnd 0 0 10 [1%Q; 1%Q]) s) (iterations k)
  end.
(** a power of two *)
Fixpoint power (k : nat) : Q := match k with O => 1%Q | S k => (2 * power k)%Q end.
Lemma one_more (s : store values) a b : (exists r, s 0 = (0%Z, [a; b]) :: r /\ (r = [] \/ exists v, r = [(10%Z, v)])) ->
  exists s', advanceData 0 (fun _ => false) noMapping readAction false again (fun _ => []) (arriveEnd 0 0 10 [1%Q; 1%Q]) s = Ok s' /\
    s' 0 = [(0%Z, [(a * (4 # 2))%Q; (b * (4 # 2))%Q]); (10%Z, [(1 * (4 # 2))%Q; (1 * (4 # 2))%Q])].
Proof.
  intros [r [E R]].
  assert (Q : arriveEnd 0 0 10 [1%Q; 1%Q] s = Ok (upd s 0 [(0%Z, [a; b]); (10%Z, [1%Q; 1%Q])])) by (unfold arriveEnd; rewrite E; destruct R as [->|[v ->]]; reflexivity).
  eexists. split.
  - unfold advanceData, noMapping. cbn [again o_atEnd o_complete o_steppedTo o_startBefore o_startAfter o_after o_received].
    change (handleDataBeforeAdvance 0 (fun _ => false) (Part [] []) true false 10 0 (fun _ => []) s) with (Ok s). cbn [bindR]. change (performDataActions 0 WriteMappingPost readAction s) with (Ok s). cbn [bindR].
    rewrite Q. cbn [bindR]. change (handleDataAfterAdvance 0 (fun _ : values => false) (Part [] []) true false 10 0 0 (fun _ => None) ?x) with (Ok x). cbn [bindR].
    cbn [performDataActions readAction isTiming performAction rodAction]. rewrite upd_same. reflexivity.
  - reflexivity.
Qed.
(** The values at the start of a window are multiplied again in every iteration, if the data is exchanged
    without substeps: after [k] iterations they have the factor 2^(k + 1) instead of 2. *)
Theorem C70_window_start_refuted : forall k, exists s0 s a b,
  initializeData 0 (fun _ => false) noMapping readAction (fun _ => []) (arriveEnd 0 0 0 [1%Q; 1%Q]) (fun _ => []) = Ok s0 /\
  iterations k s0 = Ok s /\ hd_error (s 0) = Some (0%Z, [a; b]) /\ (a == power (S k))%Q /\ (b == power (S k))%Q.
Proof.
  intros k. set (init := initializeData 0 (fun _ => false) noMapping readAction (fun _ => []) (arriveEnd 0 0 0 [1%Q; 1%Q]) (fun _ => [])).
  assert (E : exists s0, init = Ok s0 /\ s0 0 = [(0%Z, [(1 * (4 # 2))%Q; (1 * (4 # 2))%Q])]) by (eexists; split; reflexivity). destruct E as [s0 [E1 E2]]. exists s0. rewrite E1.
  assert (G : forall k j s a b, (exists r, s 0 = (0%Z, [a; b]) :: r /\ (r = [] \/ exists v, r = [(10%Z, v)])) -> (a == power j)%Q -> (b == power j)%Q ->
    exists s' a' b', iterations k s = Ok s' /\ hd_error (s' 0) = Some (0%Z, [a'; b']) /\ (a' == power (k + j))%Q /\ (b' == power (k + j))%Q).
  { clear. induction k as [|k IH]; intros j s a b H A B.
    - exists s, a, b. destruct H as [r [-> _]]. auto.
    - destruct (one_more s a b H) as [s1 [H1 H2]]. cbn [iterations]. rewrite H1. cbn [bindR].
      destruct (IH (S j) s1 (a * (4 # 2))%Q (b * (4 # 2))%Q) as [s' [a' [b' [I1 [I2 [I3 I4]]]]]].
      { eexists. split; [exact H2|]. right. eexists. reflexivity. } { rewrite A. cbn [power]. ring. } { rewrite B. cbn [power]. ring. }
      exists s', a', b'. rewrite <- plus_n_Sm in I3, I4. auto. }
  destruct (G k 1 s0 _ _ (ex_intro _ [] (conj E2 (or_introl eq_refl)))) as [s' [a' [b' [I1 [I2 [I3 I4]]]]]]; [reflexivity|reflexivity|].
  rewrite Nat.add_1_r in I3, I4. exists s', a', b'. auto.
Qed.
Print Assumptions C70_window_start_refuted.

Definition isOnly (w : wave values) (l : list (Z * values)) : bool :=
  (length w =? length l) && forallb (fun '((t, v), (u, x)) => (t =? u)%Z && (length v =? length x) && forallb (fun '(a, b) => Qeq_bool a b) (combine v x)) (combine w l).
(** Also with substeps, if the data is mapped: the value at the start of the window is kept from the last iteration. *)
Definition mapped : participant values := Part [Ctx 1 0 (fun v => v) [0%Q; 0%Q]] [].
Definition ones : wave values := [(0%Z, [1%Q; 1%Q]); (10%Z, [1%Q; 1%Q])].
Theorem C70_mapped_window_start_refuted :
  match bindR (initializeData 0 (fun _ => false) mapped readAction (fun _ => []) (arriveAll 0 1 [(0%Z, [1%Q; 1%Q])]) (fun _ => []))
    (advanceData 0 (fun _ => false) mapped readAction true (Outcome true false 10 0 0 0 (fun d => if d =? 1 then Some false else None)) (fun _ => []) (arriveAll 0 1 ones)) with
  | Ok s => isOnly (s 1) ones && isOnly (s 0) [(0%Z, [4%Q; 4%Q]); (10%Z, [2%Q; 2%Q])]
  | _ => false
  end = true.
Proof. vm_compute. reflexivity. Qed.
Print Assumptions C70_mapped_window_start_refuted.
(** Data that is written: at the end of the second window, the other participants get for its start the values that
    were multiplied twice.  Nothing but ones was written. *)
Definition writer : participant values := Part [] [WCtx 0 []].
Definition writeAction := [(WriteMappingPost, rodAction)].
Theorem C70_written_window_start_refuted :
  match bindR (initializeData 0 (fun _ => false) writer writeAction (fun _ => [1%Q; 1%Q]) (fun s => Ok s) (fun _ => [])) (fun s =>
    bindR (advanceData 0 (fun _ => false) writer writeAction true (Outcome true true 10 10 0 10 (fun _ => None)) (fun _ => [1%Q; 1%Q]) (fun s => Ok s) s) (fun s =>
    advanceData 0 (fun _ => false) writer writeAction true (Outcome true true 20 20 10 20 (fun _ => None)) (fun _ => [1%Q; 1%Q])
      (fun s => if isOnly (s 0) [(10%Z, [4%Q; 4%Q]); (20%Z, [2%Q; 2%Q])] then Ok s else Reported) s)) with
  | Ok s => true
  | _ => false
  end = true.
Proof. vm_compute. reflexivity. Qed.
Print Assumptions C70_written_window_start_refuted.
(** The samples of a second source behind the last one of the first are dropped without a report. *)
Theorem C70_later_samples_refuted :
  match performAction 0 (Summation [0; 1] 2 1) (fun d => match d with 0 => [(0%Z, [1%Q])] | 1 => [(0%Z, [1%Q]); (10%Z, [7%Q])] | _ => [] end) with
  | Ok s => isOnly (s 2) [(0%Z, [2%Q])]
  | _ => false
  end = true.
Proof. vm_compute. reflexivity. Qed.
Print Assumptions C70_later_samples_refuted.
(** The areas are those of the elements that the rank has (C53): a rank with the vertices 0 and 1 of three in
    a line multiplies the values of vertex 1 with half the area of a serial run. *)
Definition line := AreaMesh 2 3 [(0, 1, 4%Q); (1, 2, 4%Q)] [].
Theorem C70_area_in_parallel_refuted : (vertex_area line 1 == 2 * vertex_area rod 1)%Q /\ ~ (vertex_area rod 1 == 0)%Q.
Proof. split; [reflexivity|discriminate]. Qed.
Print Assumptions C70_area_in_parallel_refuted.

(** * Examples *)
Definition square := AreaMesh 3 4 [] [(0, 1, 2, 3%Q); (0, 2, 3, 6%Q)].
Example ex_square : corners_ok square /\ map (fun i => Qred (vertex_area square i)) [0; 1; 2; 3] = [3%Q; 1%Q; 3%Q; 2%Q].
Proof. split; [|reflexivity]. intros e [<-|[<-|[]]] i; cbn; intuition subst; auto with arith. Qed.
Example ex_scaling :
  match performAction 0 (ScaleByArea false 5 2 square) (fun d => if d =? 5 then [(0%Z, [1;2;3;4;5;6;7;8]%Q); (4%Z, [0;1;0;1;0;1;0;1]%Q)] else []) with
  | Ok s => isOnly (s 5) [(0%Z, [3;6;3;4;15;18;14;16]%Q); (4%Z, [0;3;0;1;0;3;0;2]%Q)]
  | _ => false
  end = true.
Proof. vm_compute. reflexivity. Qed.
Example ex_division :
  match performAction 0 (ScaleByArea true 5 1 square) (fun d => if d =? 5 then [(0%Z, [3;2;6;4]%Q)] else []) with
  | Ok s => isOnly (s 5) [(0%Z, [1;2;2;2]%Q)]
  | _ => false
  end = true.
Proof. vm_compute. reflexivity. Qed.
(** the integral of the function with the values 1, 2, 3, 4: 3 * 2 + 6 * 8 / 3 *)
Example ex_integral : (integral square (component 1 0 [1;2;3;4]%Q) == 22)%Q /\ (total 4 (component 1 0 [3;2;9;8]%Q) == 22)%Q.
Proof. split; reflexivity. Qed.
Example ex_summation :
  match performAction 0 (Summation [0; 1] 2 2) (fun d => match d with 0 => [(0%Z, [1;2]%Q); (10%Z, [3;4]%Q)] | 1 => [(0%Z, [10;20]%Q); (10%Z, [30;40]%Q)] | 2 => [(0%Z, [0;0]%Q)] | _ => [] end) with
  | Ok s => isOnly (s 2) [(0%Z, [11;22]%Q); (10%Z, [33;44]%Q)]
  | _ => false
  end = true.
Proof. vm_compute. reflexivity. Qed.
Example ex_times :
  performAction 0 (Summation [0; 1] 2 1) (fun d => match d with 0 => [(0%Z, [1]%Q); (10%Z, [3]%Q)] | 1 => [(0%Z, [10]%Q); (9%Z, [30]%Q)] | _ => [] end) = Reported.
Proof. vm_compute. reflexivity. Qed.
(** two repeated iterations and the end of a window, with substeps: scaled once *)
Example ex_once :
  only ReadMappingPost rodAction readAction /\
  match bindR (initializeData 0 (fun _ => false) noMapping readAction (fun _ => []) (arriveAll 0 0 [(0%Z, [1;1]%Q)]) (fun _ => [])) (fun s =>
    bindR (advanceData 0 (fun _ => false) noMapping readAction true again (fun _ => []) (arriveAll 0 0 [(0%Z, [1;1]%Q); (5%Z, [2;3]%Q); (10%Z, [4;5]%Q)]) s)
    (advanceData 0 (fun _ => false) noMapping readAction true (Outcome true true 10 10 0 10 (fun _ => None)) (fun _ => []) (arriveAll 0 0 [(0%Z, [1;1]%Q); (5%Z, [3;3]%Q); (10%Z, [6;5]%Q)]))) with
  | Ok s => isOnly (s 0) [(10%Z, [12;10]%Q)]
  | _ => false
  end = true.
Proof.
  split; [|vm_compute; reflexivity]. exists [], []. split; [reflexivity|]. intros b [].
Qed.
