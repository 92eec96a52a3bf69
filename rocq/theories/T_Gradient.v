(** C78: gradients, from the call that writes them to the mapping. *)
From Coq Require Import ZArith QArith Bool List Arith Lia Lqa Qfield.
From Verif Require Import M_Mesh M_Prep M_Quad M_Map S_Mesh S_Map P_Bary P_Map P_MapFind P_MapTop P_MapGrad M_Gradient S_Gradient P_Gradient.
Import ListNotations.
Open Scope nat_scope.

(** Each vertex holds the values and the gradient that were written to it last, also
    within one call, and zeros if nothing was written. *)
Theorem C78_written : forall dim dims gradient calls c,
  noReset calls -> doCalls (fresh dim dims gradient) calls = Some c ->
  wc_count c = verticesSet calls /\
  (length (fst (stored c)) = verticesSet calls * dims /\
   forall v, v < verticesSet calls -> blockAt dims (fst (stored c)) v = latest dims (valuesWritten dims calls) v) /\
  (gradient = true ->
   length (snd (stored c)) = verticesSet calls * dims /\
   forall v d, v < verticesSet calls -> d < dims -> length (nth (v * dims + d) (snd (stored c)) []) = dim /\
   forall k, k < dim -> nth k (nth (v * dims + d) (snd (stored c)) []) 0%Q =
                        nth (d * dim + k) (latest (dim * dims) (gradientsWritten (dim * dims) calls) v) 0%Q).
Proof.
  intros dim dims gradient calls c NR E. assert (T := track dim dims gradient calls c NR E). assert (T' := T).
  destruct T as (D1 & D2 & D3 & D4 & HV & _). rewrite <- D4. split; [reflexivity|]. split.
  - destruct HV as (L & B & _). split; [exact L|exact B].
  - intros ->. destruct (stored_shape dim dims c calls T') as (L & W). split; [exact L|]. intros v d V D. split.
    + apply W, nth_In. nia.
    + intros k K. apply (stored_column dim dims c calls); auto.
Qed.

(** A call is refused exactly if an ID is not that of a vertex or the number of values is wrong. *)
Theorem C78_accepted : forall dim dims gradient calls c x,
  noReset calls -> doCalls (fresh dim dims gradient) calls = Some c ->
  doCalls (fresh dim dims gradient) (calls ++ [x]) <> None <->
  match x with
  | WriteData ids values => Forall (fun v => v < verticesSet calls) ids /\ length values = length ids * dims
  | WriteGradientData ids values => gradient = false \/
      (Forall (fun v => v < verticesSet calls) ids /\ length values = length ids * (dim * dims))
  | _ => True
  end.
Proof.
  intros dim dims gradient calls c x NR E. assert (T := track dim dims gradient calls c NR E). destruct T as (D1 & D2 & D3 & D4 & _).
  assert (A : doCalls (fresh dim dims gradient) (calls ++ [x]) = doCall c x).
  { revert E. generalize (fresh dim dims gradient). clear. induction calls as [|y l IH]; intros f E; cbn [app doCalls] in *.
    - injection E as <-. destruct (doCall f x); reflexivity.
    - destruct (doCall f y) as [f1|]; [|discriminate]. apply IH, E. }
  rewrite A.
  assert (F : forall ids, forallb (fun v => v <? wc_count c) ids = true <-> Forall (fun v => v < verticesSet calls) ids).
  { intros ids. rewrite forallb_forall, Forall_forall, D4. split; intros H v V; apply Nat.ltb_lt, (H v V). }
  destruct x as [k| |ids values|ids values]; cbn [doCall]; [split; [auto|discriminate]|split; [auto|discriminate]| |].
  - destruct (isEmpty ids && isEmpty values) eqn:EM.
    + apply andb_true_iff in EM. destruct ids, values; try (destruct EM; discriminate). split; [|congruence]. intros _. split; [constructor|reflexivity].
    + rewrite <- F, D2. destruct (forallb _ ids); cbn [andb]; [|split; [congruence|intros (H & _); discriminate]].
      destruct (Nat.eqb_spec (length ids * dims) (length values)) as [H|H]; split; try congruence; try (intros (_ & X); congruence). intros _. split; auto.
  - destruct gradient; rewrite D3; cbn [negb].
    + rewrite orb_false_r. destruct (isEmpty ids && isEmpty values) eqn:EM.
      * apply andb_true_iff in EM. destruct ids, values; try (destruct EM; discriminate). split; [|congruence]. intros _. right. split; [constructor|reflexivity].
      * rewrite <- F, D1, D2. destruct (forallb _ ids); cbn [andb]; [|split; [congruence|intros [H|(H & _)]; discriminate]].
        destruct (Nat.eqb_spec (length ids * (dim * dims)) (length values)) as [H|H]; split; try congruence.
        -- intros _. right. split; auto.
        -- intros [X|(_ & X)]; congruence.
    + rewrite orb_true_r. split; [left; reflexivity|congruence].
Qed.

(** Data without gradients: gradients may be written, whatever they are, and are ignored. *)
Theorem C78_not_required : forall dim dims before after ids gradients,
  doCalls (fresh dim dims false) (before ++ WriteGradientData ids gradients :: after) = doCalls (fresh dim dims false) (before ++ after) /\
  (forall c, doCalls (fresh dim dims false) before = Some c -> snd (stored c) = []).
Proof.
  intros dim dims before after ids gradients.
  assert (G : forall l c c', doCalls c l = Some c' -> wc_grad c' = wc_grad c).
  { induction l as [|x l IH]; intros c c' E; cbn [doCalls] in E; [injection E as <-; reflexivity|].
    destruct (doCall c x) as [c1|] eqn:EC; [|discriminate]. rewrite (IH _ _ E). destruct x as [k| |i v|i g]; cbn [doCall] in EC.
    - injection EC as <-. reflexivity.
    - injection EC as <-. reflexivity.
    - destruct (isEmpty i && isEmpty v); [injection EC as <-; reflexivity|]. destruct (forallb _ i && _); [injection EC as <-; reflexivity|discriminate].
    - destruct ((isEmpty i && isEmpty g) || _); [injection EC as <-; reflexivity|]. destruct (forallb _ i && _); [injection EC as <-; reflexivity|discriminate]. }
  assert (A : forall l r c, doCalls c (l ++ r) = match doCalls c l with Some c' => doCalls c' r | None => None end).
  { induction l as [|x l IH]; intros r c; [reflexivity|]. cbn [app doCalls]. destruct (doCall c x); [apply IH|reflexivity]. }
  split.
  - rewrite !A. destruct (doCalls _ before) as [c|] eqn:E; [|reflexivity]. cbn [doCalls doCall]. rewrite (G _ _ _ E). cbn [fresh wc_grad negb]. rewrite orb_true_r. reflexivity.
  - intros c E. unfold stored. rewrite (G _ _ _ E). reflexivity.
Qed.

(** After a step all is zero again, so that gradients have to be written in each step. *)
Theorem C78_next_step : forall dim dims gradient calls c more c',
  noReset calls -> noReset more -> doCalls (fresh dim dims gradient) calls = Some c -> doCalls (resetBufferedData c) more = Some c' ->
  let set := SetVertices (verticesSet calls) :: more in
  wc_count c' = verticesSet set /\
  (forall v, v < verticesSet set -> blockAt dims (fst (stored c')) v = latest dims (valuesWritten dims more) v) /\
  (gradient = true -> forall v d k, v < verticesSet set -> d < dims -> k < dim ->
    nth k (nth (v * dims + d) (snd (stored c')) []) 0%Q = nth (d * dim + k) (latest (dim * dims) (gradientsWritten (dim * dims) more) v) 0%Q).
Proof.
  intros dim dims gradient calls c more c' NR NM E EM set. assert (T := track dim dims gradient calls c NR E). destruct T as (D1 & D2 & D3 & D4 & (LV & _ & _) & HG).
  assert (Z : forall w n m, length m = n * w -> holds w n (map (fun _ : Q => 0%Q) m) []).
  { intros w n m L. split; [rewrite map_length; exact L|]. split; [|constructor]. intros v V. cbn. apply list_ext; [rewrite blockAt_length, repeat_length; reflexivity|].
    rewrite blockAt_length. intros k K. rewrite blockAt_nth, nth_repeat by auto. 
    generalize (v * w + k). clear. induction m as [|x m IH]; intros [|n]; [reflexivity|reflexivity|reflexivity|]. apply IH. }
  assert (T : tracks dim dims gradient (resetBufferedData c) [SetVertices (verticesSet calls)]).
  { unfold tracks, resetBufferedData, verticesSet. cbn [wc_dim wc_dims wc_grad wc_count wc_values wc_gradients valuesWritten gradientsWritten flat_map app map list_sum fold_right].
    split; [exact D1|]. split; [exact D2|]. split; [exact D3|]. split; [rewrite D4; unfold verticesSet; cbn; lia|]. split; [apply Z, LV|].
    intros G. apply Z. apply (proj1 (HG G)). }
  assert (T' := track_calls dim dims gradient more _ _ c' T NM EM). cbn [app] in T'. fold set in T'. assert (T2 := T').
  destruct T' as (E1 & E2 & E3 & E4 & (_ & B & _) & _). rewrite <- E4. split; [reflexivity|]. split; [exact B|].
  intros -> v d k V D K. apply (stored_column dim dims c' set v d k T2 V D K).
Qed.

Section Mapping.
Variables (len : mesh -> nat * nat -> Q) (area : mesh -> nat * nat * nat -> Q) (vol : mesh -> nat * nat * nat * nat -> Q).
Variable cv : mesh -> list Q -> nat.

(** What is mapped: the value of a nearest vertex plus its derivatives times the offset.
    The derivative of component [d] in direction [k] is taken from place [d * dim + k]. *)
Theorem C78_mapped : forall inM outM dims calls c skipZero,
  wf_mesh inM -> wf_mesh outM -> m_dim outM = m_dim inM -> nearestSearch cv inM ->
  (nVertices inM > 0 \/ nVertices outM = 0) ->
  noReset calls -> doCalls (fresh (m_dim inM) dims true) calls = Some c -> verticesSet calls = nVertices inM ->
  skipZero = false \/ (exists x, In x (fst (stored c)) /\ (1 <= x * x)%Q) ->
  exists out, mapSample len area vol cv skipZero inM outM dims (stored c) = Some out /\ sized dims outM out /\
  forall i, i < nVertices outM -> exists j, nearest inM (position outM i) j /\
  forall d, d < dims ->
  (val dims out i d == nth d (latest dims (valuesWritten dims calls) j) 0 +
     qsum (m_dim inM) (fun k => (nth k (position outM i) 0 - nth k (position inM j) 0) *
        nth (d * m_dim inM + k) (latest (m_dim inM * dims) (gradientsWritten (m_dim inM * dims) calls) j) 0))%Q.
Proof.
  intros inM outM dims calls c skipZero WI WO D S NE NR E VS SK.
  destruct (C78_written _ _ _ _ _ NR E) as (CN & (LV & BV) & GR). destruct (GR eq_refl) as (LG & GB). clear GR. rewrite VS in *.
  destruct (indices_ok inM outM (cv inM) WO D NE S) as (l & EI & L & N).
  assert (FB : Forall (fun j => j * dims + dims <= length (fst (stored c)) /\ j * dims + dims <= length (snd (stored c))) l).
  { apply Forall_forall. intros j J. apply In_nth_error in J. destruct J as (k & J).
    assert (K : k < nVertices outM). { rewrite <- L. apply nth_error_Some. congruence. }
    destruct (N k K) as (j' & J' & NJ & _). assert (j' = j) as -> by congruence. split; nia. }
  destruct (nngLoop_spec dims (fst (stored c)) (snd (stored c)) l (offsetsMatched outM inM l) 0) as (out & EO & LO & V).
  { unfold offsetsMatched. rewrite map_length, combine_length, seq_length. lia. } { exact FB. }
  exists out. split; [|split; [unfold sized; rewrite LO, L; reflexivity|]].
  { assert (NS : skipZero && negb (Qle_bool zeroSquared (normSquared (fst (stored c)))) = false).
    { destruct SK as [->|(x & X & X1)]; [reflexivity|]. apply andb_false_iff. right. apply negb_false_iff, Qle_bool_iff.
      assert (P : forall l, (0 <= normSquared l)%Q) by (clear; intros l; induction l as [|y l IH]; [discriminate|change (0 <= y * y + normSquared l)%Q; nra]).
      assert (M : (x * x <= normSquared (fst (stored c)))%Q).
      { revert X. generalize (fst (stored c)). clear - P. induction l as [|y l IH]; intros H; [destruct H|]. change (x * x <= y * y + normSquared l)%Q.
        destruct H as [->|H]; [specialize (P l); lra|specialize (IH H); nra]. }
      apply Qle_trans with (x * x)%Q; [|exact M]. apply Qle_trans with 1%Q; [discriminate|exact X1]. }
    unfold mapSample. rewrite NS. unfold mapNNG. cbn [isConservative]. rewrite EI, EO. reflexivity. }
  intros i I. destruct (N i I) as (j & J & NJ). exists j. split; [exact NJ|]. intros d DD. assert (JL := proj1 NJ).
  rewrite (V i d j _ DD J (offsets_nth outM inM l i j J)).
  assert (LPO : length (position outM i) = m_dim inM) by (rewrite <- D; apply position_length; auto).
  assert (LPI := position_length inM WI j JL). destruct (GB j d JL DD) as (LGJ & GV).
  rewrite vdot_qsum by (rewrite vsub_length; congruence). rewrite vsub_length, LPO by congruence.
  unfold val at 1. rewrite <- (BV j JL), blockAt_nth by auto. apply Qplus_comp; [reflexivity|].
  apply qsum_ext. intros k K. rewrite vsub_nth by congruence. rewrite (GV k K). reflexivity.
Qed.

Lemma field_step dim a J x y d : (field dim a J x d + qsum dim (fun k => (nth k y 0 - nth k x 0) * J d k) == field dim a J y d)%Q.
Proof.
  unfold field. rewrite (qsum_ext _ (fun k => (nth k y 0 - nth k x 0) * J d k)%Q (fun k => (- (1)) * (J d k * nth k x 0) + J d k * nth k y 0)%Q) by (intros; ring).
  rewrite qsum_lin. ring.
Qed.
Lemma linear_out inM outM dims calls c skipZero a J :
  wf_mesh inM -> wf_mesh outM -> m_dim outM = m_dim inM -> nearestSearch cv inM ->
  (nVertices inM > 0 \/ nVertices outM = 0) ->
  noReset calls -> doCalls (fresh (m_dim inM) dims true) calls = Some c -> verticesSet calls = nVertices inM ->
  skipZero = false \/ (exists x, In x (fst (stored c)) /\ (1 <= x * x)%Q) ->
  wroteValues inM dims calls a J -> wroteOther inM dims calls J ->
  exists out, mapSample len area vol cv skipZero inM outM dims (stored c) = Some out /\ sized dims outM out /\
  forall i d, i < nVertices outM -> d < dims -> (val dims out i d == field (m_dim inM) a J (position outM i) d)%Q.
Proof.
  intros WI WO D S NE NR E VS SK WV WD. destruct (C78_mapped inM outM dims calls c skipZero WI WO D S NE NR E VS SK) as (out & EO & LO & V).
  exists out. split; [exact EO|]. split; [exact LO|]. intros i d I DD. destruct (V i I) as (j & (JL & _) & F). rewrite (F d DD), (WV j d JL DD).
  rewrite <- (field_step (m_dim inM) a J (position inM j) (position outM i) d). apply Qplus_comp; [reflexivity|]. apply qsum_ext. intros k K. rewrite (WD j d k JL DD K). reflexivity.
Qed.

(** Scalar linear functions are mapped exactly if values and derivatives are written as
    documented, and so are vector fields with a symmetric Jacobian. *)
Theorem C78_linear_fields : forall inM outM dims calls c skipZero a J,
  wf_mesh inM -> wf_mesh outM -> m_dim outM = m_dim inM -> nearestSearch cv inM ->
  (nVertices inM > 0 \/ nVertices outM = 0) ->
  noReset calls -> doCalls (fresh (m_dim inM) dims true) calls = Some c -> verticesSet calls = nVertices inM ->
  skipZero = false \/ (exists x, In x (fst (stored c)) /\ (1 <= x * x)%Q) ->
  wroteValues inM dims calls a J -> wroteDerivatives inM dims calls J ->
  dims = 1 \/ (dims = m_dim inM /\ forall d k, (J d k == J k d)%Q) ->
  exists out, mapSample len area vol cv skipZero inM outM dims (stored c) = Some out /\ sized dims outM out /\
  forall i d, i < nVertices outM -> d < dims -> (val dims out i d == field (m_dim inM) a J (position outM i) d)%Q.
Proof.
  intros inM outM dims calls c skipZero a J WI WO D S NE NR E VS SK WV WD CASE. apply (linear_out inM outM dims calls c skipZero a J); auto.
  intros v d k V DD K. destruct CASE as [->|(DM & SY)].
  - assert (d = 0) as -> by lia. rewrite <- (WD v 0 k V DD K). unfold documented. replace (k * 1 + 0) with (0 * m_dim inM + k) by lia. reflexivity.
  - rewrite (SY d k). rewrite <- (WD v k d V) by lia. unfold documented. rewrite <- DM. reflexivity.
Qed.
(** All linear vector fields are, if the derivatives are written in the other order. *)
Theorem C78_linear_fields_other_order : forall inM outM dims calls c skipZero a J,
  wf_mesh inM -> wf_mesh outM -> m_dim outM = m_dim inM -> nearestSearch cv inM ->
  (nVertices inM > 0 \/ nVertices outM = 0) ->
  noReset calls -> doCalls (fresh (m_dim inM) dims true) calls = Some c -> verticesSet calls = nVertices inM ->
  skipZero = false \/ (exists x, In x (fst (stored c)) /\ (1 <= x * x)%Q) ->
  wroteValues inM dims calls a J -> wroteOther inM dims calls J ->
  exists out, mapSample len area vol cv skipZero inM outM dims (stored c) = Some out /\ sized dims outM out /\
  forall i d, i < nVertices outM -> d < dims -> (val dims out i d == field (m_dim inM) a J (position outM i) d)%Q.
Proof. intros inM outM dims calls c skipZero a J. apply linear_out. Qed.
End Mapping.

(** * Examples *)
Definition pt (x y : Q) : vertex := MkVertex [x; y] (-1) true false.
Definition source : mesh := MkMesh 2 [pt 0 1; pt 2 0] [] [] [].
Definition target : mesh := MkMesh 2 [pt 1 1; pt 2 (-1)] [] [] [].
Definition len0 (_ : mesh) (_ : nat * nat) : Q := 1%Q.
Definition area0 (_ : mesh) (_ : nat * nat * nat) : Q := 1%Q.
Definition vol0 (_ : mesh) (_ : nat * nat * nat * nat) : Q := 1%Q.
(** the first vertex that is as close as any *)
Definition closest (m : mesh) (u : list Q) : nat :=
  let at_ k := sqdist (m_dim m) u (position m k) in
  fold_left (fun best k => if Qle_bool (at_ best) (at_ k) then best else k) (seq 0 (nVertices m)) 0.
Lemma closest_ok m : nearestSearch closest m.
Proof.
  intros u _ NE. unfold nearest, closest. set (at_ := fun k => sqdist (m_dim m) u (position m k)).
  assert (G : forall l b n, b < n -> Forall (fun k => k < n) l ->
    let r := fold_left (fun best k => if Qle_bool (at_ best) (at_ k) then best else k) l b in
    r < n /\ (at_ r <= at_ b)%Q /\ forall k, In k l -> (at_ r <= at_ k)%Q).
  { induction l as [|k l IH]; intros b n B F; cbn [fold_left].
    - split; [exact B|]. split; [apply Qle_refl|]. intros k [].
    - apply Forall_cons_iff in F. destruct F as (K & F). destruct (Qle_bool (at_ b) (at_ k)) eqn:C.
      + apply Qle_bool_iff in C. destruct (IH b n B F) as (I1 & I2 & I3). split; [exact I1|]. split; [exact I2|]. intros q [<-|Q0]; [eapply Qle_trans; eassumption|auto].
      + assert (C' : (at_ k <= at_ b)%Q). { apply Qlt_le_weak, Qnot_le_lt. intros H. apply Qle_bool_iff in H. congruence. }
        destruct (IH k n K F) as (I1 & I2 & I3). split; [exact I1|]. split; [eapply Qle_trans; eassumption|]. intros q [<-|Q0]; auto. }
  assert (N : 0 < nVertices m) by (unfold nVertices; destruct (m_verts m); [congruence|cbn; lia]).
  destruct (G (seq 0 (nVertices m)) 0 (nVertices m) N) as (I1 & _ & I3).
  { apply Forall_forall. intros k K. apply in_seq in K. lia. }
  split; [exact I1|]. intros k K. apply I3, in_seq. lia.
Qed.
Lemma source_ok : wf_mesh source.
Proof. constructor; cbn; try tauto. intros v [<-|[<-|[]]]; reflexivity. Qed.
Lemma target_ok : wf_mesh target.
Proof. constructor; cbn; try tauto. intros v [<-|[<-|[]]]; reflexivity. Qed.

(** the field (1 - y, x): a rotation *)
Definition spin : list call :=
  [SetVertices 2; WriteData [1; 0] [1; 2; 0; 0]%Q; WriteGradientData [0; 1] [0; 1; -1; 0; 0; 1; -1; 0]%Q].
Definition spinConst (d : nat) : Q := match d with 0 => 1%Q | _ => 0%Q end.
Definition spinJ (d k : nat) : Q := match d, k with 0, 1 => (-1)%Q | 1, 0 => 1%Q | _, _ => 0%Q end.

(** Vector fields are not mapped exactly when their derivatives are written as documented:
    the mapping takes them in the other order. *)
Theorem C78_vector_linear_refuted :
  ~ (forall inM outM dims calls c a J,
     wf_mesh inM -> wf_mesh outM -> m_dim outM = m_dim inM -> nVertices inM > 0 ->
     noReset calls -> doCalls (fresh (m_dim inM) dims true) calls = Some c -> verticesSet calls = nVertices inM ->
     wroteValues inM dims calls a J -> wroteDerivatives inM dims calls J -> dims = m_dim inM ->
     forall out, mapSample len0 area0 vol0 closest false inM outM dims (stored c) = Some out ->
     forall i d, i < nVertices outM -> d < dims -> (val dims out i d == field (m_dim inM) a J (position outM i) d)%Q).
Proof.
  intros H. destruct (doCalls (fresh 2 2 true) spin) as [c|] eqn:E; [|vm_compute in E; discriminate].
  destruct (C78_mapped len0 area0 vol0 closest source target 2 spin c false source_ok target_ok eq_refl (closest_ok source)) as (out & EO & _);
    [left; cbn; lia|intros [X|[X|[X|[]]]]; discriminate|exact E|reflexivity|left; reflexivity|].
  assert (W := H source target 2 spin c spinConst spinJ source_ok target_ok eq_refl).
  assert (B : (val 2 out 0 1 == field 2 spinConst spinJ (position target 0) 1)%Q).
  { apply W; auto; try (cbn; lia).
    - intros [X|[X|[X|[]]]]; discriminate.
    - intros [|[|v]] [|[|d]] V D; try (cbn in V; lia); try (cbn in D; lia); reflexivity.
    - intros [|[|v]] [|[|d]] [|[|k]] V D K; try (cbn in V; lia); try (cbn in D; lia); try (cbn in K; lia); reflexivity. }
  vm_compute in E. injection E as <-. vm_compute in EO. injection EO as <-. vm_compute in B. discriminate.
Qed.

(** Values of zero: the first mapping, in initialize, does not look at the gradients. *)
Definition slope : list call := [SetVertices 2; WriteGradientData [0; 1] [3; 5; 3; 5]%Q].
Theorem C78_zero_values_refuted :
  ~ (forall inM outM calls c out,
     wf_mesh inM -> wf_mesh outM -> m_dim outM = m_dim inM -> nVertices inM > 0 ->
     noReset calls -> doCalls (fresh (m_dim inM) 1 true) calls = Some c -> verticesSet calls = nVertices inM ->
     mapSample len0 area0 vol0 closest false inM outM 1 (stored c) = Some out ->
     exists out', mapSample len0 area0 vol0 closest true inM outM 1 (stored c) = Some out' /\
     forall i, i < nVertices outM -> (val 1 out' i 0 == val 1 out i 0)%Q).
Proof.
  intros H. destruct (doCalls (fresh 2 1 true) slope) as [c|] eqn:E; [|vm_compute in E; discriminate].
  destruct (mapSample len0 area0 vol0 closest false source target 1 (stored c)) as [out|] eqn:EO; [|vm_compute in E; injection E as <-; vm_compute in EO; discriminate].
  destruct (H source target slope c out source_ok target_ok eq_refl) as (out' & EO' & B); auto; [cbn; lia|intros [X|[X|[]]]; discriminate|].
  specialize (B 0 ltac:(cbn; lia)). vm_compute in E. injection E as <-. vm_compute in EO, EO'. injection EO as <-. injection EO' as <-. vm_compute in B. discriminate.
Qed.

(** What was written before the mesh is reset shows up at vertices of the new mesh that nobody wrote to. *)
Theorem C78_reset_mesh_refuted :
  ~ (forall before after c, doCalls (fresh 2 1 true) (before ++ ResetMesh :: after) = Some c -> noReset after ->
     forall v, v < verticesSet after -> blockAt 1 (fst (stored c)) v = latest 1 (valuesWritten 1 after) v).
Proof.
  intros H. destruct (doCalls (fresh 2 1 true) ([SetVertices 2; WriteData [0] [7]%Q] ++ ResetMesh :: [SetVertices 1])) as [c|] eqn:E; [|vm_compute in E; discriminate].
  assert (B := H _ _ c E). specialize (B ltac:(intros [X|[]]; discriminate) 0 ltac:(cbn; lia)). vm_compute in E. injection E as <-. vm_compute in B. discriminate.
Qed.

Definition same (a b : list Q) : bool := (length a =? length b) && forallb (fun p => Qeq_bool (fst p) (snd p)) (combine a b).
Definition mapped (dims : nat) (calls : list call) : option (list Q) :=
  match doCalls (fresh 2 dims true) calls with Some c => mapSample len0 area0 vol0 closest true source target dims (stored c) | None => None end.
(** 4 + 3x + 5y at (1, 1) and (2, -1), the values written in two calls, the second overwriting the first *)
Example scalar_exact : match mapped 1 [SetVertices 1; WriteData [0] [1]%Q; SetVertices 1; WriteData [0; 1; 0] [8; 10; 9]%Q; WriteGradientData [1; 0] [3; 5; 3; 5]%Q] with
  Some out => same out [12; 5]%Q | None => false end = true.
Proof. reflexivity. Qed.
Example scalar_hypotheses : let calls := [SetVertices 1; WriteData [0] [1]%Q; SetVertices 1; WriteData [0; 1; 0] [8; 10; 9]%Q; WriteGradientData [1; 0] [3; 5; 3; 5]%Q] in
  wroteValues source 1 calls (fun _ => 4%Q) (fun _ k => match k with 0 => 3%Q | _ => 5%Q end) /\
  wroteDerivatives source 1 calls (fun _ k => match k with 0 => 3%Q | _ => 5%Q end).
Proof.
  split.
  - intros [|[|v]] [|d] V D; try (cbn in V; lia); try (cbn in D; lia); reflexivity.
  - intros [|[|v]] [|d] [|[|k]] V D K; try (cbn in V; lia); try (cbn in D; lia); try (cbn in K; lia); reflexivity.
Qed.
(** the rotation (1 - y, x) at (1, 1) and (2, -1) is (0, 1) and (2, 2) *)
Example vector_wrong : match mapped 2 spin with Some out => same out [0; -1; 0; 2]%Q | None => false end = true.
Proof. reflexivity. Qed.
Example vector_right : match mapped 2 [SetVertices 2; WriteData [1; 0] [1; 2; 0; 0]%Q; WriteGradientData [0; 1] [0; -1; 1; 0; 0; -1; 1; 0]%Q] with
  Some out => same out [0; 1; 2; 2]%Q | None => false end = true.
Proof. reflexivity. Qed.
(** wrong IDs and sizes *)
Example refused : mapped 1 [SetVertices 1; WriteGradientData [1] [3; 5]%Q] = None /\ mapped 1 [SetVertices 1; WriteGradientData [0] [3]%Q] = None /\
  mapped 1 [SetVertices 1; WriteData [0] [3; 4]%Q] = None.
Proof. repeat split; reflexivity. Qed.

Print Assumptions C78_written.
Print Assumptions C78_accepted.
Print Assumptions C78_not_required.
Print Assumptions C78_next_step.
Print Assumptions C78_mapped.
Print Assumptions C78_linear_fields.
Print Assumptions C78_linear_fields_other_order.
Print Assumptions C78_vector_linear_refuted.
Print Assumptions C78_zero_values_refuted.
Print Assumptions C78_reset_mesh_refuted.
