(** C47: quasi-Newton acceleration keeps data within its bounds. *)
From Coq Require Import QArith Bool List Arith Lia Lqa.
From Verif Require Import M_Bounds S_Bounds P_Bounds.
Import ListNotations.
Open Scope nat_scope.

Lemma no_bounds_within infos sizes data : existsb withBounds infos = false -> within_bounds infos sizes data.
Proof.
  intros H k v c (K & C & V). assert (F : withBounds (nth k infos (Info 0 [] [])) = false).
  { destruct (withBounds _) eqn:E; [|reflexivity]. assert (existsb withBounds infos = true); [|congruence].
    apply existsb_exists. exists (nth k infos (Info 0 [] [])). split; [now apply nth_In|exact E]. }
  unfold admissible, lower_bound, upper_bound. set (d := nth k infos (Info 0 [] [])) in *.
  assert (M : c mod i_dim d = c) by now apply Nat.mod_small.
  split; intros b E; exfalso; (assert (withBounds d = true); [apply (withBounds_at d c)|congruence]); unfold lowerAt, upperAt; rewrite M, E;
    [left|right]; discriminate.
Qed.
Lemma Forall2_map_r {A B} (R : A -> B -> Prop) (f : A -> B) l : (forall a, In a l -> R a (f a)) -> Forall2 R l (map f l).
Proof. induction l as [|a l IH]; intro H; cbn; constructor; [apply H; now left|apply IH; intros; apply H; now right]. Qed.
Lemma updated_accelerated infos r : one_step infos r -> accelerated r (zipWith Qplus (r_values r) (r_update r)).
Proof.
  intros (_ & _ & A & B). assert (L : length (zipWith Qplus (r_values r) (r_update r)) = length (r_values r)) by (apply length_zipWith; lia).
  split; [exact L|]. intros i I. rewrite nth_zip by lia. reflexivity.
Qed.
Lemma combine_map {A B} (f : A -> B) l : combine l (map f l) = map (fun a => (a, f a)) l.
Proof. induction l as [|a l IH]; cbn; [reflexivity|now rewrite IH]. Qed.
Definition flagsOf (infos : list dataInfo) (r : rank) : list bool := map2 flag infos (segs (r_sizes r) (zipWith Qplus (r_values r) (r_update r))).
Lemma check_all infos ranks : (forall r, In r ranks -> one_step infos r) ->
  mapM (fun r => checkBoundViolation (combine infos (r_sizes r)) (zipWith Qplus (r_values r) (r_update r))) ranks = Some (map (flagsOf infos) ranks).
Proof.
  intro O. apply mapM_all. intros r I. specialize (O r I). unfold flagsOf. apply check_segs; [apply O|now apply (length_updated infos)].
Qed.
Lemma position_lt infos r k v c : one_step infos r -> exists_value infos (r_sizes r) k v c ->
  position infos (r_sizes r) k v c < length (r_values r).
Proof.
  intros (A1 & A2 & A3 & A4) (K & C & D). unfold position. destruct (A2 k K) as (P & m & M). rewrite M, Nat.div_mul in D by lia.
  assert (B : v * i_dim (nth k infos (Info 0 [] [])) + c < nth k (r_sizes r) 0) by (rewrite M; nia). rewrite A3, <- Nat.add_assoc.
  now apply offset_lt.
Qed.
Lemma shortened_value infos t r o k v c : one_step infos r -> shortened t r o -> exists_value infos (r_sizes r) k v c ->
  (value infos (r_sizes r) o k v c == value infos (r_sizes r) (r_values r) k v c + t * value infos (r_sizes r) (r_update r) k v c)%Q.
Proof. intros O [L H] E. apply H. rewrite L. now apply position_lt. Qed.
Lemma accelerated_shortened r o : accelerated r o <-> shortened 1 r o.
Proof. unfold accelerated, shortened. split; intros [L H]; (split; [exact L|]); intros i I; rewrite (H i I); ring. Qed.
Lemma shortened_within infos t r o o' : one_step infos r -> shortened t r o -> shortened t r o' ->
  within_bounds infos (r_sizes r) o -> within_bounds infos (r_sizes r) o'.
Proof.
  intros O S S' W k v c E. apply (admissible_Qeq infos k c (value infos (r_sizes r) o k v c)); [|now apply W].
  now rewrite (shortened_value infos t r o k v c O S E), (shortened_value infos t r o' k v c O S' E).
Qed.

Lemma mapM_ranks infos {B} (F : rank * list bool -> option B) (g : rank -> B) ranks :
  (forall r, In r ranks -> F (r, flagsOf infos r) = Some (g r)) -> mapM F (combine ranks (map (flagsOf infos) ranks)) = Some (map g ranks).
Proof.
  intro H. rewrite combine_map. rewrite (mapM_all F (fun q => g (fst q))); [now rewrite map_map|].
  intros q I. apply in_map_iff in I as (r & <- & I). now apply H.
Qed.

(** ** Clamping moves every value to the nearest admissible one; admissible values stay. *)
Theorem C47_clamped_values_respect_bounds : forall infos ranks,
  ordered infos ->
  (forall r, In r ranks -> one_step infos r) ->
  exists out, applyUpdate infos Clamp ranks = Some out /\
    Forall2 (fun r o => length o = length (r_values r) /\ forall k v c, exists_value infos (r_sizes r) k v c ->
      moved_into infos k c (value infos (r_sizes r) (r_values r) k v c + value infos (r_sizes r) (r_update r) k v c)
                           (value infos (r_sizes r) o k v c)) ranks out.
Proof.
  intros infos ranks Or O. unfold applyUpdate. destruct (existsb withBounds infos) eqn:B; cbn [negb].
  - rewrite check_all by assumption.
    pose (g := fun r : rank => concat (map2 clampSeg infos (segs (r_sizes r) (zipWith Qplus (r_values r) (r_update r))))).
    exists (map g ranks). split.
    + apply mapM_ranks. intros r I. specialize (O r I). cbn [fst snd].
      pose proof (length_updated infos r O Qplus) as L. unfold flagsOf.
      destruct (existsb (fun v => v) _) eqn:X.
      * apply clamp_segs; [apply O|exact L].
      * f_equal. unfold g. rewrite clampSeg_none; [symmetry; now apply concat_segs|rewrite length_segs; apply O|exact X].
    + apply Forall2_map_r. intros r I. specialize (O r I). unfold g.
      pose proof (length_updated infos r O Qplus) as L. set (u := zipWith Qplus (r_values r) (r_update r)) in *.
      destruct (concat_clamp infos (r_sizes r) u (proj1 O) L) as [LC SC]. set (o := concat _) in *.
      split; [rewrite LC, L; symmetry; apply O|]. intros k v c E.
      destruct (at_value infos r O o k v c (eq_trans LC L) E) as (so & D & S1 & _ & V1 & _).
      destruct (at_value infos r O u k v c L E) as (su & _ & S2 & _ & V2 & C2 & A & U).
      assert (VU : value infos (r_sizes r) u k v c = (value infos (r_sizes r) (r_values r) k v c + value infos (r_sizes r) (r_update r) k v c)%Q)
        by now apply value_zip.
      rewrite <- VU. rewrite SC, (nth_map2 clampSeg _ _ k _ _ D S2) in S1. injection S1 as <-.
      destruct (clampSeg_entry _ _ _ _ V2 C2) as (y & Y & EY). rewrite Y in V1. injection V1 as Ey. rewrite <- Ey. clear Ey.
      set (d := nth k infos (Info 0 [] [])) in *. set (i := v * i_dim d + c) in *. set (x := value infos (r_sizes r) u k v c) in *.
      pose proof (fun z => admissible_entry infos d k i c z A U) as AE.
      split; [|split].
      * apply (admissible_Qeq infos k c (clamped d i x)); [now symmetry|]. apply AE. apply clamped_ok.
        intros lo up. rewrite A, U. apply Or.
      * intro H. apply AE in H. rewrite EY. now apply clamped_id.
      * intros z H. apply AE in H. pose proof (clamped_nearest d i x z H) as N.
        destruct (qabs_cases (x - y)) as [[? ->]|[? ->]]; destruct (qabs_cases (x - clamped d i x)) as [[? G]|[? G]]; rewrite G in N; lra.
  - exists (map (fun r => zipWith Qplus (r_values r) (r_update r)) ranks). split; [reflexivity|].
    apply Forall2_map_r. intros r I. specialize (O r I). split; [apply (updated_accelerated infos r O)|].
    intros k v c E. rewrite (value_zip infos r O Qplus k v c E).
    pose proof (no_bounds_within infos (r_sizes r) (zipWith Qplus (r_values r) (r_update r)) B k v c E) as W.
    rewrite (value_zip infos r O Qplus k v c E) in W. split; [exact W|]. split; [reflexivity|].
    intros z _. match goal with |- (qabs ?a <= _)%Q => destruct (qabs_cases a) as [[? ->]|[? ->]] end; pose proof (qabs_nonneg (value infos (r_sizes r) (r_values r) k v c + value infos (r_sizes r) (r_update r) k v c - z)); lra.
Qed.
Print Assumptions C47_clamped_values_respect_bounds.

Lemma any_flag infos ranks : (forall r, In r ranks -> one_step infos r) ->
  existsb (existsb (fun v => v)) (map (flagsOf infos) ranks) = false <->
  forall r, In r ranks -> within_bounds infos (r_sizes r) (zipWith Qplus (r_values r) (r_update r)).
Proof.
  intro O. split.
  - intros H r I. apply (flags_false_within infos r (O r I)); [now apply (length_updated infos r (O r I))|].
    destruct (existsb (fun v => v) (map2 flag infos (segs (r_sizes r) (zipWith Qplus (r_values r) (r_update r))))) eqn:E; [|reflexivity].
    assert (existsb (existsb (fun v => v)) (map (flagsOf infos) ranks) = true); [|congruence].
    apply existsb_exists. exists (flagsOf infos r). split; [now apply in_map|exact E].
  - intro W. destruct (existsb _ _) eqn:E; [|reflexivity]. apply existsb_exists in E as (l & I & E).
    apply in_map_iff in I as (r & <- & I).
    pose proof (proj2 (flags_false_within infos r (O r I) _ (length_updated infos r (O r I) Qplus)) (W r I)). unfold flagsOf in E. congruence.
Qed.

(** ** Discarding: if a value of some rank is out of its bounds after the step, all ranks
    return to the values before the step. *)
Theorem C47_violating_step_is_discarded : forall infos ranks,
  (forall r, In r ranks -> one_step infos r) ->
  exists out, applyUpdate infos Discard ranks = Some out /\
    ((forall r o, In r ranks -> accelerated r o -> within_bounds infos (r_sizes r) o) -> Forall2 accelerated ranks out) /\
    ((exists r o, In r ranks /\ accelerated r o /\ ~ within_bounds infos (r_sizes r) o) -> Forall2 (shortened 0) ranks out).
Proof.
  intros infos ranks O. unfold applyUpdate.
  assert (U : forall r, In r ranks -> accelerated r (zipWith Qplus (r_values r) (r_update r))) by (intros; apply (updated_accelerated infos); auto).
  assert (NO : (forall r, In r ranks -> within_bounds infos (r_sizes r) (zipWith Qplus (r_values r) (r_update r))) ->
     ~ exists r o, In r ranks /\ accelerated r o /\ ~ within_bounds infos (r_sizes r) o).
  { intros W (r & o & I & A & N). apply N. apply (shortened_within infos 1 r (zipWith Qplus (r_values r) (r_update r))); auto.
    - now apply accelerated_shortened, U.
    - now apply accelerated_shortened. }
  destruct (existsb withBounds infos) eqn:B; cbn [negb].
  - rewrite check_all by assumption. destruct (existsb (existsb (fun v => v)) (map (flagsOf infos) ranks)) eqn:X.
    + eexists. split; [reflexivity|]. split.
      * intro H. pose proof (proj2 (any_flag infos ranks O) (fun r I => H r _ I (U r I))). congruence.
      * intros _. apply Forall2_map_r. intros r I. destruct (O r I) as (_ & _ & O1 & O2).
        assert (L : length (zipWith Qplus (r_values r) (r_update r)) = length (r_values r)) by (apply length_zipWith; lia).
        assert (L' : length (zipWith Qminus (zipWith Qplus (r_values r) (r_update r)) (r_update r)) = length (r_values r)) by (rewrite length_zipWith; lia).
        split; [exact L'|]. intros i J. rewrite !nth_zip by lia. ring.
    + eexists. split; [reflexivity|]. pose proof (proj1 (any_flag infos ranks O) X) as W. split.
      * intros _. now apply Forall2_map_r.
      * intro H. now apply NO in H.
  - eexists. split; [reflexivity|]. split; [intros _; now apply Forall2_map_r|].
    intro H. apply NO in H; [contradiction|]. intros. now apply no_bounds_within.
Qed.
Print Assumptions C47_violating_step_is_discarded.

(** ** Scaling: all ranks do the same part [t] of the step, which keeps all values within
    their bounds, and any larger part does not. *)
Theorem C47_scaled_step_respects_bounds : forall infos ranks,
  (forall r, In r ranks -> one_step infos r /\ within_bounds infos (r_sizes r) (r_values r)) ->
  exists out t, applyUpdate infos ScaleToBound ranks = Some out /\ (0 <= t)%Q /\ (t <= 1)%Q /\
    Forall2 (shortened t) ranks out /\
    Forall2 (fun r o => within_bounds infos (r_sizes r) o) ranks out /\
    forall t', (t < t')%Q -> (t' <= 1)%Q -> exists r, In r ranks /\ forall o, shortened t' r o -> ~ within_bounds infos (r_sizes r) o.
Proof.
  intros infos ranks OW.
  assert (O : forall r, In r ranks -> one_step infos r) by (intros; now apply OW).
  assert (U : forall r, In r ranks -> accelerated r (zipWith Qplus (r_values r) (r_update r))) by (intros; apply (updated_accelerated infos); auto).
  assert (NOP : (forall r, In r ranks -> within_bounds infos (r_sizes r) (zipWith Qplus (r_values r) (r_update r))) ->
    exists out t, Some (map (fun r => zipWith Qplus (r_values r) (r_update r)) ranks) = Some out /\ (0 <= t)%Q /\ (t <= 1)%Q /\
      Forall2 (shortened t) ranks out /\ Forall2 (fun r o => within_bounds infos (r_sizes r) o) ranks out /\
      forall t', (t < t')%Q -> (t' <= 1)%Q -> exists r, In r ranks /\ forall o, shortened t' r o -> ~ within_bounds infos (r_sizes r) o).
  { intro W. eexists. exists 1%Q. split; [reflexivity|]. split; [lra|]. split; [lra|]. split; [|split].
    - apply Forall2_map_r. intros r I. now apply accelerated_shortened, U.
    - now apply Forall2_map_r.
    - intros t' T1 T2. lra. }
  unfold applyUpdate. destruct (existsb withBounds infos) eqn:B; cbn [negb]; [|apply NOP; intros; now apply no_bounds_within].
  rewrite check_all by assumption. destruct (existsb (existsb (fun v => v)) (map (flagsOf infos) ranks)) eqn:X;
    [|apply NOP; now apply any_flag].
  (* the factors of the ranks *)
  assert (S : forall r, In r ranks -> exists s,
    localScale (combine infos (r_sizes r)) (flagsOf infos r) (zipWith Qplus (r_values r) (r_update r)) (r_update r) = Some s /\ (0 <= s)%Q /\ (s <= 1)%Q /\
    everywhere infos (segs (r_sizes r) (r_values r)) (segs (r_sizes r) (r_update r)) (fun d i x y => (shorten d i (x + y) y <= s)%Q) /\
    (s = 0%Q \/ somewhere infos (segs (r_sizes r) (r_values r)) (segs (r_sizes r) (r_update r)) (fun d i x y => s = shorten d i (x + y)%Q y))).
  { intros r I. destruct (OW r I) as [(O1 & O2 & O3 & O4) W]. apply local_scale; auto.
    apply (within_everywhere infos r (O r I)); auto. }
  pose (g := fun r => match localScale (combine infos (r_sizes r)) (flagsOf infos r) (zipWith Qplus (r_values r) (r_update r)) (r_update r) with Some s => s | None => 0%Q end).
  rewrite (mapM_ranks infos _ g).
  2: { intros r I. cbn [fst snd]. unfold g. destruct (S r I) as (s & -> & _). reflexivity. }
  pose proof (fold_max_ge (map g ranks) 0%Q) as [G0 G]. pose proof (fold_max_in (map g ranks) 0%Q) as GI.
  set (s := fold_left qmax (map g ranks) 0%Q) in *.
  assert (Sr : forall r, In r ranks -> (g r <= s)%Q) by (intros r I; apply G; now apply in_map).
  assert (S1 : (s <= 1)%Q).
  { destruct GI as [->|I]; [lra|]. apply in_map_iff in I as (r & <- & I). unfold g. destruct (S r I) as (q & -> & _ & Q1 & _). exact Q1. }
  assert (SH : forall r, In r ranks -> shortened (1 - s) r (zipWith (fun x u => x - u * s)%Q (zipWith Qplus (r_values r) (r_update r)) (r_update r))).
  { intros r I. destruct (O r I) as (_ & _ & O1 & O2).
    assert (L : length (zipWith Qplus (r_values r) (r_update r)) = length (r_values r)) by (apply length_zipWith; lia).
    assert (L' : length (zipWith (fun x u => x - u * s)%Q (zipWith Qplus (r_values r) (r_update r)) (r_update r)) = length (r_values r))
      by (rewrite length_zipWith; lia).
    split; [exact L'|]. intros i J. rewrite !nth_zip by lia. ring. }
  eexists. exists (1 - s)%Q. split; [reflexivity|]. split; [lra|]. split; [lra|]. split; [now apply Forall2_map_r|]. split.
  - apply Forall2_map_r. intros r I k v c E. destruct (OW r I) as [Or W].
    apply (admissible_Qeq infos k c (value infos (r_sizes r) (r_values r) k v c + value infos (r_sizes r) (r_update r) k v c
       - value infos (r_sizes r) (r_update r) k v c * s)%Q).
    { rewrite (shortened_value infos (1 - s) r _ k v c Or (SH r I) E). ring. }
    assert (LU : length (r_update r) = fold_right plus 0 (r_sizes r)) by (destruct Or as (_ & _ & O1 & O2); lia).
    destruct (at_value infos r Or (r_values r) k v c (proj1 (proj2 (proj2 Or))) E) as (sv & D & S2 & _ & V2 & C2 & A & Up).
    destruct (at_value infos r Or (r_update r) k v c LU E) as (su & _ & S3 & _ & V3 & _).
    apply (admissible_entry infos _ k _ c _ A Up). apply shorten_ok; try lra.
    + apply (admissible_entry infos _ k _ c _ A Up). now apply W.
    + destruct (S r I) as (q & Eq & _ & _ & EV & _). pose proof (Sr r I) as Le. unfold g in Le. rewrite Eq in Le.
      pose proof (everywhere_at _ _ _ _ k _ _ _ _ _ _ EV D S2 S3 V2 V3 C2) as H. cbn in H. lra.
  - intros t' T1 T2. destruct GI as [Z|I]; [rewrite Z in T1; lra|]. apply in_map_iff in I as (r & Er & I). exists r. split; [exact I|].
    intros o So W. destruct (OW r I) as [Or Wr].
    destruct (S r I) as (q & Eq & _ & _ & _ & SW). unfold g in Er. rewrite Eq in Er. subst q.
    destruct SW as [Z|SW]; [rewrite Z in T1; lra|]. apply somewhere_at in SW as (k & d & vs & us & i & x & y & D & V & Us & Xx & Y & C & Es).
    assert (LV : length (r_values r) = fold_right plus 0 (r_sizes r)) by apply Or.
    assert (LU : length (r_update r) = fold_right plus 0 (r_sizes r)) by (destruct Or as (_ & _ & O1 & O2); lia).
    destruct (value_at infos r Or (r_values r) k d vs i x LV D V Xx C) as (v & c & E & Ei & Ex & A & Up).
    assert (Dk : nth k infos (Info 0 [] []) = d) by now apply nth_error_nth.
    assert (Ey : y = value infos (r_sizes r) (r_update r) k v c).
    { destruct (at_value infos r Or (r_update r) k v c LU E) as (su & _ & S3 & _ & V3 & _). rewrite Us in S3. injection S3 as <-.
      rewrite Dk, <- Ei, Y in V3. now injection V3. }
    pose proof (W k v c E) as Wo. apply (admissible_Qeq infos k c _ (x + y - y * (1 - t'))%Q) in Wo.
    2: { rewrite (shortened_value infos t' r o k v c Or So E), Ex, Ey. ring. }
    apply (admissible_entry infos d k i c _ A Up) in Wo.
    rewrite shorten_needed in Wo; [discriminate| |lra|].
    + apply (admissible_entry infos d k i c _ A Up). rewrite Ex. now apply Wr.
    + rewrite <- Es. lra.
Qed.
Print Assumptions C47_scaled_step_respects_bounds.

(** ** A case that meets the hypotheses: two data, the second one with two components, on
    two ranks; the second rank has no vertex of the first data. *)
Definition exInfos := [Info 1 [Some 0%Q] [None]; Info 2 [None; Some (1 # 2)%Q; None] [Some 3%Q; Some 2%Q; None]].
Definition exRanks := [Rank [2; 2] [1; 2; 1; 1]%Q [(-2); 1; 4; 0]%Q; Rank [0; 4] [0; 1; 3; 2]%Q [1; 0; 1; (-1)]%Q].
Example ranks_meet : ordered exInfos /\ forall r, In r exRanks -> one_step exInfos r /\ within_bounds exInfos (r_sizes r) (r_values r).
Proof.
  split.
  - intros k c l u. unfold lower_bound, upper_bound. destruct k as [|[|k]]; [| |destruct k; destruct c; cbn; discriminate];
      destruct c as [|[|[|[|c]]]]; cbn; intros A B; try discriminate; injection A as <-; injection B as <-; lra.
  - intros r I. cbn in I. destruct I as [<-|[<-|[]]]; (split; [split; [reflexivity|split; [|split; reflexivity]]|]).
    + intros [|[|k]] K; cbn in *; [| |lia]; (split; [lia|]); [now exists 2|now exists 1].
    + intros k v c (K & C & V). destruct k as [|[|k]]; [| |cbn in K; lia].
      * destruct c; [|cbn in C; lia]. destruct v as [|[|v]]; [| |cbn in V; lia]; split; intros b E; cbn in *; try discriminate; injection E as <-; lra.
      * destruct c as [|[|c]]; [| |cbn in C; lia]; (destruct v as [|v]; [|cbn in V; lia]); split; intros b E; cbn in *; try discriminate; injection E as <-; lra.
    + intros [|[|k]] K; cbn in *; [| |lia]; (split; [lia|]); [now exists 0|now exists 2].
    + intros k v c (K & C & V). destruct k as [|[|k]]; [| |cbn in K; lia].
      * cbn in V. lia.
      * destruct c as [|[|c]]; [| |cbn in C; lia]; (destruct v as [|[|v]]; [| |cbn in V; lia]); split; intros b E; cbn in *; try discriminate; injection E as <-; lra.
Qed.
Example clamps : applyUpdate exInfos Clamp exRanks = Some [[0; 3; 3; 1]; [1; 1; 3; 1]]%Q.
Proof. reflexivity. Qed.

(** ** With two time steps per window only the first one is looked at: the last value, at
    the end of the window, stays below its bound. *)
Theorem C47_substeps_refuted : exists infos ranks out,
  (forall r, In r ranks -> length (r_values r) = 2 * fold_right plus 0 (r_sizes r) /\ length (r_update r) = length (r_values r)) /\
  lower_bound infos 0 0 = Some 0%Q /\ applyUpdate infos Clamp ranks = Some [out] /\ (nth 1 out 0 < 0)%Q.
Proof.
  exists [Info 1 [Some 0%Q] [None]], [Rank [1] [1; 1]%Q [0; (-2)]%Q], [1; (-1)]%Q.
  split; [|split; [reflexivity|split; reflexivity]]. intros r [<-|[]]. split; reflexivity.
Qed.
Print Assumptions C47_substeps_refuted.
