(** Proofs about relaxation. *)
From Coq Require Import ZArith QArith Bool List Lia Lqa Sorted Arith.
From Verif Require Import M_Time M_Wave M_WaveCache M_Accel S_Wave S_Accel P_Wave.
Import ListNotations.
Open Scope nat_scope.

Section Proofs.
Variable eps : Z.
Hypothesis E0 : (0 <= eps)%Z.
Variable qr : list row -> list Q -> list Q.

Lemma zip_spec f : forall a b c, zip f a b = Some c ->
  length b = length a /\ length c = length a /\ forall i, i < length a -> nth i c 0%Q = f (nth i a 0%Q) (nth i b 0%Q).
Proof.
  induction a as [|x r IH]; intros [|y q] c H; cbn in H; try discriminate.
  - injection H as <-. repeat split. intros i L. cbn in L. lia.
  - destruct (zip f r q) as [l|] eqn:E; [|discriminate]. injection H as <-. destruct (IH _ _ E) as (A & B & C). cbn [length].
    split; [lia|]. split; [lia|]. intros [|i] L; cbn; auto. apply C. lia.
Qed.
Lemma zip_some f : forall a b, length a = length b -> exists c, zip f a b = Some c.
Proof.
  induction a as [|x r IH]; intros [|y q] H; cbn in *; try discriminate; [eauto|]. destruct (IH q) as (c & E); [lia|]. rewrite E. eauto.
Qed.
Lemma relax_spec omega a b c : relax omega a b = Some c -> pointwise (combination omega) a b c.
Proof.
  intro H. apply zip_spec in H. destruct H as (A & B & C). split; auto. split; auto. intros i L. unfold combination. rewrite (C i L). ring.
Qed.

Lemma sample_keep (f f' : wform) t v : current qr f -> wf_sample eps qr f t = Some (v, f') ->
  current qr f' /\ wf_st f' = wf_st f /\ wf_deg f' = wf_deg f.
Proof.
  intros C H. destruct (sample_keeps eps qr f t v f' H) as (A & B). split; auto.
  apply (op_fresh eps qr (OSample t) f); [exact C|exact (fun x => x)|]. cbn [wf_op]. rewrite H. reflexivity.
Qed.
Lemma sample_same (f g : wform) t v f' : current qr f -> current qr g -> wf_st f = wf_st g -> wf_deg f = wf_deg g ->
  wf_sample eps qr f t = Some (v, f') -> exists g', wf_sample eps qr g t = Some (v, g').
Proof.
  intros CF CG S D H. assert (A := sample_fresh eps qr f t CF). assert (B := sample_fresh eps qr g t CG). rewrite S, D in A.
  rewrite <- A, H in B. cbn in B. destruct (wf_sample eps qr g t) as [(v', g')|]; cbn in B; [|discriminate]. injection B as ->. eauto.
Qed.

Lemma relaxStample_spec omega ws d prev g q q' prev' g' :
  current qr prev -> current qr (cd_prev d) -> wf_st prev = wf_st (cd_prev d) -> wf_deg prev = wf_deg (cd_prev d) ->
  relaxStample eps qr omega ws (cd_gradient d) prev g q = Some (q', prev', g') ->
  current qr prev' /\ wf_st prev' = wf_st (cd_prev d) /\ wf_deg prev' = wf_deg (cd_prev d) /\ replaced eps qr (combination omega) ws d q q'.
Proof.
  intros CP CD S D H. unfold relaxStample in H. destruct (greater eps (fst q) ws) eqn:G; cbn [negb] in H.
  - destruct (wf_sample eps qr prev (fst q)) as [(old, prev1)|] eqn:E; [|discriminate].
    destruct (relax omega (fst (snd q)) old) as [v|] eqn:R; [|discriminate].
    destruct (sample_keep _ _ _ _ CP E) as (CP' & S' & D').
    match type of H with match ?m with _ => _ end = _ => destruct m as [gr|] eqn:GR; [|discriminate] end.
    injection H as <- <- <-. split; auto. split; [congruence|]. split; [congruence|]. split; [reflexivity|]. cbn [fst snd].
    unfold greater in G. apply Z.ltb_lt in G. split; [intro; lia|]. intros _. split; [|split].
    + destruct (sample_same prev (cd_prev d) _ _ _ CP CD S D E) as (f' & E'). exists old. split; [exists f'; exact E'|]. apply relax_spec. exact R.
    + intro F. rewrite F in GR. injection GR as <-. reflexivity.
    + intro F. rewrite F in GR. destruct (wf_sampleGradients eps prev1 (fst q)) as [og|] eqn:EG; [|discriminate].
      exists og. split; [|apply relax_spec; exact GR]. unfold previous_gradients. unfold wf_sampleGradients in *. rewrite <- S, <- S'. exact EG.
  - injection H as <- <- <-. split; auto. split; auto. split; auto. split; [reflexivity|]. split; [reflexivity|].
    unfold greater in G. apply Z.ltb_ge in G. intro; lia.
Qed.
Lemma relaxStamples_spec omega ws d : forall l prev g l' prev' g',
  current qr prev -> current qr (cd_prev d) -> wf_st prev = wf_st (cd_prev d) -> wf_deg prev = wf_deg (cd_prev d) ->
  relaxStamples eps qr omega ws (cd_gradient d) l prev g = Some (l', prev', g') ->
  current qr prev' /\ wf_st prev' = wf_st (cd_prev d) /\ Forall2 (replaced eps qr (combination omega) ws d) l l'.
Proof.
  induction l as [|q r IH]; intros prev g l' prev' g' CP CD S D H; cbn [relaxStamples] in H.
  - injection H as <- <- <-. repeat split; auto.
  - destruct (relaxStample _ _ _ _ _ prev g q) as [((q1, prev1), g1)|] eqn:E; [|discriminate].
    destruct (relaxStample_spec _ _ _ _ _ _ _ _ _ CP CD S D E) as (C1 & S1 & D1 & R1).
    destruct (relaxStamples _ _ _ _ _ r prev1 g1) as [((r', prev2), g2)|] eqn:E2; [|discriminate].
    injection H as <- <- <-. destruct (IH _ _ _ _ _ C1 CD S1 D1 E2) as (C2 & S2 & R2). repeat split; auto.
Qed.
Lemma relaxData_spec omega ws d d' : current qr (cd_prev d) -> relaxData eps qr omega ws d = Some d' ->
  relaxed eps qr (combination omega) ws d d' /\ current qr (cd_prev d').
Proof.
  intros C H. unfold relaxData in H. destruct (relaxStamples _ _ _ _ _ _ _ _) as [((l, prev), g)|] eqn:E; [|discriminate]. injection H as <-.
  destruct (relaxStamples_spec _ _ _ _ _ _ _ _ _ C C eq_refl eq_refl E) as (C' & S & F). split; [|exact C']. split; [exact S|]. split; [reflexivity|exact F].
Qed.

(** exact times *)
Lemma gradients_exact (f : wform) t (x : smp) : Ord eps (wf_st f) -> In (t, x) (wf_st f) -> wf_sampleGradients eps f t = Some (snd x).
Proof. intros O I. unfold wf_sampleGradients. rewrite (atOrAfter_exact eps E0 _ _ _ O I). reflexivity. Qed.

Lemma relaxStamples_grid omega ws (gr : bool) prev : Ord eps (wf_st prev) -> forall (l o : wave smp) g,
  (forall q, In q o -> In q (wf_st prev)) ->
  Forall2 (fun q o => fst q = fst o /\ length (fst (snd q)) = length (fst (snd o)) /\ length (snd (snd q)) = length (snd (snd o))) l o ->
  exists l' g', relaxStamples eps qr omega ws gr l prev g = Some (l', prev, g').
Proof.
  intros O l. induction l as [|q r IH]; intros o g HI F; inversion F as [|q0 p0 r0 o0 (T & LV & LG) F0]; subst; cbn [relaxStamples]; [eauto|].
  assert (IP : In p0 (wf_st prev)) by (apply HI; left; reflexivity). destruct p0 as (t, x), q as (t', y). cbn [fst snd] in *. subst t'.
  assert (G : exists q' g1, relaxStample eps qr omega ws gr prev g (t, y) = Some (q', prev, g1)).
  { unfold relaxStample. cbn [fst snd]. destruct (greater eps t ws); cbn [negb]; [|eauto].
    rewrite (sample_exact eps E0 qr prev t x O IP). destruct x as (xv, xg), y as (yv, yg). cbn [fst snd] in *.
    destruct (zip_some (fun v o => v * omega + o * (1 - omega))%Q yv xv LV) as (v & EV). change (relax omega yv xv = Some v) in EV. rewrite EV.
    destruct gr; [|eauto]. rewrite (gradients_exact prev t (xv, xg) O IP). cbn [snd].
    destruct (zip_some (fun v o => v * omega + o * (1 - omega))%Q yg xg LG) as (w & EW).
    change (relax omega yg xg = Some w) in EW. rewrite EW. eauto. }
  destruct G as (q' & g1 & ->). destruct (IH o0 g1) as (l' & g' & ->); [intros q HQ; apply HI; right; exact HQ|exact F0|]. eauto.
Qed.
End Proofs.
