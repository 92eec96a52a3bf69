(** Proofs about Aitken acceleration. *)
From Coq Require Import ZArith QArith Bool List Lia Lqa Sorted Arith.
From Verif Require Import M_Time M_Wave M_WaveCache M_Accel S_Wave S_Accel P_Wave P_Accel.
Import ListNotations.
Open Scope nat_scope.

(** * Vectors *)
Lemma zip_f2 f : forall a b c, zip f a b = Some c -> forall a' b', veq a a' -> veq b b' ->
  (forall x x' y y', (x == x')%Q -> (y == y')%Q -> (f x y == f x' y')%Q) -> exists c', zip f a' b' = Some c' /\ veq c c'.
Proof.
  induction a as [|x r IH]; intros [|y q] c H a' b' HA HB HF; cbn in H; try discriminate; inversion HA; subst; inversion HB; subst; cbn.
  - injection H as <-. exists []. split; [reflexivity|constructor].
  - destruct (zip f r q) as [l|] eqn:E; [|discriminate]. injection H as <-.
    destruct (IH q l E l' l'0) as (c' & -> & V); auto. eexists. split; [reflexivity|]. constructor; auto.
Qed.
Definition scaled (k : Q) (d o : vec) : Prop := Forall2 (fun x y => x == k * y)%Q d o.
Lemma scaled_zip k : forall d o w d' o', scaled k d o -> zip Qmult d w = Some d' -> zip Qmult o w = Some o' -> scaled k d' o'.
Proof.
  induction d as [|x d IH]; intros o w d' o' S HD HO; inversion S as [|x0 y d0 o0 XY S']; subst; destruct w as [|v w]; cbn in *; try discriminate.
  - injection HD as <-. injection HO as <-. constructor.
  - destruct (zip Qmult d w) as [l|] eqn:E; [|discriminate]. destruct (zip Qmult o0 w) as [l'|] eqn:E'; [|discriminate].
    injection HD as <-. injection HO as <-. constructor; [rewrite XY; ring|]. eapply IH; eauto.
Qed.
Lemma dot_cons x y a b : (dotv (x :: a) (y :: b) == x * y + dotv a b)%Q.
Proof. unfold dotv. cbn. reflexivity. Qed.
Lemma dot_scaled k : forall d o, scaled k d o -> (dotv d d == k * k * dotv o o)%Q /\ (dotv o d == k * dotv o o)%Q.
Proof.
  induction 1 as [|x y d o XY S (A & B)].
  - unfold dotv. cbn. split; ring.
  - rewrite !dot_cons, A, B, XY. split; ring.
Qed.
Lemma dot_pos : forall v, (0 <= dotv v v)%Q /\ ((dotv v v == 0)%Q -> Forall (fun x => x == 0)%Q v).
Proof.
  induction v as [|x v (P & Z)].
  - split; [unfold dotv; cbn; lra|constructor].
  - rewrite dot_cons. assert (X2 : (0 <= x * x)%Q) by nra. split; [lra|]. intro H.
    assert (x * x == 0)%Q by lra. assert (dotv v v == 0)%Q by lra. constructor; auto.
    apply Qmult_integral in H0. tauto.
Qed.
Lemma zip_weights_zero : forall v w c, zip Qmult v w = Some c -> Forall (fun x => ~ x == 0)%Q w -> Forall (fun x => x == 0)%Q c -> Forall (fun x => x == 0)%Q v.
Proof.
  induction v as [|x v IH]; intros [|y w] c H W Z; cbn in H; try discriminate; [constructor|].
  destruct (zip Qmult v w) as [l|] eqn:E; [|discriminate]. injection H as <-. inversion W; subst. inversion Z; subst.
  constructor; [|eapply IH; eauto]. match goal with A : (x * y == 0)%Q |- _ => apply Qmult_integral in A; destruct A; [assumption|contradiction] end.
Qed.
Lemma zip_app f : forall a a' b b' c c', zip f a b = Some c -> zip f a' b' = Some c' -> zip f (a ++ a') (b ++ b') = Some (c ++ c').
Proof.
  induction a as [|x r IH]; intros a' [|y q] b' c c' H H'; cbn in H; try discriminate.
  - injection H as <-. exact H'.
  - destruct (zip f r q) as [l|] eqn:E; [|discriminate]. injection H as <-. cbn. rewrite (IH a' q b' l c' E H'). reflexivity.
Qed.

Lemma affine_length a b id x : length (b id) = length x -> length (affine a b id x) = length x.
Proof. intro H. unfold affine. rewrite map_length, combine_length, H. apply Nat.min_id. Qed.

(** the first residual, the new iterate and the second residual of one data *)
Lemma residual_step a f : forall x b x1 r0 r1,
  length b = length x ->
  pointwise (combination f) (map (fun p => a * fst p + snd p)%Q (combine x b)) x x1 ->
  zip Qminus (map (fun p => a * fst p + snd p)%Q (combine x b)) x = Some r0 ->
  zip Qminus (map (fun p => a * fst p + snd p)%Q (combine x1 b)) x1 = Some r1 ->
  scaled (1 + (a - 1) * f)%Q r1 r0.
Proof.
  induction x as [|x r IH]; intros [|b br] x1 r0 r1 L (L1 & L2 & P) H0 H1; cbn [length] in L; try discriminate.
  - cbn in L2. destruct x1; [|discriminate]. cbn in *. injection H0 as <-. injection H1 as <-. constructor.
  - cbn [combine map length] in *. destruct x1 as [|y yr]; [discriminate|]. cbn in H0, H1.
    destruct (zip Qminus (map _ (combine r br)) r) as [l0|] eqn:E0; [|discriminate].
    destruct (zip Qminus (map _ (combine yr br)) yr) as [l1|] eqn:E1; [|discriminate].
    injection H0 as <-. injection H1 as <-. constructor.
    + assert (A := P 0 (Nat.lt_0_succ _)). unfold combination in A. cbn in A. rewrite A. ring.
    + apply (IH br yr l0 l1); auto. split; [lia|]. split; [cbn in L2; lia|]. intros i Hi. apply (P (S i)). lia.
Qed.
(** the last step: with the right factor the new iterate is the fixed point *)
Lemma final_step a f : (1 + (a - 1) * f == 0)%Q -> forall x b x1,
  length b = length x ->
  pointwise (combination f) (map (fun p => a * fst p + snd p)%Q (combine x b)) x x1 ->
  veq (map (fun p => a * fst p + snd p)%Q (combine x1 b)) x1.
Proof.
  intro F. induction x as [|x r IH]; intros [|b br] x1 L (L1 & L2 & P); cbn [length] in L; try discriminate.
  - cbn in L2. destruct x1; [|discriminate]. constructor.
  - cbn [combine map length] in *. destruct x1 as [|y yr]; [discriminate|]. cbn [combine map]. constructor.
    + assert (A := P 0 (Nat.lt_0_succ _)). unfold combination in A. cbn in A. cbn [fst snd]. rewrite A.
      assert (B : (a * (f * (a * x + b) + (1 - f) * x) + b == f * (a * x + b) + (1 - f) * x + (1 + (a - 1) * f) * (a * x + b - x))%Q) by ring.
      rewrite B, F. ring.
    + apply IH; auto. split; [lia|]. split; [cbn in L2; lia|]. intros i Hi. apply (P (S i)). lia.
Qed.

Section Proofs.
Variable eps : Z.
Hypothesis E0 : (0 <= eps)%Z.
Variable qr : list row -> list Q -> list Q.
Variable tol : Q.
Hypothesis T0 : (0 <= tol)%Q.

Definition residual (now before : nat -> vec) (id : nat) : option vec := zip Qminus (now id) (before id).
Fixpoint residuals (now before : nat -> vec) (ids : list nat) : option vec :=
  match ids with
  | [] => Some []
  | id :: r => match residual now before id, residuals now before r with Some a, Some b => Some (a ++ b) | _, _ => None end
  end.

Lemma concatenate_ok m t before now : forall ids, iterates eps m ids t before now ->
  concatenate eps qr m ids t = Some (flat_map now ids, flat_map before ids).
Proof.
  induction ids as [|id r IH]; intro H; cbn [concatenate flat_map]; auto.
  destruct (H id (or_introl eq_refl)) as (d & g & g' & A & OW & OP & IW & IP & L). rewrite A.
  apply ordered_ord in OW. apply ordered_ord in OP.
  rewrite (sample_exact eps E0 qr _ t _ OW IW), (sample_exact eps E0 qr _ t _ OP IP). rewrite IH by (intros i I; apply H; right; exact I).
  cbn [fst]. rewrite L, Nat.eqb_refl. reflexivity.
Qed.
Lemma residuals_ok now before : forall ids, (forall id, In id ids -> length (now id) = length (before id)) ->
  exists r, residuals now before ids = Some r /\ zip Qminus (flat_map now ids) (flat_map before ids) = Some r.
Proof.
  induction ids as [|id r IH]; intro H; cbn [residuals flat_map]; [exists []; auto|].
  destruct IH as (l & -> & E); [intros; apply H; right; auto|].
  destruct (zip_some Qminus (now id) (before id)) as (c & C); [apply H; left; auto|]. unfold residual. rewrite C.
  exists (c ++ l). split; [reflexivity|]. apply zip_app; auto.
Qed.

(** relaxation of a map *)
Definition Grid (m : dataMap) : Prop := forall id d, In (id, d) m -> same_grid eps d.
Lemma same_grid_ord d : same_grid eps d -> Ord eps (wf_st (cd_prev d)).
Proof.
  intros (O & F). apply ordered_ord in O. apply (ord_times eps (wf_st (cd_wave d))); [|exact O].
  clear O. induction F as [|q o l l' (A & _) _ IH]; cbn; [reflexivity|]. exact (f_equal2 cons A IH).
Qed.
Lemma relaxData_grid omega ws d : same_grid eps d -> exists d', relaxData eps qr omega ws d = Some d'.
Proof.
  intro H. assert (O := same_grid_ord d H). destruct H as (_ & F). unfold relaxData.
  destruct (relaxStamples_grid eps E0 qr omega ws (cd_gradient d) (cd_prev d) O (wf_st (cd_wave d)) (wf_st (cd_prev d)) (cd_global d)) as (l' & g' & ->); auto. eauto.
Qed.
Lemma applyRelaxation_grid omega ws : forall m, Grid m -> exists m', applyRelaxation eps qr omega m ws = Some m'.
Proof.
  induction m as [|(id, d) r IH]; intro G; cbn [applyRelaxation]; [eauto|].
  destruct (relaxData_grid omega ws d (G id d (or_introl eq_refl))) as (d' & ->).
  destruct IH as (r' & ->); [intros i e I; apply (G i e); right; exact I|]. eauto.
Qed.
Lemma applyRelaxation_at omega ws : forall m m' id d, applyRelaxation eps qr omega m ws = Some m' -> at_ m id = Some d ->
  exists d', at_ m' id = Some d' /\ relaxData eps qr omega ws d = Some d'.
Proof.
  induction m as [|(i, e) r IH]; intros m' id d H A; cbn in *; [discriminate|].
  destruct (relaxData eps qr omega ws e) as [e'|] eqn:R; [|discriminate].
  destruct (applyRelaxation eps qr omega r ws) as [r'|] eqn:S; [|discriminate]. injection H as <-. cbn.
  destruct (i =? id); [injection A as <-; eauto|]. eapply IH; eauto.
Qed.
(** the new value at the end of the window *)
Lemma relaxData_at omega ws t d d' now before g g' :
  current qr (cd_prev d) -> (ws + eps < t)%Z -> Ord eps (wf_st (cd_prev d)) ->
  In (t, (now, g)) (wf_st (cd_wave d)) -> In (t, (before, g')) (wf_st (cd_prev d)) ->
  relaxData eps qr omega ws d = Some d' -> exists v h, In (t, (v, h)) (wf_st (cd_wave d')) /\ pointwise (combination omega) now before v.
Proof.
  intros C T O IW IP H. destruct (relaxData_spec eps qr omega ws d d' C H) as ((_ & _ & F) & _).
  assert (K : exists q', In q' (wf_st (cd_wave d')) /\ replaced eps qr (combination omega) ws d (t, (now, g)) q').
  { revert IW. clear IP. induction F as [|a b l l' R F IH]; intros []; subst.
    - exists b. split; [left; reflexivity|exact R].
    - destruct IH as (q' & I & RR); auto. exists q'. split; [right; exact I|exact RR]. }
  destruct K as ((t', (v, h)) & I & (ET & _ & R)). cbn [fst snd] in *. subst t'. destruct (R T) as ((old & (f' & PO) & P) & _).
  rewrite (sample_exact eps E0 qr _ t _ O IP) in PO. injection PO as <- <-. exists v, h. split; auto.
Qed.

Lemma perform_ok A w m ws we before now :
  iterates eps m (a_ids A) we before now -> Grid m ->
  (forall id d, In (id, d) m -> current qr (cd_prev d)) -> (ws + eps < we)%Z ->
  forall r f, residuals now before (a_ids A) = Some r -> nextFactor tol A w r = Some f ->
  exists m', aitkenPerform eps qr tol A w m ws we = Some (Aitken (a_initial A) (a_ids A) f r (S (a_counter A)), m') /\
  forall id, In id (a_ids A) -> exists d v g, at_ m' id = Some d /\ In (we, (v, g)) (wf_st (cd_wave d)) /\ pointwise (combination f) (now id) (before id) v.
Proof.
  intros IT G CU T r f R NF. unfold aitkenPerform. rewrite (concatenate_ok m we before now _ IT).
  destruct (residuals_ok now before (a_ids A)) as (r' & R' & Z).
  { intros id I. destruct (IT id I) as (d & g & g' & _ & _ & _ & _ & _ & L). exact L. }
  rewrite R in R'. injection R' as <-. rewrite Z, NF. destruct (applyRelaxation_grid f ws m G) as (m' & E). rewrite E.
  exists m'. split; [reflexivity|]. intros id I. destruct (IT id I) as (d & g & g' & A1 & OW & OP & IW & IP & L).
  destruct (applyRelaxation_at f ws m m' id d E A1) as (d' & A' & RD).
  assert (IM : In (id, d) m).
  { clear -A1. induction m as [|(i, e) l IH]; cbn in A1; [discriminate|]. destruct (Nat.eqb_spec i id) as [->|N]; [injection A1 as ->; left; reflexivity|right; auto]. }
  apply ordered_ord in OP. destruct (relaxData_at f ws we d d' (now id) (before id) g g' (CU id d IM) T OP IW IP RD) as (v & h & IV & P).
  exists d', v, h. auto.
Qed.

Lemma residuals_scaled a b f before x1 : forall ids r0 r1,
  (forall id, In id ids -> length (b id) = length (before id) /\ pointwise (combination f) (affine a b id (before id)) (before id) (x1 id)) ->
  residuals (fun id => affine a b id (before id)) before ids = Some r0 ->
  residuals (fun id => affine a b id (x1 id)) x1 ids = Some r1 -> scaled (1 + (a - 1) * f)%Q r1 r0.
Proof.
  induction ids as [|id r IH]; intros r0 r1 H H0 H1; cbn [residuals] in *.
  - injection H0 as <-. injection H1 as <-. constructor.
  - unfold residual in H0 at 1, H1 at 1.
    destruct (zip Qminus (affine a b id (before id)) (before id)) as [c0|] eqn:C0; [|discriminate].
    destruct (zip Qminus (affine a b id (x1 id)) (x1 id)) as [c1|] eqn:C1; [|discriminate].
    destruct (residuals _ before r) as [l0|] eqn:L0; [|discriminate]. destruct (residuals _ x1 r) as [l1|] eqn:L1; [|discriminate].
    injection H0 as <-. injection H1 as <-. destruct (H id (or_introl eq_refl)) as (LB & P).
    apply Forall2_app; [eapply (residual_step a f (before id) (b id) (x1 id)); eauto|]. apply IH; auto. intros; apply H; right; auto.
Qed.
Lemma residuals_zero now before : forall ids r, residuals now before ids = Some r -> Forall (fun x => x == 0)%Q r ->
  forall id, In id ids -> veq (now id) (before id).
Proof.
  assert (Z : forall a b c, zip Qminus a b = Some c -> Forall (fun x => x == 0)%Q c -> veq a b).
  { induction a as [|x a IH]; intros [|y b] c H F; cbn in H; try discriminate; [constructor|].
    destruct (zip Qminus a b) as [l|] eqn:E; [|discriminate]. injection H as <-. inversion F; subst. constructor; [lra|eapply IH; eauto]. }
  induction ids as [|i l IH]; intros r H F id []; subst; cbn [residuals] in H; unfold residual in H at 1.
  - destruct (zip Qminus (now id) (before id)) as [c|] eqn:C; [|discriminate]. destruct (residuals now before l); [|discriminate]. injection H as <-.
    apply Forall_app in F. apply (Z _ _ _ C). apply F.
  - destruct (zip Qminus (now i) (before i)); [|discriminate]. destruct (residuals now before l) as [l1|]; [|discriminate]. injection H as <-.
    apply Forall_app in F. eapply IH; eauto. apply F.
Qed.
End Proofs.
