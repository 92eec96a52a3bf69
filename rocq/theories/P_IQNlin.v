(** IQN-ILS on linear problems. *)
From Coq Require Import Field Field_theory List Arith Lia Bool Sorted.
From Verif Require Import S_Field M_QR S_QR M_IQN S_IQN P_Field P_Dim P_QR P_QRsolve P_QRfilter P_IQNlist P_IQN P_IQNrun.
From Verif Require M_QN.
Import ListNotations.

Section P.
Variable F : field.
Add Field KL : (K_theory F).
Local Infix "+" := (@add F). Local Infix "*" := (@mul F). Local Infix "-" := (@sub F). Local Notation "0" := (@zero F). Local Notation "1" := (@one F).
Local Infix "/" := (@div F).
Notation vec := (nat -> F).
Variable hyp : F -> F -> F.
Variable norm : nat -> vec -> F.
Hypothesis HR : roots_ok hyp norm.
Variable c : config F.
Notation n := (rowsOf c).
Notation qnc := (c_qn c).
Variable A : nat -> nat -> F.
(** A applied to a vector of primary data *)
Definition apply (d : vec) : vec := fun e => fsum n (fun k => A e k * d k).
Lemma apply_ext d d' e : (forall k, (k < n)%nat -> d k = d' k) -> apply d e = apply d' e.
Proof. intros H. apply fsum_ext. intros k Hk. rewrite H by exact Hk. reflexivity. Qed.
Lemma apply_plus d d' e : apply (fun k => d k + d' k) e = apply d e + apply d' e.
Proof. unfold apply. rewrite <- fsum_plus. apply fsum_ext. intros k _. ring. Qed.
Lemma apply_minus d d' e : apply (fun k => d k - d' k) e = apply d e - apply d' e.
Proof. unfold apply. rewrite <- fsum_minus. apply fsum_ext. intros k _. ring. Qed.
Lemma apply_scale d x e : apply (fun k => d k * x) e = apply d e * x.
Proof. unfold apply. rewrite <- fsum_scale_r. apply fsum_ext. intros k _. ring. Qed.
Definition secant (v w : vec) : Prop := exists d, (forall e, w e = apply d e) /\ (forall e, v e = primary c w e - d e).

Lemma new_secant b x xt x0 xt0 : (forall e, xt e = affine c A b x e) -> (forall e, xt0 e = affine c A b x0 e) ->
  secant (fun e => residual c x xt e - residual c x0 xt0 e) (fun e => xt e - xt0 e).
Proof.
  intros H H0. exists (fun k => primary c x k - primary c x0 k). split.
  - intros e. rewrite H, H0, apply_minus. unfold affine, apply. ring.
  - intros e. unfold residual, primary. ring.
Qed.
Lemma differences_secant b evs : forall w prev, solves c A b w evs -> (forall x0 xt0, prev = Some (x0, xt0) -> forall e, xt0 e = affine c A (b w) x0 e) ->
  forall v u, In (v, u) (differences c prev evs) -> secant v u.
Proof.
  induction evs as [|ev evs IH]; intros w prev S P v u H; [destruct H|].
  destruct ev as [x xt|x xt]; destruct S as [S1 S2]; cbn [differences] in H; apply in_app_or in H.
  - destruct H as [H|H].
    + destruct prev as [[x0 xt0]|]; [|destruct H]. destruct H as [[= <- <-]|[]]. exact (new_secant (b w) x xt x0 xt0 S1 (P x0 xt0 eq_refl)).
    + apply (IH w (Some (x, xt)) S2); [|exact H]. intros y yt [= <- <-]. exact S1.
  - destruct H as [H|H].
    + destruct prev as [[x0 xt0]|]; [|destruct H]. destruct H as [[= <- <-]|[]]. exact (new_secant (b w) x xt x0 xt0 S1 (P x0 xt0 eq_refl)).
    + apply (IH (S w) None S2); [|exact H]. discriminate.
Qed.

(** sums *)
Lemma fsum_first m (f : vec) : fsum (S m) f = f O + fsum m (fun j => f (S j)).
Proof. induction m as [|m IH]; [cbn; ring|]. change (fsum (S m) f + f (S m) = f O + (fsum m (fun j => f (S j)) + f (S m))). rewrite IH. ring. Qed.
Lemma combination_cons v V y e : combination (v :: V) y e = v e * y O + combination V (fun j => y (S j)) e.
Proof. unfold combination. cbn [length]. rewrite fsum_first. reflexivity. Qed.
Lemma combination_secant V W : Forall2 secant V W -> forall y, exists d, (forall e, combination W y e = apply d e) /\ (forall e, combination V y e = primary c (combination W y) e - d e).
Proof.
  induction 1 as [|v w V W [d [D1 D2]] H IH]; intros y.
  - exists (fun _ => 0). split; intros e.
    + unfold apply. symmetry. apply fsum_zero. intros k _. ring.
    + unfold primary, combination. cbn [length fsum]. ring.
  - destruct (IH (fun j => y (S j))) as [d' [D1' D2']]. exists (fun k => d k * y O + d' k). split; intros e.
    + rewrite combination_cons, D1, D1', apply_plus, apply_scale. reflexivity.
    + rewrite combination_cons, D2, D2'. unfold primary. rewrite combination_cons. ring.
Qed.
(** what a step leaves *)
Lemma step_residual b V W x xt x' y : Forall2 secant V W -> (forall e, xt e = affine c A b x e) -> (forall e, x' e = xt e + combination W y e) ->
  forall e, affine c A b x' e = x' e + apply (fun k => residual c x xt k + combination V y k) e.
Proof.
  intros H Hx Hx' e. destruct (combination_secant V W H y) as [d [D1 D2]].
  unfold affine. change (fsum n (fun k => A e k * primary c x' k)) with (apply (primary c x') e).
  rewrite (apply_ext (primary c x') (fun k => (primary c x k + d k) + (residual c x xt k + combination V y k))).
  - rewrite !apply_plus. rewrite Hx', Hx, D1. unfold affine. change (fsum n (fun k => A e k * primary c x k)) with (apply (primary c x) e). ring.
  - intros k _. rewrite D2. unfold residual, primary. rewrite Hx'. ring.
Qed.

(** orthogonality *)
Lemma weighted_zero (w u : vec) : (forall e, (e < n)%nat -> w e <> 0) -> weighted c w u = 0 -> forall e, (e < n)%nat -> u e = 0.
Proof.
  intros Hw H e He. destruct HR as [_ [_ R]]. destruct (R n (fun e => w e * u e)) as [R1 R2]. unfold weighted in H. rewrite H in R1.
  assert (Z : norm n (fun e => w e * u e) = 0).
  { destruct (dec_zero F (norm n (fun e => w e * u e))) as [Z|Z]; [exact Z|]. exact (mul_zero_r F _ _ R1 Z). }
  apply (mul_zero_r F (w e)); [exact (R2 Z e He)|exact (Hw e He)].
Qed.
Lemma perp_combination (w : vec) V u a : (forall j, (j < length V)%nat -> fdot n (fun e => w e * nth j V (fun _ => 0) e) (fun e => w e * u e) = 0) ->
  fdot n (fun e => w e * combination V a e) (fun e => w e * u e) = 0.
Proof.
  intros H. rewrite fdot_sym.
  transitivity (fdot n (fun e => w e * u e) (fun e => fsum (length V) (fun j => (w e * nth j V (fun _ => 0) e) * a j))).
  - apply fdot_ext; intros e He; [reflexivity|]. unfold combination. rewrite <- fsum_scale. apply fsum_ext. intros j Hj. ring.
  - rewrite (fdot_comb F n (length V) (fun e => w e * u e) (fun e j => w e * nth j V (fun _ => 0) e) a). apply fsum_zero. intros j Hj. rewrite fdot_sym, H by exact Hj. ring.
Qed.
Lemma combination_plus V y z e : combination V (fun j => y j + z j) e = combination V y e + combination V z e.
Proof. unfold combination. rewrite <- fsum_plus. apply fsum_ext. intros j _. ring. Qed.
Lemma span_residual_zero (w : vec) V W r xt x' : (forall e, (e < n)%nat -> w e <> 0) -> least_squares_step c w V W r xt x' -> in_span n V r ->
  exists y, (forall e, x' e = xt e + combination W y e) /\ forall e, (e < n)%nat -> r e + combination V y e = 0.
Proof.
  intros Hw [y [X [N _]]] [z Hz]. exists y. split; [exact X|]. apply (weighted_zero w (fun e => r e + combination V y e) Hw). unfold weighted.
  rewrite <- (perp_combination w V (fun e => r e + combination V y e) (fun j => z j + y j) N). apply fdot_ext; intros e He; [|reflexivity]. rewrite combination_plus, Hz by exact He. ring.
Qed.
Lemma linear_solved b (w : vec) V W x xt x' : (forall e, (e < n)%nat -> w e <> 0) -> Forall2 secant V W -> (forall e, xt e = affine c A b x e) ->
  least_squares_step c w V W (residual c x xt) xt x' -> in_span n V (residual c x xt) -> fixed_point c A b x'.
Proof.
  intros Hw H Hx L Sp. destruct (span_residual_zero w V W _ xt x' Hw L Sp) as [y [X Z]]. intros e. rewrite (step_residual b V W x xt x' y H Hx X e).
  rewrite (apply_ext _ (fun _ => 0) e Z). unfold apply. rewrite fsum_zero; [ring|]. intros k _. ring.
Qed.
End P.
