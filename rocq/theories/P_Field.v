(** Sums over a field. *)
From Coq Require Import Field Field_theory List Arith Lia Bool.
From Verif Require Import S_Field.
Import ListNotations.

Section F.
Variable F : field.
Add Field KF : (K_theory F).
Local Infix "+" := (@add F). Local Infix "*" := (@mul F). Local Infix "-" := (@sub F). Local Notation "0" := (@zero F). Local Notation "1" := (@one F).
Implicit Types (f g : nat -> F) (n m k : nat).

Lemma fsum_ext n f g : (forall k, k < n -> f k = g k) -> fsum n f = fsum n g.
Proof. induction n as [|n IH]; intros H; cbn [fsum]; [reflexivity|]. rewrite IH, H by (intros; auto with arith). reflexivity. Qed.
Lemma fsum_plus n f g : fsum n (fun k => f k + g k) = fsum n f + fsum n g.
Proof. induction n as [|n IH]; cbn [fsum]; [ring|]. rewrite IH. ring. Qed.
Lemma fsum_minus n f g : fsum n (fun k => f k - g k) = fsum n f - fsum n g.
Proof. induction n as [|n IH]; cbn [fsum]; [ring|]. rewrite IH. ring. Qed.
Lemma fsum_scale n (c : F) f : fsum n (fun k => c * f k) = c * fsum n f.
Proof. induction n as [|n IH]; cbn [fsum]; [ring|]. rewrite IH. ring. Qed.
Lemma fsum_scale_r n (c : F) f : fsum n (fun k => f k * c) = fsum n f * c.
Proof. induction n as [|n IH]; cbn [fsum]; [ring|]. rewrite IH. ring. Qed.
Lemma fsum_zero n f : (forall k, k < n -> f k = 0) -> fsum n f = 0.
Proof. induction n as [|n IH]; intros H; cbn [fsum]; [reflexivity|]. rewrite IH, H by (intros; auto with arith). ring. Qed.
Lemma fsum_swap n m (f : nat -> nat -> F) : fsum n (fun i => fsum m (fun j => f i j)) = fsum m (fun j => fsum n (fun i => f i j)).
Proof.
  induction n as [|n IH]; cbn [fsum]; [symmetry; apply fsum_zero; reflexivity|]. rewrite IH, <- fsum_plus. reflexivity.
Qed.
Lemma fsum_pick n j f : j < n -> (forall k, k < n -> k <> j -> f k = 0) -> fsum n f = f j.
Proof.
  intros Hj H. induction n as [|n IH]; [lia|]. cbn [fsum]. destruct (Nat.eq_dec j n) as [->|N].
  - rewrite fsum_zero; [ring|]. intros k Hk. apply H; lia.
  - rewrite IH; [|lia|intros; apply H; lia]. rewrite (H n) by lia. ring.
Qed.
(** only the entries [l] and [l + 1] change, their sum does not *)
Lemma fsum_pair n l f g : S l < n -> (forall k, k < n -> k <> l -> k <> S l -> f k = g k) -> f l + f (S l) = g l + g (S l) -> fsum n f = fsum n g.
Proof.
  intros Hl H E. transitivity (fsum n (fun k => g k + ((if k =? l then f l - g l else 0) + (if k =? S l then f (S l) - g (S l) else 0)))).
  - apply fsum_ext. intros k Hk. destruct (Nat.eqb_spec k l) as [E1|N]; destruct (Nat.eqb_spec k (S l)) as [E2|N'].
    + lia.
    + subst k. ring.
    + subst k. ring.
    + rewrite H by assumption. ring.
  - rewrite fsum_plus, fsum_plus, (fsum_pick n l (fun k => if k =? l then f l - g l else 0)), (fsum_pick n (S l) (fun k => if k =? S l then f (S l) - g (S l) else 0)); [|exact Hl| |lia|].
    + rewrite !Nat.eqb_refl. transitivity (fsum n g + (f l + f (S l) - (g l + g (S l)))); [ring|]. rewrite E. ring.
    + intros k Hk N. apply Nat.eqb_neq in N. rewrite N. reflexivity.
    + intros k Hk N. apply Nat.eqb_neq in N. rewrite N. reflexivity.
Qed.
Lemma fdot_ext n u v u' v' : (forall e, e < n -> u e = u' e) -> (forall e, e < n -> v e = v' e) -> fdot n u v = fdot (F:=F) n u' v'.
Proof. intros A B. apply fsum_ext. intros e He. rewrite A, B by exact He. reflexivity. Qed.
Lemma fdot_sym n u v : fdot n u v = fdot (F:=F) n v u.
Proof. apply fsum_ext. intros. ring. Qed.
Lemma fdot_comb n m u (q : nat -> nat -> F) (c : nat -> F) : fdot n u (fun e => fsum m (fun i => q e i * c i)) = fsum m (fun i => fdot n u (fun e => q e i) * c i).
Proof.
  unfold fdot. transitivity (fsum n (fun e => fsum m (fun i => u e * q e i * c i))).
  - apply fsum_ext. intros e _. rewrite <- fsum_scale. apply fsum_ext. intros. ring.
  - rewrite fsum_swap. apply fsum_ext. intros i _. rewrite <- fsum_scale_r. apply fsum_ext. intros. ring.
Qed.
Lemma fdot_plus n u v w : fdot (F:=F) n u (fun e => v e + w e) = fdot n u v + fdot n u w.
Proof. unfold fdot. rewrite <- fsum_plus. apply fsum_ext. intros. ring. Qed.
Lemma fdot_minus n u v w : fdot (F:=F) n u (fun e => v e - w e) = fdot n u v - fdot n u w.
Proof. unfold fdot. rewrite <- fsum_minus. apply fsum_ext. intros. ring. Qed.
Lemma fdot_scale n u v (c : F) : fdot (F:=F) n u (fun e => c * v e) = c * fdot n u v.
Proof. unfold fdot. rewrite <- fsum_scale. apply fsum_ext. intros. ring. Qed.
Lemma mul_zero_r (x y : F) : x * y = 0 -> x <> 0 -> y = 0.
Proof. intros H N. transitivity (x * y * div 1 x); [field; exact N|]. rewrite H. ring. Qed.
Lemma mul_nonzero (x y : F) : x <> 0 -> y <> 0 -> x * y <> 0.
Proof. intros A B C. apply B, (mul_zero_r x); assumption. Qed.
Lemma div_nonzero (x y : F) : x <> 0 -> y <> 0 -> div x y <> 0.
Proof. intros A B C. apply A. transitivity (div x y * y); [field; exact B|]. rewrite C. ring. Qed.
Lemma dec_zero (x : F) : x = 0 \/ x <> 0.
Proof. destruct (is_zero x) eqn:E; [left; apply is_zero_ok, E|right; intros C; apply is_zero_ok in C; congruence]. Qed.
End F.
