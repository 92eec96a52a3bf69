(** What users expect from radial basis functions. *)
From Coq Require Import Reals.
From Verif Require Import M_Basis.
Open Scope R_scope.

(** positive up to the distance [c], zero from there on, and nearer vertices count more *)
Definition bump (f : R -> R) (c : R) : Prop :=
  (forall r, 0 <= r -> r < c -> 0 < f r) /\ (forall r, c <= r -> f r = 0) /\ (forall r r', 0 <= r -> r < r' -> r < c -> f r' < f r).
(** the functions that get a support radius *)
Definition has_radius (k : basis) : Prop :=
  match k with ThinPlateSplines | VolumeSplines | Multiquadrics | InverseMultiquadrics | Gaussian => False | _ => True end.
(** x^T A x for the matrix of two vertices at the given distance *)
Definition form (f : R -> R) (distance x y : R) : R := x * x * f 0 + 2 * x * y * f distance + y * y * f 0.
(** the matrix is positive definite *)
Definition definite (f : R -> R) (distance : R) : Prop := forall x y, x <> 0 \/ y <> 0 -> 0 < form f distance x y.

(** Wendland's functions: (1-p)^l, integrated [n] times with weight p from the support radius inwards, so that the
    derivative of each is minus p times a multiple of the one before *)
Fixpoint wendland (n l : nat) (f : R -> R) : Prop :=
  match n with
  | O => exists c, 0 < c /\ forall p, f p = c * (1 - p) ^ l
  | S n' => f 1 = 0 /\ exists g, (forall p, derivable_pt_lim f p (- (p * g p))) /\ wendland n' l g
  end.
(** the number n of each polynomial: C0, C2, C4, C6 and C8 are 2n times differentiable *)
Definition integrations (k : basis) : option nat :=
  match k with
  | CompactPolynomialC0 => Some 0%nat | CompactPolynomialC2 => Some 1%nat | CompactPolynomialC4 => Some 2%nat
  | CompactPolynomialC6 => Some 3%nat | CompactPolynomialC8 => Some 4%nat | _ => None
  end.
