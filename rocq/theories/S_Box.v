(** Specification vocabulary for bounding boxes. *)
From Coq Require Import ZArith QArith List Arith.
From Verif Require Import M_Box.
Import ListNotations.

(** the point [p] is in the box: between the corners in every direction *)
Definition inside (p : list Q) (b : box) : Prop :=
  Forall2 Qle (b_min b) p /\ Forall2 Qle p (b_max b).
(** a box of dimension [d] whose corners are in the right order *)
Definition legal (d : nat) (b : box) : Prop :=
  length (b_min b) = d /\ length (b_max b) = d /\ Forall2 Qle (b_min b) (b_max b).
(** every coordinate of the point is a finite double *)
Definition finite (big : Q) (p : list Q) : Prop := Forall (fun x => (- big <= x)%Q /\ (x <= big)%Q) p.
