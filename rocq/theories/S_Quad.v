(** Specification vocabulary for quads. *)
From Coq Require Import ZArith QArith List Arith.
From Verif Require Import M_Mesh.
Import ListNotations.
Open Scope nat_scope.

(** points of the plane or of space; componentwise equality *)
Definition point (p : list Q) : Prop := length p = 2 \/ length p = 3.
Definition same_point (p q : list Q) : Prop := Forall2 Qeq p q.
(** the point at [t] on the line from [p] to [q] *)
Definition along (t : Q) (p q : list Q) : list Q :=
  map (fun x => (fst x + t * (snd x - fst x))%Q) (combine p q).
(** on one line *)
Definition collinear (p q r : list Q) : Prop := same_point p q \/ exists t, same_point r (along t p q).
(** [s] is in the plane of [p], [q] and [r] *)
Definition coplanar (p q r s : list Q) : Prop :=
  exists u v, Forall2 Qeq s (map (fun x => (fst x + u * (fst (snd x) - fst x) + v * (snd (snd x) - fst x))%Q)
                                 (combine p (combine q r))).
(** the diagonals of the quad p-q-r-s have a common point: going around it in
    this order follows the convex hull *)
Definition diagonals_meet (p q r s : list Q) : Prop :=
  exists t u, (0 <= t <= 1)%Q /\ (0 <= u <= 1)%Q /\ same_point (along t p r) (along u q s).
(** they cross inside, in a proper quad *)
Definition diagonals_cross (p q r s : list Q) : Prop :=
  ~ collinear p q r /\ exists t u, (0 < t < 1)%Q /\ (0 < u < 1)%Q /\ same_point (along t p r) (along u q s).
