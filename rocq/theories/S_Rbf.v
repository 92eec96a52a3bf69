(** Specification of radial-basis-function mappings. *)
From Coq Require Import List Arith Bool QArith Permutation.
From Verif Require Import M_Rbf.
Import ListNotations.
Open Scope Q_scope.

Definition veq (a b : vec) : Prop := Forall2 Qeq a b.

(** what the decompositions provide.  The interpolation matrix was found to be
    invertible (RadialBasisFctSolver.hpp 353-370): every system has a solution *)
Definition solves_systems (m : matrix) (solve : vec -> vec) : Prop :=
  forall b, length b = m_rows m -> length (solve b) = m_cols m /\ veq (mul m (solve b)) b.
(** a least-squares solution satisfies the normal equations *)
Definition least_squares (m : matrix) (lsq : vec -> vec) : Prop :=
  forall b, length b = m_rows m -> length (lsq b) = m_cols m /\ veq (mul (transpose m) (mul m (lsq b))) (mul (transpose m) b).
(** the solution of smallest norm of an underdetermined system is a combination of the columns *)
Definition smallest_solution (m : matrix) (tsolve : vec -> vec) : Prop :=
  forall e, length e = m_cols m -> length (tsolve e) = m_rows m /\ veq (mul (transpose m) (tsolve e)) e /\
    exists z, length z = m_cols m /\ veq (tsolve e) (mul m z).

Section S.
Variable phi : Q -> Q.
Definition good_solver (s : solver) : Prop :=
  solves_systems (s_C phi s) (s_solveC s) /\
  (s_poly s = SEPARATE -> least_squares (s_Q s) (s_lsq s) /\ smallest_solution (s_Q s) (s_tsolve s)) /\
  (forall d, In d (s_local s) -> In d (s_axes s)) /\ NoDup (s_axes s) /\ NoDup (s_local s) /\ (forall d, In d (s_axes s) -> (d < 3)%nat).

(** equal positions in the given directions *)
Definition same_place (ax : axes) (u v : vertex) : Prop := forall d, In d ax -> coord d u == coord d v.

(** the directions of the polynomial *)
Definition poly_axes (s : solver) : axes := match s_poly s with SEPARATE => s_local s | _ => s_axes s end.

(** a linear function in space, a0 + a1 x + a2 y + a3 z *)
Definition linear (a0 a1 a2 a3 : Q) (v : vertex) : Q := a0 + a1 * v_x v + a2 * v_y v + a3 * v_z v.
(** which does not depend on the directions that are not in [ax] *)
Definition depends_only_on (ax : axes) (a1 a2 a3 : Q) : Prop :=
  (In 0%nat ax \/ a1 == 0) /\ (In 1%nat ax \/ a2 == 0) /\ (In 2%nat ax \/ a3 == 0).

Fixpoint total (l : vec) : Q := match l with [] => 0 | x :: r => x + total r end.
Definition dot (a b : vec) : Q := total (zipWith Qmult a b).
End S.

(** ** several ranks *)
(** the owned vertices of all ranks with values *)
Definition owned_pairs (vs : list (vertex * bool)) (x : vec) : list (vertex * Q) :=
  map (fun p => (fst (fst p), snd p)) (filter (fun p => snd (fst p)) (combine vs x)).
Definition all_owned (rs : list rankData) (xs : list vec) : list (vertex * Q) :=
  concat (map (fun p => owned_pairs (r_in (fst p)) (snd p)) (combine rs xs)).
(** the sum of the values, each with a weight given by its vertex *)
Fixpoint weighted (w : vertex -> Q) (l : list (vertex * Q)) : Q :=
  match l with [] => 0 | p :: r => w (fst p) * snd p + weighted w r end.
