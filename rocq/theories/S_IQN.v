(** What the IQN-ILS acceleration should do. *)
From Coq Require Import Bool List Arith.
From Verif Require Import S_Field M_QR S_QR M_IQN.
Import ListNotations.

Section S.
Variable F : field.
Notation vec := (nat -> F).
Variable c : config F.
Notation n := (rowsOf c).

(** * The columns *)
(** the differences between two consecutive iterations of the same window: of the residuals of the
    primary data, and of all new values.  [prev] are the old and new values of the iteration before,
    if it belongs to the same window. *)
Fixpoint differences (prev : option (vec * vec)) (evs : list (event F)) : list (vec * vec) :=
  match evs with
  | [] => []
  | ev :: rest =>
      let '(x, xt) := match ev with Perform x xt | Converged x xt => (x, xt) end in
      let now := match prev with
                 | None => []
                 | Some (x0, xt0) => [(fun e => sub (residual c x xt e) (residual c x0 xt0 e), fun e => sub (xt e) (xt0 e))]
                 end in
      now ++ differences (match ev with Perform _ _ => Some (x, xt) | Converged _ _ => None end) rest
  end.

(** * The step *)
(** the square of the weighted norm *)
Definition weighted (w v : vec) : F := fdot n (fun e => mul (w e) (v e)) (fun e => mul (w e) (v e)).
(** [x'] is [xt] plus the combination of the vectors [W] with the coefficients that minimize the
    weighted norm of [r] plus the combination of the vectors [V]: every other combination has a
    norm larger by the one of the difference.  The vectors [V] are independent, so the
    coefficients are unique. *)
Definition least_squares_step (w : vec) (V W : list vec) (r xt x' : vec) : Prop :=
  exists y : vec,
    (forall e, x' e = add (xt e) (combination W y e)) /\
    (forall j, j < length V -> fdot n (fun e => mul (w e) (nth j V (fun _ => zero) e)) (fun e => mul (w e) (add (r e) (combination V y e))) = zero) /\
    (forall z : vec, weighted w (fun e => add (r e) (combination V z e)) =
       add (weighted w (fun e => add (r e) (combination V y e))) (weighted w (combination V (fun j => sub (z j) (y j))))) /\
    (forall z : vec, (forall e, e < n -> combination V z e = zero) -> forall j, j < length V -> z j = zero).

(** * Linear problems *)
(** the solvers compute A (primary data) + b *)
Definition affine (A : nat -> nat -> F) (b x : vec) : vec := fun e => add (fsum n (fun k => mul (A e k) (primary c x k))) (b e).
(** every iteration of window [w + i] computes its new values with the map of that window *)
Fixpoint solves (A : nat -> nat -> F) (b : nat -> vec) (w : nat) (evs : list (event F)) : Prop :=
  match evs with
  | [] => True
  | Perform x xt :: r => (forall e, xt e = affine A (b w) x e) /\ solves A b w r
  | Converged x xt :: r => (forall e, xt e = affine A (b w) x e) /\ solves A b (S w) r
  end.
Definition fixed_point (A : nat -> nat -> F) (b x : vec) : Prop := forall e, affine A b x e = x e.
(** the window after a list of calls *)
Definition windows (evs : list (event F)) : nat := length (filter (fun ev => match ev with Converged _ _ => true | _ => false end) evs).

(** [B] is the part of A between primary data; I - B vanishes in no direction, seen with the weights
    1 / f (as when B is a contraction in the weighted norm) *)
Definition definite (A : nat -> nat -> F) (f : vec) : Prop :=
  let w e := div one (f (partOf (c_parts c) e)) in
  let B (u : vec) : vec := fun e => fsum n (fun k => mul (A (nth e (c_ids c) 0) k) (u k)) in
  forall u : vec, fdot n (fun e => mul (w e) (u e)) (fun e => mul (w e) (sub (B u e) (u e))) = zero -> forall e, e < n -> u e = zero.

(** * Windows *)
(** the next iteration is the first one of a window *)
Definition new_window (evs : list (event F)) : Prop := match rev evs with Perform _ _ :: _ => False | _ => True end.

(** * Tests and weights *)
Definition small_ok (small : F -> bool) : Prop := forall x, small x = false -> x <> zero.
Definition factors_ok : Prop := match c_precond c with Constant f => forall k, f k <> zero | _ => True end.
End S.
Arguments differences {_}. Arguments weighted {_}. Arguments least_squares_step {_}. Arguments affine {_}. Arguments solves {_}. Arguments fixed_point {_}. Arguments windows {_}.
Arguments definite {_}. Arguments new_window {_}. Arguments small_ok {_}. Arguments factors_ok {_}.
