(** What an updated truncated singular value decomposition is supposed to be. *)
From Coq Require Import List Arith.
From Verif Require Import S_Field S_QR M_SVD.
Import ListNotations.

Section S.
Variable F : field.
Notation vec := (nat -> F).
Notation mat := (nat -> nat -> F).

(** psi * diag(sigma) * phi^T with [k] columns *)
Definition triple (k : nat) (psi : mat) (sigma : vec) (phi : mat) : mat := fun e f => fsum k (fun i => mul (mul (psi e i) (sigma i)) (phi f i)).
(** A * B^T with [m] columns *)
Definition outer (m : nat) (A B : mat) : mat := fun e f => fsum m (fun l => mul (A e l) (B f l)).
(** the matrix the accessors describe: matrixPsi() * diag(singularValues()) * matrixPhi()^T *)
Definition matrixOf (s : svd F) : mat := triple (s_cols s) (s_psi s) (s_sigma s) (s_phi s).
(** the sum of the squares of the entries *)
Definition squares (nA nB : nat) (M : mat) : F := fsum nA (fun e => fsum nB (fun f => mul (M e f) (M e f))).

(** a singular value decomposition of a matrix with [n] rows and [m] columns, with [r] values *)
Definition decomposes (n m r : nat) (M : mat) (U : mat) (sigma : vec) (V : mat) : Prop :=
  orthonormal n r U /\ orthonormal m r V /\ (forall e f, e < n -> f < m -> triple r U sigma V e f = M e f).
(** what Eigen promises about JacobiSVD: a decomposition, with the values in decreasing order *)
Definition svd_ok (jacobiSVD : nat -> nat -> mat -> option (mat * vec * mat)) (below : F -> F -> bool) : Prop :=
  forall n m M U sigma V, jacobiSVD n m M = Some (U, sigma, V) ->
    decomposes n m (Nat.min n m) M U sigma V /\
    (forall i j x, i <= j -> j < Nat.min n m -> below (sigma i) x = true -> below (sigma j) x = true).
(** exact arithmetic: l2norm is the square root of the scalar product, only zero is tiny, and the
    Gram-Schmidt iteration is not repeated when it changed nothing (theta > 1) *)
Definition arithmetic_ok (norm : nat -> vec -> option F) (tiny : F -> bool) (again : F -> F -> vec -> bool) : Prop :=
  (forall n v x, norm n v = Some x -> mul x x = fdot n v v /\ (x = zero -> forall e, e < n -> v e = zero)) /\
  (forall n v w, (forall e, e < n -> v e = w e) -> norm n v = norm n w) /\
  (forall x, tiny x = true <-> x = zero) /\
  (forall n v x s, norm n v = Some x -> x <> zero -> (forall j, s j = zero) -> again x x s = false).

(** the sum of the products of all pairs *)
Fixpoint total (l : list (nat * nat * mat * mat)) : mat := fun e f =>
  match l with
  | [] => zero
  | (mA, _, A, B) :: l' => add (outer mA A B e f) (total l' e f)
  end.
(** calls of update and of getWaste; the answers of the latter *)
Inductive call := Update (p : nat * nat * mat * mat) | Ask.
Fixpoint pairs (l : list call) : list (nat * nat * mat * mat) := match l with [] => [] | Update p :: r => p :: pairs r | Ask :: r => pairs r end.
Section Calls.
Variables (norm : nat -> vec -> option F) (tiny : F -> bool) (again : F -> F -> vec -> bool) (drop : F -> F -> bool)
  (jacobiSVD : nat -> nat -> mat -> option (mat * vec * mat)) (below : F -> F -> bool) (nA nB : nat).
Fixpoint perform (l : list call) (s : svd F) : option (svd F * list nat) :=
  match l with
  | [] => Some (s, [])
  | Update (mA, mB, A, B) :: r => match update norm tiny again drop jacobiSVD below nA nB mA mB A B s with None => None | Some s' => perform r s' end
  | Ask :: r => match perform r (snd (getWaste s)) with None => None | Some (s', l) => Some (s', fst (getWaste s) :: l) end
  end.
End Calls.
(** no pair has more columns than rows *)
Definition tall (nA nB : nat) (p : nat * nat * mat * mat) : Prop := let '(mA, mB, _, _) := p in mA <= nA /\ mB <= nB.
End S.
Arguments triple {_}. Arguments outer {_}. Arguments matrixOf {_}. Arguments squares {_}. Arguments decomposes {_}. Arguments svd_ok {_}. Arguments arithmetic_ok {_}. Arguments total {_}. Arguments Update {_}. Arguments Ask {_}. Arguments pairs {_}. Arguments perform {_}. Arguments tall {_}.
