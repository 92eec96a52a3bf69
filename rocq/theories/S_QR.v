(** What a QR factorization is. *)
From Coq Require Import List Arith.
From Verif Require Import S_Field M_QR.
Import ListNotations.

Section S.
Variable F : field.
Notation vec := (nat -> F).

(** the first [c] columns of [Q] are orthonormal vectors with [n] entries *)
Definition orthonormal (n c : nat) (Q : nat -> nat -> F) : Prop :=
  forall i j, i < c -> j < c -> fdot n (fun e => Q e i) (fun e => Q e j) = if i =? j then one else zero.
(** [R] is upper triangular and has no zero on the diagonal *)
Definition triangular (c : nat) (R : nat -> nat -> F) : Prop :=
  (forall i j, i < c -> j < i -> R i j = zero) /\ (forall i, i < c -> R i i <> zero).
(** Q R is the matrix with the columns V *)
Definition product_is (n c : nat) (Q R : nat -> nat -> F) (V : list vec) : Prop :=
  forall e j, e < n -> j < c -> fsum c (fun i => mul (Q e i) (R i j)) = nth j V (fun _ => zero) e.
(** [s] is a QR factorization of the matrix with the columns [V], which have [n] entries *)
Definition factorizes (n : nat) (V : list vec) (s : qr F) : Prop :=
  rows s = n /\ cols s = length V /\ orthonormal n (cols s) (Qm s) /\ triangular (cols s) (Rm s) /\ product_is n (cols s) (Qm s) (Rm s) V.

Definition insert_at {A} (k : nat) (x : A) (l : list A) : list A := firstn k l ++ x :: skipn k l.
Definition delete_at {A} (k : nat) (l : list A) : list A := firstn k l ++ skipn (S k) l.
(** the elements whose number is not in the list *)
Definition without {A} (del : list nat) (l : list A) : list A :=
  map snd (filter (fun p => negb (existsb (Nat.eqb (fst p)) del)) (combine (seq 0 (length l)) l)).

(** the combination of vectors with coefficients *)
Definition combination (V : list vec) (c : vec) : vec := fun e => fsum (length V) (fun j => mul (nth j V (fun _ => zero) e) (c j)).
(** [v] is a linear combination of the vectors [V], as far as the first [n] entries go *)
Definition in_span (n : nat) (V : list vec) (v : vec) : Prop := exists c, forall e, e < n -> v e = combination V c e.

(** square roots: what computeReflector and l2norm get from std::sqrt *)
Definition roots_ok (hyp : F -> F -> F) (norm : nat -> vec -> F) : Prop :=
  @add F one one <> zero /\
  (forall x y, y <> zero -> mul (hyp x y) (hyp x y) = add (mul x x) (mul y y) /\ hyp x y <> zero /\ add (hyp x y) x <> zero) /\
  (forall n v, mul (norm n v) (norm n v) = fdot n v v /\ (norm n v = zero -> forall e, e < n -> v e = zero)).
(** a norm that counts as tiny may or may not be zero, but zero does *)
Definition tiny_ok (tiny : F -> bool) : Prop := tiny zero = true.
(** exact arithmetic: only zero is tiny, vectors with the same entries have the same norm, and the
    Gram-Schmidt iteration is not repeated when it changed nothing (theta > 1) *)
Definition exact (norm : nat -> vec -> F) (tiny : F -> bool) (again : F -> F -> vec -> bool) : Prop :=
  (forall x, tiny x = true <-> x = zero) /\
  (forall n v w, (forall e, e < n -> v e = w e) -> norm n v = norm n w) /\
  (forall n v s, norm n v <> zero -> (forall j, s j = zero) -> again (norm n v) (norm n v) s = false).

(** the calls of the accelerations: the second component are the columns the factorization should
    have after the call, according to what the call returned *)
Inductive call := Insert (k : nat) (v : vec) (drop : F -> F -> bool) | Delete (k : nat) | FilterQR1 | Rebuild (V : list vec) (drop : F -> F -> bool).
Section Calls.
Variables (hyp : F -> F -> F) (norm : nat -> vec -> F) (tiny : F -> bool) (again : F -> F -> vec -> bool) (singular : (nat -> nat -> F) -> nat -> nat -> bool).
Definition perform (a : call) (s : qr F) (V : list vec) : option (qr F * list vec) :=
  match a with
  | Insert k v drop => match insertColumn hyp norm tiny again k v drop s with None => None | Some (true, s') => Some (s', insert_at k v V) | Some (false, s') => Some (s', V) end
  | Delete k => match deleteColumn hyp k s with None => None | Some s' => Some (s', delete_at k V) end
  | FilterQR1 => match applyQR1 hyp singular s with None => None | Some (s', del) => Some (s', without del V) end
  | Rebuild V' drop => match reset hyp norm tiny again (rows s) drop V' with None => None | Some (s', del) => Some (s', without del V') end
  end.
Fixpoint history (calls : list call) (s : qr F) (V : list vec) : option (qr F * list vec) :=
  match calls with
  | [] => Some (s, V)
  | a :: r => match perform a s V with None => None | Some (s', V') => history r s' V' end
  end.
(** the positions of the calls exist *)
Definition position_ok (a : call) (c : nat) : Prop := match a with Insert k _ _ => k <= c | Delete k => k < c | _ => True end.
Fixpoint positions_ok (calls : list call) (s : qr F) (V : list vec) : Prop :=
  match calls with
  | [] => True
  | a :: r => position_ok a (length V) /\ (forall s' V', perform a s V = Some (s', V') -> positions_ok r s' V')
  end.
End Calls.
End S.
Arguments orthonormal {_}. Arguments triangular {_}. Arguments product_is {_}. Arguments factorizes {_}. Arguments combination {_}. Arguments in_span {_}.
Arguments roots_ok {_}. Arguments tiny_ok {_}. Arguments exact {_}. Arguments Insert {_}. Arguments Delete {_}. Arguments FilterQR1 {_}. Arguments Rebuild {_}. Arguments perform {_}. Arguments history {_}. Arguments position_ok {_}. Arguments positions_ok {_}.
