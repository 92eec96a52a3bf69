(** What the products of distributed matrices should be. *)
From Coq Require Import List Arith.
From Verif Require Import S_Field M_Cycle.
Import ListNotations.

Section S.
Variable F : field.
(** [offsets] are the running sums of [n], for [N] ranks *)
Definition running (N : nat) (n : nat -> nat) (offsets : list nat) : Prop :=
  length offsets = N + 1 /\ nth 0 offsets 0 = 0 /\ forall k, k < N -> nth (k + 1) offsets 0 = nth k offsets 0 + n k.
(** at least two ranks, the left matrix has [q] columns and is distributed as the offsets say, the
    result has as many rows as the left matrix altogether *)
Definition distributed (a : input F) : Prop :=
  2 <= i_N a /\ running (i_N a) (fun r => length (i_left a r)) (i_offsets a) /\
  nth (i_N a) (i_offsets a) 0 = i_p a /\ forall r, r < i_N a -> Forall (fun x => length x = i_q a) (i_left a r).
(** all rows of the left matrix *)
Definition whole (a : input F) : list (list F) := flat_map (i_left a) (seq 0 (i_N a)).
(** entry [j] of a row of the product with the matrix with rows [right] *)
Definition entry (q : nat) (x : list F) (right : list (list F)) (j : nat) : F := fsum q (fun k => mul (nth k x zero) (nth j (nth k right []) zero)).

(** [A] is the matrix whose columns are distributed: column [offset of k + e] is column [e] of rank k *)
Definition gathers (a : columns F) (A B : nat -> nat -> F) : Prop :=
  forall k e, k < c_N a -> e < c_n a k ->
    (forall i, A i (list_sum (map (c_n a) (seq 0 k)) + e) = c_left a k i e) /\
    (forall j, B (list_sum (map (c_n a) (seq 0 k)) + e) j = c_right a k e j).
(** entry of the product of whole matrices *)
Definition entryOf (a : columns F) (A B : nat -> nat -> F) (i j : nat) : F := fsum (list_sum (map (c_n a) (seq 0 (c_N a)))) (fun e => mul (A i e) (B e j)).
End S.
Arguments distributed {_}. Arguments whole {_}. Arguments entry {_}. Arguments gathers {_}. Arguments entryOf {_}.
