(** Numbers in use (C90). *)
From Coq Require Import String List Arith ZArith.
From Verif Require Import M_Ids.
Import ListNotations.

(** before the answer number j, the number z has been given or inserted and there was no reset since *)
Definition in_use (l : list answer) (j : nat) (z : Z) : Prop :=
  exists i, i < j /\ (nth_error l i = Some (Number z) \/ nth_error l i = Some (Inserted z true)) /\ forall k, i < k < j -> nth_error l k <> Some Done.
(** 0, 1, ..., n-1 *)
Definition first_numbers (n : nat) : list Z := map Z.of_nat (seq 0 n).
