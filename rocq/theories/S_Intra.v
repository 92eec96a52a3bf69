(** Specification vocabulary for collective operations. *)
From Coq Require Import ZArith QArith List.
Import ListNotations.
Open Scope nat_scope.
(** the sum of the contributions of the ranks 0 .. n-1 *)
Fixpoint sumQ (f : nat -> Q) (n : nat) : Q := match n with O => 0%Q | S m => (sumQ f m + f m)%Q end.
Fixpoint sumZ (f : nat -> Z) (n : nat) : Z := match n with O => 0%Z | S m => (sumZ f m + f m)%Z end.
(** [res] is the entry-wise sum of the vectors [l 0] ... [l (n-1)] of length [k] *)
Definition vector_sum (n k : nat) (l : nat -> list Q) (res : list Q) : Prop :=
  length res = k /\ forall i, i < k -> (nth i res 0 == sumQ (fun r => nth i (l r) 0) n)%Q.
