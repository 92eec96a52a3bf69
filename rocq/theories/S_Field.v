(** Numbers for exact linear algebra: any field with decidable equality, such as the
    rational or the real numbers. *)
From Coq Require Import Field_theory List Arith.
Import ListNotations.

Record field := Field {
  K :> Type;
  zero : K; one : K;
  add : K -> K -> K; mul : K -> K -> K; sub : K -> K -> K; opp : K -> K;
  div : K -> K -> K; inv : K -> K;
  is_zero : K -> bool;
  K_theory : field_theory zero one add mul sub opp div inv (@eq K);
  is_zero_ok : forall x, is_zero x = true <-> x = zero }.
Arguments zero {_}. Arguments one {_}. Arguments add {_}. Arguments mul {_}. Arguments sub {_}. Arguments opp {_}.
Arguments div {_}. Arguments inv {_}. Arguments is_zero {_}.

(** f 0 + ... + f (n - 1) *)
Fixpoint fsum {F : field} (n : nat) (f : nat -> F) : F := match n with O => zero | S k => add (fsum k f) (f k) end.
(** scalar product of vectors with [n] entries *)
Definition fdot {F : field} (n : nat) (u v : nat -> F) : F := fsum n (fun e => mul (u e) (v e)).
