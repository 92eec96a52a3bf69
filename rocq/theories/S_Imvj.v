(** What the IQN-IMVJ acceleration should do. *)
From Coq Require Import Bool List Arith.
From Verif Require Import S_Field M_Imvj.
Import ListNotations.

Section S.
Variable F : field.
Notation vec := (nat -> F).
Definition at_ (l : list vec) (j : nat) : vec := nth j l (fun _ => zero).

(** the rows [Z] are a left inverse of the columns [V] *)
Definition left_inverse (n : nat) (Z V : list vec) : Prop :=
  length Z = length V /\
  forall j k, j < length V -> k < length V -> fdot n (at_ Z j) (at_ V k) = if j =? k then one else zero.
(** J + (W - J V) Z, the multi-vector update of an inverse Jacobian [J] *)
Definition multivector (n : nat) (J : vec -> vec) (V W Z : list vec) (y : vec) : vec :=
  fun e => add (J y e) (fsum (length V) (fun j => mul (sub (at_ W j e) (J (at_ V j) e)) (fdot n (at_ Z j) y))).
(** [J] turns the differences [V] of residuals into the differences [W] of values *)
Definition secant (J : vec -> vec) (V W : list vec) : Prop := forall j, j < length V -> forall e, J (at_ V j) e = at_ W j e.

(** [phase evs]: number of iterations of the current window that were accelerated, and whether an
    earlier window had such an iteration *)
Fixpoint phaseFrom (it : nat) (earlier : bool) (evs : list (event F)) : nat * bool :=
  match evs with
  | [] => (it, earlier)
  | Perform _ _ _ :: r => phaseFrom (S it) earlier r
  | Converged _ _ _ :: r => phaseFrom 0 (earlier || (0 <? it)) r
  end.
Definition iterations (evs : list (event F)) : nat := fst (phaseFrom 0 false evs).
Definition experienced (evs : list (event F)) : bool := snd (phaseFrom 0 false evs).

(** the primary data, whose residuals the differences are taken of, are part of all data *)
Definition wf (c : config F) : Prop := rowsOf c <= c_all c.
(** restart modes: the next window does not fill the chunk *)
Definition room (c : config F) (s : imvj F) : Prop := match c_mode c with Chunks _ size => length (s_chunk s) < size | _ => True end.
(** restart modes: the weights that a call uses *)
Definition weighted (w winv : vec) (ev : event F) : Prop :=
  match ev with Perform _ _ _ => True | Converged o _ _ => o_w o = w /\ o_winv o = winv end.
(** a matrix, with the weights removed, times a vector *)
Definition unweighed (n : nat) (w winv : vec) (M : nat -> nat -> F) (y : vec) : vec :=
  fun e => mul (winv e) (fsum n (fun k => mul (mul (M e k) (w k)) (y k))).
End S.
Arguments at_ {_}. Arguments left_inverse {_}. Arguments multivector {_}. Arguments secant {_}. Arguments phaseFrom {_}. Arguments iterations {_}. Arguments experienced {_}. Arguments wf {_}. Arguments room {_}. Arguments weighted {_}. Arguments unweighed {_}.
