(** Specification vocabulary for partitioning data. *)
From Coq Require Import ZArith QArith List Arith.
From Verif Require Import M_Net M_Wave M_Comm M_Serial.
Import ListNotations.
Open Scope nat_scope.

(** the entries of a [std::map] are sorted by key and have different keys *)
Fixpoint sorted_keys {A} (m : list (Z * A)) : Prop :=
  match m with
  | [] => True
  | (k, _) :: r => (forall k' b, In (k', b) r -> (k < k')%Z) /\ sorted_keys r
  end.
(** which vertices to send to which rank: ranks are not negative, no vertex twice *)
Record wf_conn (cm : connMap) : Prop := {
  wc_sorted : sorted_keys cm;
  wc_rank : forall r l, In (r, l) cm -> (0 <= r)%Z;
  wc_ids : forall r l, In (r, l) cm -> NoDup l
}.
(** a box in two or three dimensions *)
Definition wf_box (d : nat) (b : bbox) : Prop := (d = 2 \/ d = 3) /\ length (b_min b) = d /\ length (b_max b) = d.
Record wf_boxes (d : nat) (bm : boxMap) : Prop := {
  wb_sorted : sorted_keys bm;
  wb_rank : forall r b, In (r, b) bm -> (0 <= r)%Z;
  wb_box : forall r b, In (r, b) bm -> wf_box d b
}.
(** a range is a list of integers or a list of floating point numbers *)
Definition range := (list Z + list Q)%type.
(** send the ranges one after the other; receive as many of the same kinds *)
Fixpoint sendRanges (d : nat) (l : list range) : proc packet unit :=
  match l with
  | [] => PRet tt
  | inl x :: r => bind (sendRangeInt d x) (fun _ => sendRanges d r)
  | inr x :: r => bind (sendRangeDbl d x) (fun _ => sendRanges d r)
  end.
Fixpoint receiveRanges (s : nat) (kinds : list bool) : proc packet (list range) :=
  match kinds with
  | [] => PRet []
  | true :: r => bind (receiveRangeInt s) (fun x => bind (receiveRanges s r) (fun y => PRet (inl x :: y)))
  | false :: r => bind (receiveRangeDbl s) (fun x => bind (receiveRanges s r) (fun y => PRet (inr x :: y)))
  end.
Definition isInts (r : range) : bool := match r with inl _ => true | inr _ => false end.

(** every sample has the size of the data, and gradients exactly if the data has *)
Definition fits {V} (d : dataShape) (w : wave (gsample (V:=V))) : Prop :=
  forall p, In p w -> length (sm_values (snd p)) = ds_size d /\
    match ds_grads d with Some g => length (sm_grads (snd p)) = g | None => sm_grads (snd p) = [] end.

