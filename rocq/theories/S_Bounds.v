(** Specification vocabulary for bounds of accelerated data (C47). *)
From Coq Require Import QArith Bool List Arith.
From Verif Require Import M_Bounds.
Import ListNotations.
Open Scope nat_scope.

(** the vector of a rank holds, for each data in turn, the values of one time step:
    vertex after vertex, and for each vertex one value per component *)
Definition position (infos : list dataInfo) (sizes : list nat) (k v c : nat) : nat :=
  fold_right plus 0 (firstn k sizes) + v * i_dim (nth k infos (Info 0 [] [])) + c.
Definition value (infos : list dataInfo) (sizes : list nat) (data : vec) (k v c : nat) : Q :=
  nth (position infos sizes k v c) data 0%Q.
(** component [c] of vertex [v] of data [k] exists *)
Definition exists_value (infos : list dataInfo) (sizes : list nat) (k v c : nat) : Prop :=
  k < length infos /\ c < i_dim (nth k infos (Info 0 [] [])) /\ v < nth k sizes 0 / i_dim (nth k infos (Info 0 [] [])).

(** the bounds of component [c] of data [k], see DataConfiguration.cpp 103-160 *)
Definition lower_bound (infos : list dataInfo) (k c : nat) : option Q := nth c (i_lower (nth k infos (Info 0 [] []))) None.
Definition upper_bound (infos : list dataInfo) (k c : nat) : option Q := nth c (i_upper (nth k infos (Info 0 [] []))) None.
Definition admissible (infos : list dataInfo) (k c : nat) (x : Q) : Prop :=
  (forall b, lower_bound infos k c = Some b -> (b <= x)%Q) /\ (forall b, upper_bound infos k c = Some b -> (x <= b)%Q).
(** all values of a vector are within their bounds *)
Definition within_bounds (infos : list dataInfo) (sizes : list nat) (data : vec) : Prop :=
  forall k v c, exists_value infos sizes k v c -> admissible infos k c (value infos sizes data k v c).

(** configured bounds are ordered *)
Definition ordered (infos : list dataInfo) : Prop :=
  forall k c l u, lower_bound infos k c = Some l -> upper_bound infos k c = Some u -> (l <= u)%Q.
(** the sizes of the data of a rank: a multiple of the dimension, and one time step only *)
Definition one_step (infos : list dataInfo) (r : rank) : Prop :=
  length (r_sizes r) = length infos /\
  (forall k, k < length infos -> 0 < i_dim (nth k infos (Info 0 [] [])) /\
     exists n, nth k (r_sizes r) 0 = n * i_dim (nth k infos (Info 0 [] []))) /\
  length (r_values r) = fold_right plus 0 (r_sizes r) /\ length (r_update r) = length (r_values r).

(** the values after the quasi-Newton step *)
Definition accelerated (r : rank) (out : vec) : Prop :=
  length out = length (r_values r) /\ forall i, i < length out -> (nth i out 0 == nth i (r_values r) 0 + nth i (r_update r) 0)%Q.
(** the values after the part [t] of the quasi-Newton step *)
Definition shortened (t : Q) (r : rank) (out : vec) : Prop :=
  length out = length (r_values r) /\ forall i, i < length out -> (nth i out 0 == nth i (r_values r) 0 + t * nth i (r_update r) 0)%Q.

(** [y] is [x] moved to the nearest admissible value *)
Definition moved_into (infos : list dataInfo) (k c : nat) (x y : Q) : Prop :=
  admissible infos k c y /\ (admissible infos k c x -> (y == x)%Q) /\
  forall z, admissible infos k c z -> (qabs (x - y) <= qabs (x - z))%Q.
