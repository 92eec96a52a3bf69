(** What the geometric multiscale mappings are supposed to compute. *)
From Coq Require Import ZArith QArith Qabs Bool List.
Import ListNotations.
Open Scope list_scope.
Open Scope nat_scope.

(** the vertices of a line are given in the order of their coordinates *)
Definition increasing (xs : list Q) : Prop :=
  forall i j, i < j < length xs -> (nth i xs 0 < nth j xs 0)%Q.

(** [k] is the vertex of a line that is closest to [y]; of two equally close ones
    the first one *)
Definition closest (xs : list Q) (y : Q) (k : nat) : Prop :=
  k < length xs /\
  forall j, j < length xs ->
    (Qabs (y - nth k xs 0) <= Qabs (y - nth j xs 0))%Q /\
    (j < k -> (Qabs (y - nth k xs 0) < Qabs (y - nth j xs 0))%Q).

(** the same in space *)
Definition squared (a b : list Q) : Q :=
  fold_right (fun p acc => ((fst p - snd p) * (fst p - snd p) + acc)%Q) 0%Q (combine a b).
Definition closest_point (vs : list (list Q)) (y : list Q) (k : nat) : Prop :=
  k < length vs /\
  forall j, j < length vs ->
    (squared y (nth k vs []) <= squared y (nth j vs []))%Q /\
    (j < k -> (squared y (nth k vs []) < squared y (nth j vs []))%Q).

(** values of [n] vertices with [d] components each; one component of one vertex *)
Definition values_of {A} (d n : nat) (l : list A) : Prop := length l = n * d.
Definition val (d : nat) (l : list Q) (i c : nat) : Q := nth (i * d + c) l 0%Q.
(** results: [None] is NaN *)
Definition res (d : nat) (l : list (option Q)) (i c : nat) : option Q := nth (i * d + c) l None.
Definition is_num (r : option Q) (q : Q) : Prop := match r with Some v => (v == q)%Q | None => False end.

(** the values [f 0], [f 1], ... of the vertices whose owner is [k] *)
Definition share (owners : list nat) (f : nat -> Q) (k : nat) : list Q :=
  map f (filter (fun i => nth i owners (S k) =? k) (seq 0 (length owners))).
Definition sum (l : list Q) : Q := fold_right Qplus 0%Q l.
Definition mean (l : list Q) : Q := (sum l / inject_Z (Z.of_nat (length l)))%Q.

(** the profile of a parabola: [r2] the square of the distance to the centre,
    relative to the radius *)
Definition parabola (factor u r2 : Q) : Q := (factor * u * (1 - r2))%Q.
Definition ratio2 (v0 : list Q) (radius : Q) (y : list Q) : Q := (squared v0 y / (radius * radius))%Q.
(** all vertices are within the threshold of the check *)
Definition within (v0 : list Q) (radius : Q) (outs : list (list Q)) : Prop :=
  forall y, In y outs -> (ratio2 v0 radius y <= (105 # 100) * (105 # 100))%Q.

(** the same for squares: the offsets in the two directions across the axis,
    relative to the radius *)
Definition offset (v0 : list Q) (radius : Q) (axis k : nat) (y : list Q) : Q :=
  ((nth ((axis + k) mod 3) v0 0 - nth ((axis + k) mod 3) y 0) / radius)%Q.
Definition within_square (v0 : list Q) (radius : Q) (axis : nat) (outs : list (list Q)) : Prop :=
  forall y k, In y outs -> (k = 1 \/ k = 2) -> (Qabs (offset v0 radius axis k y) <= 105 # 100)%Q.

(** [R2] is the square of the largest distance among the vertices of [outs] that are
    closest to vertex [k] of [ins] *)
Definition reach (ins outs : list (list Q)) (k : nat) (R2 : Q) : Prop :=
  (forall y, In y outs -> closest_point ins y k -> (squared y (nth k ins []) <= R2)%Q) /\
  (exists y, In y outs /\ closest_point ins y k /\ (squared y (nth k ins []) == R2)%Q).

(** [n] vertices in the middles of [n] equal parts of a line of length two radii
    around [v0], in direction of the second coordinate *)
Definition equidistant (v0 : list Q) (radius : Q) (n : nat) : list (list Q) :=
  map (fun i => [nth 0 v0 0; nth 1 v0 0 + radius * ((2 * inject_Z (Z.of_nat i) + 1) / inject_Z (Z.of_nat n) - 1); nth 2 v0 0]%Q) (seq 0 n).

(** a mesh that is moved *)
Definition moved (t : list Q) (vs : list (list Q)) : list (list Q) :=
  map (fun v => map (fun p => (fst p + snd p)%Q) (combine v t)) vs.

(** the mesh extends at least as far in direction [l] as in any other *)
Definition widest (vs : list (list Q)) (l : nat) : Prop :=
  l < 3 /\ forall c v w, c < 3 -> In v vs -> In w vs ->
    exists v' w', In v' vs /\ In w' vs /\ (nth c v 0 - nth c w 0 <= nth l v' 0 - nth l w' 0)%Q.

(** the not negative part of [1 - r2], and the same kept away from zero *)
Definition atLeast (low q : Q) : Q := if Qle_bool q low then low else q.
