(** What data actions should do (C70). *)
From Coq Require Import ZArith QArith Bool List Arith.
From Verif Require Import M_Time M_Wave M_MapTime S_Wave M_Action.
Import ListNotations.
Open Scope nat_scope.

(** the sum of f 0 .. f (n - 1) *)
Fixpoint total (n : nat) (f : nat -> Q) : Q := match n with O => 0%Q | S k => (total k f + f k)%Q end.
Definition total_list (l : list Q) : Q := fold_right Qplus 0%Q l.

(** the elements that carry area: edges in 2D, triangles in 3D, with their corners and their length or area *)
Definition elements (m : areaMesh) : list (list nat * Q) :=
  if am_dim m =? 2 then map (fun '(a, b, x) => ([a; b], x)) (am_edges m) else map (fun '(a, b, c, x) => ([a; b; c], x)) (am_triangles m).
Definition corners_ok (m : areaMesh) : Prop := forall e, In e (elements m) -> forall i, In i (fst e) -> i < am_n m.
(** every element gives its corners equal shares of its size *)
Definition share (e : list nat * Q) : Q := (snd e / inject_Z (Z.of_nat (length (fst e))))%Q.
Definition times_in (i : nat) (l : list nat) : Q := inject_Z (Z.of_nat (count_occ Nat.eq_dec l i)).
Definition vertex_area (m : areaMesh) (i : nat) : Q := total_list (map (fun e => times_in i (fst e) * share e)%Q (elements m)).
(** the integral over the mesh of the function that is linear on every element *)
Definition integral (m : areaMesh) (f : nat -> Q) : Q :=
  total_list (map (fun e => snd e * (total_list (map f (fst e)) / inject_Z (Z.of_nat (length (fst e)))))%Q (elements m)).
(** component [c] of vertex [i] *)
Definition component (dims c : nat) (v : values) (i : nat) : Q := get v (i * dims + c).

(** [w'] has the times of [w], and the values of every sample are related by R *)
Definition every_sample (R : values -> values -> Prop) (w w' : wave values) : Prop := Forall2 (fun p q => fst q = fst p /\ R (snd p) (snd q)) w w'.
Definition multiplied (dims : nat) (m : areaMesh) (v v' : values) : Prop :=
  length v = am_n m * dims /\ length v' = am_n m * dims /\ forall i c, i < am_n m -> c < dims -> (component dims c v' i == component dims c v i * vertex_area m i)%Q.
Definition divided (dims : nat) (m : areaMesh) (v v' : values) : Prop :=
  length v = am_n m * dims /\ length v' = am_n m * dims /\ forall i c, i < am_n m -> c < dims ->
  ~ (vertex_area m i == 0)%Q /\ (component dims c v' i == component dims c v i / vertex_area m i)%Q.

(** the k-th samples of all sources add up to v *)
Definition adds_up (ws : list (wave values)) (k size : nat) (v : values) : Prop :=
  length v = size /\ (forall w, In w ws -> exists t x, nth_error w k = Some (t, x) /\ length x = size) /\
  forall i, i < size -> (get v i == total_list (map (fun w => match nth_error w k with Some (_, x) => get x i | None => 0 end) ws))%Q.
(** all sources have the same times *)
Definition same_times (eps : Z) (ref w : wave values) : Prop := Forall2 (fun p q => (Z.abs (fst q - fst p) <= eps)%Z) ref w.
(** the times of the sources can be stored in the target: it has them, or they are later than all it has *)
Definition fits (eps : Z) (src tgt : wave values) (new : list Z) : Prop :=
  exists old : list Z, map fst src = old ++ new /\ (forall t, In t old -> In t (map fst tgt)) /\ (forall t u, In t new -> In u (map fst tgt) -> (u + eps < t)%Z).
