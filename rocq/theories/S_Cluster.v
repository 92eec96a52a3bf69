(** What is said about clusterings. *)
From Coq Require Import ZArith QArith Bool List Arith.
From Verif Require Import M_Quad S_Mesh S_Map M_Cluster.
Import ListNotations.
Open Scope nat_scope.

Definition points (dim : nat) (m : list point) : Prop := (dim = 2 \/ dim = 3) /\ forall p, In p m -> length p = dim.
(** x is in the bounding box of the vertices: along each axis it is between two of them *)
Definition inBox (dim : nat) (m : list point) (x : point) : Prop :=
  length x = dim /\ forall d, d < dim -> exists p q, In p m /\ In q m /\ (nth d p 0 <= nth d x 0 <= nth d q 0)%Q.
(** x is in the cluster with this center *)
Definition inCluster (dim : nat) (r2 : Q) (c x : point) : Prop := (sqdist dim c x < r2)%Q.
(** what is assumed of the search for nearest vertices: numbers of vertices, as many
    different ones as asked for *)
Definition searchesOk (closestVertex : list point -> point -> nat) (closestVertices : list point -> point -> nat -> list nat) : Prop :=
  (forall m p, m <> [] -> closestVertex m p < length m) /\
  (forall m p k, m <> [] -> NoDup (closestVertices m p k) /\ length (closestVertices m p k) = Nat.min k (length m) /\
                 forall i, In i (closestVertices m p k) -> i < length m).
(** how many vertices are at the same place as vertex i *)
Definition sharing (dim : nat) (m : list point) (i : nat) : nat :=
  length (filter (fun j => Qeq_bool (sqdist dim (nth i m []) (nth j m [])) 0) (seq 0 (length m))).
