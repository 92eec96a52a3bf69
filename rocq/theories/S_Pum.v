(** Specification of partition-of-unity mappings. *)
From Coq Require Import List Arith Bool QArith.
From Verif Require Import M_Rbf S_Rbf M_Pum.
Import ListNotations.
Open Scope Q_scope.

(** a vertex of a mesh with the directions [ax]: the other coordinates are zero *)
Definition flat (ax : axes) (v : vertex) : Prop := forall d, (d < 3)%nat -> ~ In d ax -> coord d v == 0.

(** squared Euclidean distance *)
Definition distance2 (u v : vertex) : Q := (v_x u - v_x v) * (v_x u - v_x v) + (v_y u - v_y v) * (v_y u - v_y v) + (v_z u - v_z v) * (v_z u - v_z v).

(** the cache forgets no load: what is zero for the basis functions is zero for
    the polynomial *)
Definition nothing_lost (cache : vec * vec) : Prop :=
  (forall j, at_ (snd cache) j == 0) -> forall k, at_ (fst cache) k == 0.

(** a partition-of-unity mapping between meshes with the directions [ax]:
    the decompositions of all clusters solve their systems *)
Definition proper_pum (phi : Q -> Q) (ax : axes) (pol : polynomial) (radius margin : Q) (dec : list vertex -> decomposition) (inM outM centers : list vertex) : Prop :=
  (forall x y, x == y -> phi x == phi y) /\ 0 <= margin /\ margin < radius /\ pol <> ON /\
  (forall w, In w inM -> flat ax w) /\ (forall w, In w outM -> flat ax w) /\
  forall c, In c (makeClusters ax pol radius margin dec inM outM centers) -> good_solver phi (c_solver c).
(** the polynomials of all clusters have the directions in which the function changes *)
Definition seen_by_all (cl : list cluster) (a1 a2 a3 : Q) : Prop := forall c, In c cl -> depends_only_on (s_local (c_solver c)) a1 a2 a3.
