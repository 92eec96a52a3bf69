(** Specification vocabulary for data between the ranks of two participants. *)
From Coq Require Import ZArith QArith List Arith Sorted.
From Verif Require Import M_Net M_M2N S_Intra S_Term.
Import ListNotations.
Open Scope nat_scope.

(** the global indices of the vertices of rank [r] *)
Definition verts (vd : distribution) (r : nat) : list nat := match vfind r vd with Some l => l | None => [] end.

(** [vd] is a vertex distribution of a mesh with [N] vertices over [n] ranks *)
Record distributes (vd : distribution) (n N : nat) : Prop := {
  ds_order : StronglySorted lt (map fst vd);
  ds_ranks : forall r, In r (map fst vd) -> r < n;
  ds_first : In 0 (map fst vd);
  ds_vertices : forall r v, In v (verts vd r) -> v < N
}.
(** the global indices of every rank are increasing *)
Definition increasing (vd : distribution) : Prop := forall r, StronglySorted lt (verts vd r).

(** every rank holds [dim] values for each of its vertices *)
Definition sized (vd : distribution) (n dim : nat) (items : nat -> list Q) : Prop :=
  forall r, r < n -> length (items r) = dim * length (verts vd r).

(** component [d] of the sum of everything the [n] sending ranks hold for the
    vertex with global index [v]: position [j] of [verts vd r] is this vertex *)
Definition sent_for (n : nat) (vd : distribution) (items : nat -> list Q) (dim v d : nat) : Q :=
  sumQ (fun r => sumQ (fun j => if nth j (verts vd r) 0 =? v then nth (dim * j + d) (items r) 0%Q else 0%Q)
                      (length (verts vd r))) n.

(** [res] holds for each vertex of rank [r] of the receiving participant the sum of
    what was sent for it *)
Definition receives_sums (n : nat) (vdS vdR : distribution) (items : nat -> list Q) (dim r : nat) (res : list Q) : Prop :=
  length res = dim * length (verts vdR r) /\
  forall i d, i < length (verts vdR r) -> d < dim ->
    (nth (dim * i + d) res 0 == sent_for n vdS items dim (nth i (verts vdR r) 0%nat) d)%Q.

(** two participants: the first has [n] ranks running [p], the second has [m]
    ranks running [q]; the ranks of the second return [res] *)
Definition two_end {M A B} (n m : nat) (p : nat -> proc M A) (q : nat -> proc M B) (res : nat -> B) : Prop :=
  all_end (n + m) (fun k => if k <? n then quiet (p k) else report (q (k - n)))
                  (fun k => if k <? n then None else Some (res (k - n))).
(** ... the ranks of the first return [res] *)
Definition two_end' {M A B} (n m : nat) (p : nat -> proc M A) (q : nat -> proc M B) (res : nat -> A) : Prop :=
  all_end (n + m) (fun k => if k <? n then report (p k) else quiet (q (k - n)))
                  (fun k => if k <? n then Some (res k) else None).

(** rank [s] of one participant and rank [r] of the other have a common vertex *)
Definition meet (vd : distribution) (s : nat) (vd' : distribution) (r : nat) : Prop :=
  exists v, In v (verts vd s) /\ In v (verts vd' r).
