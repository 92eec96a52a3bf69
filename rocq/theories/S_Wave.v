(** Specification vocabulary for stored samples (C25-C29, C56). *)
From Coq Require Import ZArith QArith List.
From Verif Require Import M_Time M_Wave M_WaveCache.
Import ListNotations.
Open Scope nat_scope.

(** time stamps strictly increase and are more than [eps] apart *)
Definition ordered {X} (eps : Z) (w : wave X) : Prop :=
  forall i j p q, i < j -> nth_error w i = Some p -> nth_error w j = Some q -> (fst p + eps < fst q)%Z.

(** equal vectors of rationals *)
Definition veq (a b : list Q) : Prop := Forall2 Qeq a b.

(** the value at [t] on the line through (t0, x0) and (t1, x1) *)
Definition line (t0 t1 t : Z) (x0 x1 : Q) : Q :=
  (x0 + (x1 - x0) * (inject_Z (t - t0) / inject_Z (t1 - t0)))%Q.
Fixpoint vline (t0 t1 t : Z) (x0 x1 : list Q) : list Q :=
  match x0, x1 with
  | a :: r, b :: s => line t0 t1 t a b :: vline t0 t1 t r s
  | _, _ => []
  end.

(** [c] solves the linear system with rows [A] and right-hand side [b] *)
Definition solves (A : list row) (c b : list Q) : Prop :=
  length c = length b /\ Forall2 (fun r y => rowDot r c == y)%Q A b.
(** the linear solver finds a solution of a system with these rows if there is one *)
Definition solver (qr : list row -> list Q -> list Q) (A : list row) : Prop :=
  forall b, (exists c, solves A c b) -> solves A (qr A b) b.
(** a system with these rows has at most one solution *)
Definition unique (A : list row) : Prop := forall b c c', solves A c b -> solves A c' b -> veq c c'.
(** the interpolation system of a waveform with degree [d] (Bspline.cpp 38-54) *)
Definition system {G} (w : wave (sample (G:=G))) (d : nat) : list row :=
  let ts := map fst w in
  let rs := map (relTime (hd 0%Z ts) (last ts 0%Z)) ts in
  collocation rs d (knotAveraging rs d).

(** operations that change samples without touching the cached spline *)
Definition in_place {G} (o : op (G:=G)) : Prop :=
  match o with OSetAll _ | OInPlace _ => True | _ => False end.
