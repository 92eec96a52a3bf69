(** Specification vocabulary for preprocessing and filtering meshes. *)
From Coq Require Import ZArith QArith List Arith.
From Verif Require Import M_Mesh S_Mesh.
Import ListNotations.
Open Scope nat_scope.

(** the four sides of a tetrahedron and the three sides of a triangle *)
Definition faces (t : nat * nat * nat * nat) : list (nat * nat * nat) :=
  let '(a, b, c, d) := t in [(a, b, c); (a, b, d); (a, c, d); (b, c, d)].
Definition sides (t : nat * nat * nat) : list (nat * nat) :=
  let '(a, b, c) := t in [(a, b); (a, c); (b, c)].

(** relative distance of two points above the tolerance (given squared) *)
Definition sum_sq (l : list Q) : Q := fold_right Qplus 0%Q (map (fun x => (x * x)%Q) l).
Definition minus (a b : list Q) : list Q := map (fun p => (fst p - snd p)%Q) (combine a b).
Definition far (tol2 : Q) (a b : list Q) : Prop :=
  (tol2 * sum_sq a < sum_sq (minus a b))%Q \/ (tol2 * sum_sq b < sum_sq (minus a b))%Q.
(** no two vertices at (nearly) the same place *)
Definition separated (tol2 : Q) (m : mesh) : Prop :=
  forall i j v w, nth_error (m_verts m) i = Some v -> nth_error (m_verts m) j = Some w -> i <> j ->
  far tol2 (v_coords v) (v_coords w).

(** the result [m'] of preprocessing [m] *)
Record prepared (m m' : mesh) : Prop := {
  pr_dim : m_dim m' = m_dim m;
  pr_verts : m_verts m' = m_verts m;
  pr_tets : forall t, In t (m_tets m') <-> In t (m_tets m);
  pr_tris : forall t, In t (m_tris m') <-> In t (m_tris m) \/ exists x, In x (m_tets m) /\ In t (faces x);
  pr_edges : forall e, In e (m_edges m') <-> In e (m_edges m) \/ exists x, In x (m_tris m') /\ In e (sides x);
  pr_tets_once : NoDup (m_tets m');
  pr_tris_once : NoDup (m_tris m');
  pr_edges_once : NoDup (m_edges m')
}.
