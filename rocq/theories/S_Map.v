(** Specification vocabulary for mappings. *)
From Coq Require Import ZArith QArith Bool List Arith.
From Verif Require Import M_Mesh.
Import ListNotations.
Open Scope nat_scope.

(** [f 0 + ... + f (n-1)] *)
Fixpoint qsum (n : nat) (f : nat -> Q) : Q :=
  match n with 0 => 0%Q | S k => (qsum k f + f k)%Q end.
(** the sum of a list *)
Definition total (l : list Q) : Q := fold_right Qplus 0%Q l.
Definition absQ (x : Q) : Q := if Qle_bool 0 x then x else (- x)%Q.

(** component [d] of the value of vertex [i]; the values of a vertex are stored
    next to each other *)
Definition val (dims : nat) (v : list Q) (i d : nat) : Q := nth (i * dims + d) v 0%Q.
(** one value per component and vertex *)
Definition sized (dims : nat) (m : mesh) (v : list Q) : Prop := length v = nVertices m * dims.
Definition zeros (dims : nat) (m : mesh) : list Q := repeat 0%Q (nVertices m * dims).

(** the coordinates of vertex [i] *)
Definition position (m : mesh) (i : nat) : list Q :=
  match nth_error (m_verts m) i with Some v => v_coords v | None => [] end.
(** the square of the distance of two points in [n] dimensions *)
Definition sqdist (n : nat) (p q : list Q) : Q := qsum n (fun k => ((nth k p 0 - nth k q 0) * (nth k p 0 - nth k q 0))%Q).
(** [j] is a vertex of [m], and no vertex of [m] is closer to [u] *)
Definition nearest (m : mesh) (u : list Q) (j : nat) : Prop :=
  j < nVertices m /\
  forall k, k < nVertices m -> (sqdist (m_dim m) u (position m j) <= sqdist (m_dim m) u (position m k))%Q.

(** * Points and weights *)
(** coordinate [k] of the weighted sum of points *)
Definition combo (ws : list Q) (ps : list (list Q)) (k : nat) : Q :=
  total (map (fun wp => (fst wp * nth k (snd wp) 0)%Q) (combine ws ps)).
(** the points lie in a lower dimensional plane: two equal points, three points
    on a line, four points in a plane *)
Definition degenerate (n : nat) (ps : list (list Q)) : Prop :=
  exists cs, length cs = length ps /\ Exists (fun c => ~ (c == 0)%Q) cs /\ (total cs == 0)%Q /\
             forall k, k < n -> (combo cs ps k == 0)%Q.
(** the weighted sum is the orthogonal projection of [u] onto the line, plane or
    space through the points *)
Definition foot (n : nat) (u : list Q) (ws : list Q) (ps : list (list Q)) : Prop :=
  forall p q, In p ps -> In q ps ->
  (qsum n (fun k => (nth k u 0 - combo ws ps k) * (nth k p 0 - nth k q 0)) == 0)%Q.
(** [u] projects into the hull of the points *)
Definition projects_into (n : nat) (u : list Q) (ps : list (list Q)) : Prop :=
  exists ws, length ws = length ps /\ Forall (fun w => (0 <= w)%Q) ws /\ (total ws == 1)%Q /\ foot n u ws ps.
(** [u] is in the hull of the points *)
Definition inside (n : nat) (u : list Q) (ps : list (list Q)) : Prop :=
  exists ws, length ws = length ps /\ Forall (fun w => (0 <= w)%Q) ws /\ (total ws == 1)%Q /\
             forall k, k < n -> (combo ws ps k == nth k u 0)%Q.

(** * Integrals *)
Definition corners2 (e : nat * nat) : list nat := let '(a, b) := e in [a; b].
Definition corners3 (t : nat * nat * nat) : list nat := let '(a, b, c) := t in [a; b; c].
Definition corners4 (t : nat * nat * nat * nat) : list nat := let '(a, b, c, d) := t in [a; b; c; d].
Definition mean (l : list Q) : Q := (total l / inject_Z (Z.of_nat (length l)))%Q.
(** the integral of the function that is linear on each element and takes the
    values [f] at the vertices *)
Definition integral {E} (measure : E -> Q) (corners : E -> list nat) (elements : list E) (f : nat -> Q) : Q :=
  total (map (fun e => (measure e * mean (map f (corners e)))%Q) elements).

(** the point with the given weights, as a list of [n] coordinates *)
Definition combination (n : nat) (ws : list Q) (ps : list (list Q)) : list Q := map (combo ws ps) (seq 0 n).

(** what the spatial searches on the mesh [s] return: a nearest vertex, and
    indices of elements *)
Record search_ok (s : mesh) (closestVertex : list Q -> nat) (closestEdges closestTriangles : list Q -> nat -> list nat)
    (enclosing : list Q -> list nat) : Prop := {
  so_vertex : forall u, length u = m_dim s -> m_verts s <> [] -> nearest s u (closestVertex u);
  so_edges : forall u n i, In i (closestEdges u n) -> i < length (m_edges s);
  so_triangles : forall u n i, In i (closestTriangles u n) -> i < length (m_tris s);
  so_tets : forall u i, In i (enclosing u) -> i < length (m_tets s)
}.
(** no triangle is squeezed to a line *)
Definition proper_triangles (s : mesh) : Prop :=
  forall t, In t (m_tris s) -> ~ degenerate (m_dim s) (map (position s) (corners3 t)).
(** the corners of cell [i]: a triangle in two dimensions, else a tetrahedron *)
Definition cell (s : mesh) (i : nat) : option (list (list Q)) :=
  if m_dim s =? 2 then option_map (fun t => map (position s) (corners3 t)) (nth_error (m_tris s) i)
  else option_map (fun t => map (position s) (corners4 t)) (nth_error (m_tets s) i).

(** the corners of facet [i]: an edge in two dimensions, else a triangle *)
Definition facet (s : mesh) (i : nat) : option (list (list Q)) :=
  if m_dim s =? 2 then option_map (fun e => map (position s) (corners2 e)) (nth_error (m_edges s) i)
  else option_map (fun t => map (position s) (corners3 t)) (nth_error (m_tris s) i).

(** the linear function with constant [c] and gradient [g] *)
Definition linear (n : nat) (c : Q) (g : list Q) (x : list Q) : Q := (c + qsum n (fun k => nth k g 0 * nth k x 0))%Q.

(** integrals over a surface and a volume mesh; lengths, areas and volumes of the
    elements are parameters *)
Section Measures.
Variables (len : mesh -> nat * nat -> Q) (area : mesh -> nat * nat * nat -> Q) (vol : mesh -> nat * nat * nat * nat -> Q).
Definition surface_integral (m : mesh) (f : nat -> Q) : Q :=
  if m_dim m =? 2 then integral (len m) corners2 (m_edges m) f else integral (area m) corners3 (m_tris m) f.
Definition volume_integral (m : mesh) (f : nat -> Q) : Q :=
  if m_dim m =? 2 then integral (area m) corners3 (m_tris m) f else integral (vol m) corners4 (m_tets m) f.
End Measures.
