(** Quads: math::geometry::isConvexQuad (src/math/geometry.cpp 143-238) and the
    part of ParticipantImpl::setMeshQuad(s) after the checks of the mesh
    (src/precice/impl/ParticipantImpl.cpp 990-1027, 1056-1091).

    Simplifications: coordinates are rationals and computed exactly; lengths are
    compared by their squares. *)
From Coq Require Import ZArith QArith Bool List Arith.
From Verif Require Import M_Mesh M_Prep M_Box.
Import ListNotations.
Open Scope nat_scope.

Definition vsub (a b : list Q) : list Q := map2 (fun x y => (x - y)%Q) a b.
Definition vdot (a b : list Q) : Q := fold_right Qplus 0%Q (map2 Qmult a b).
Definition vcross (a b : list Q) : list Q :=
  match a, b with
  | [a0; a1; a2], [b0; b1; b2] => [(a1 * b2 - a2 * b1)%Q; (a2 * b0 - a0 * b2)%Q; (a0 * b1 - a1 * b0)%Q]
  | _, _ => []
  end.

Section Quad.
Variable tol : Q. (* tolerance of math::equals for numbers *)

(** 155-189: the two coordinates of a point in the new plane *)
Definition project (c0 c1 c2 c : list Q) : Q * Q :=
  let d := vsub c c0 in (vdot (vsub c1 c0) d, vdot (vsub c2 c0) d).
(** 168-169 *)
Definition planarCheck (c0 c1 c2 c3 : list Q) : bool :=
  if length c0 =? 3
  then Qle_bool (qabs (vdot (vcross (vsub c1 c0) (vsub c2 c0)) (vsub c3 c0) - 0)) tol
  else true.

Definition at4 (l : list (Q * Q)) (i : nat) : Q * Q := nth i l (0%Q, 0%Q).
(** 198-203 *)
Definition lowest (l : list (Q * Q)) : nat :=
  fold_left (fun low i => if qlt (fst (at4 l i)) (fst (at4 l low)) then i else low) [1; 2; 3] 0.
(** 216-229 *)
Definition turn (l : list (Q * Q)) (current next i : nat) : Q :=
  let y1 := (snd (at4 l current) - snd (at4 l next))%Q in
  let y2 := (snd (at4 l current) - snd (at4 l i))%Q in
  let x1 := (fst (at4 l current) - fst (at4 l next))%Q in
  let x2 := (fst (at4 l current) - fst (at4 l i))%Q in
  (y2 * x1 - y1 * x2)%Q.
Definition nextVertex (l : list (Q * Q)) (current : nat) : nat :=
  fold_left (fun next i => if qlt 0 (turn l current next i) then i else next) [0; 1; 2; 3] ((current + 1) mod 4).
(** 212-233: the loop; [room] is the space left in [vertexOrder], [None] is a
    write beyond its end *)
Fixpoint wrap (l : list (Q * Q)) (start : nat) (room current : nat) : option (list nat) :=
  match room with
  | 0 => None
  | S room' =>
      let next := nextVertex l current in
      if next =? start then Some [current]
      else match wrap l start room' next with Some r => Some (current :: r) | None => None end
  end.

Inductive convexity := NonPlanar | OutOfBounds | Convexity (convex : bool) (order : list nat).
(** 143-238 *)
Definition isConvexQuad (c0 c1 c2 c3 : list Q) : convexity :=
  if planarCheck c0 c1 c2 c3 then
    let l := map (project c0 c1 c2) [c0; c1; c2; c3] in
    match wrap l (lowest l) 4 (lowest l) with
    | None => OutOfBounds
    | Some order => Convexity (length order =? 4) order
    end
  else NonPlanar.

(** ** setMeshQuad *)
Inductive quadResult :=
| QRejected       (* PRECICE_CHECK: an exception, the mesh is unchanged *)
| QUndefined      (* write or read out of bounds *)
| QDone (m : mesh).

(** utils/algorithm.hpp 62-82 *)
Fixpoint uniqueElements {A} (eqb : A -> A -> bool) (l : list A) : bool :=
  match l with [] => true | x :: r => negb (existsb (eqb x) r) && uniqueElements eqb r end.
Definition eqCoords (a b : list Q) : bool := forallb (fun x => Qeq_bool (fst x) (snd x)) (combine a b).
(** 1013-1026 *)
Definition splitQuad (m : mesh) (q0 q1 q2 q3 : nat) : mesh :=
  if Qle_bool (sqdist (coordsAt m q0) (coordsAt m q2)) (sqdist (coordsAt m q1) (coordsAt m q3))
  then createTriangle (createTriangle m q0 q2 q1) q0 q2 q3
  else createTriangle (createTriangle m q1 q3 q0) q1 q3 q2.
(** 998-1026 *)
Definition addQuad (m : mesh) (a b c d : nat) : quadResult :=
  if negb (uniqueElements Nat.eqb [a; b; c; d]) then QRejected else
  if negb (uniqueElements eqCoords (map (coordsAt m) [a; b; c; d])) then QRejected else
  match isConvexQuad (coordsAt m a) (coordsAt m b) (coordsAt m c) (coordsAt m d) with
  | NonPlanar => QRejected
  | OutOfBounds => QUndefined
  | Convexity false _ => QRejected
  | Convexity true order =>
      match map (fun i => nth i [a; b; c; d] 0) order with
      | [q0; q1; q2; q3] => QDone (splitQuad m q0 q1 q2 q3)
      | _ => QUndefined
      end
  end.
(** 992-1026 *)
Definition setMeshQuad (m : mesh) (a b c d : Z) : quadResult :=
  if isValidVertexID m a && isValidVertexID m b && isValidVertexID m c && isValidVertexID m d
  then addQuad m (Z.to_nat a) (Z.to_nat b) (Z.to_nat c) (Z.to_nat d)
  else QRejected.
End Quad.
