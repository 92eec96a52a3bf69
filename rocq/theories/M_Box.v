(** Bounding boxes: src/mesh/BoundingBox.cpp and Mesh::computeBoundingBox.

    Simplifications: coordinates are rationals; the largest double is the
    parameter [big], the precision of Eigen's [isApproxToConstant] is [prec]. *)
From Coq Require Import ZArith QArith Bool List Arith.
From Verif Require Import M_Mesh M_Prep.
Import ListNotations.
Open Scope nat_scope.

(** BoundingBox.hpp: _boundMin, _boundMax; _dimensions is their length *)
Record box := MkBox { b_min : list Q; b_max : list Q }.
Definition b_dim (b : box) : nat := length (b_min b).

Definition qlt (a b : Q) : bool := negb (Qle_bool b a).
Definition qmax (a b : Q) : Q := if Qle_bool a b then b else a.
Definition map2 {A B C} (f : A -> B -> C) (l : list A) (r : list B) : list C :=
  map (fun x => f (fst x) (snd x)) (combine l r).
Definition qabs (x : Q) : Q := if Qle_bool 0 x then x else (- x)%Q.

Section Box.
Variables big prec : Q.

(** 29-42: de-interleave; [None]: assertion on the size *)
Fixpoint evens {A} (l : list A) : list A := match l with x :: _ :: r => x :: evens r | _ => [] end.
Fixpoint odds {A} (l : list A) : list A := match l with _ :: y :: r => y :: odds r | _ => [] end.
Definition boxOfBounds (l : list Q) : option box :=
  if (length l =? 4) || (length l =? 6) then Some (MkBox (evens l) (odds l)) else None.
(** 44-55 *)
Definition defaultBox (d : nat) : box := MkBox (repeat big d) (repeat (- big)%Q d).
(** Eigen isApproxToConstant *)
Definition approxTo (c : Q) (l : list Q) : bool :=
  forallb (fun x => Qle_bool (qabs (x - c)) (qmin (qabs x) (qabs c) * prec)) l.
(** 69-72 *)
Definition isDefault (b : box) : bool := approxTo big (b_min b) && approxTo (- big)%Q (b_max b).
(** 74-85; [None]: assertion on the dimension *)
Definition contains (b : box) (c : list Q) : option bool :=
  if length c =? b_dim b
  then Some (forallb (fun x => negb (qlt (fst x) (fst (snd x)) || qlt (snd (snd x)) (fst x)))
                     (combine c (combine (b_min b) (b_max b))))
  else None.
(** 107-110; the boxes in use have at least two dimensions *)
Definition longestEdgeLength (b : box) : Q :=
  match map2 (fun x y => (y - x)%Q) (b_min b) (b_max b) with [] => 0%Q | x :: r => fold_left qmax r x end.
(** 128-135 *)
Definition dataVector (b : box) : list Q := flat_map (fun x => [fst x; snd x]) (combine (b_min b) (b_max b)).
(** 137-143 *)
Definition expandByBox (b o : box) : option box :=
  if b_dim b =? b_dim o then Some (MkBox (map2 qmin (b_min b) (b_min o)) (map2 qmax (b_max b) (b_max o))) else None.
(** 145-152 *)
Definition expandByVertex (b : box) (c : list Q) : option box :=
  if b_dim b =? length c then Some (MkBox (map2 qmin (b_min b) c) (map2 qmax (b_max b) c)) else None.
(** 154-160 *)
Definition expandByValue (b : box) (v : Q) : box :=
  if isDefault b then b else MkBox (map (fun x => (x - v)%Q) (b_min b)) (map (fun x => (x + v)%Q) (b_max b)).
(** 162-170 *)
Definition scaleBy (b : box) (safety : Q) : box :=
  if isDefault b then b else
  let l := longestEdgeLength b in
  MkBox (map (fun x => (x - safety * l)%Q) (b_min b)) (map (fun x => (x + safety * l)%Q) (b_max b)).
(** 172-181 *)
Definition overlapping (a b : box) : bool :=
  forallb (fun x => let '((amin, amax), (bmin, bmax)) := x in
             negb ((qlt amin bmin && qlt amax bmin) || (qlt bmin amin && qlt bmax amin)))
          (combine (combine (b_min a) (b_max a)) (combine (b_min b) (b_max b))).
(** Mesh.cpp 268-280: [b] is the box of the mesh before *)
Definition computeBoundingBox (m : mesh) (b : box) : option box :=
  fold_left (fun o v => match o with None => None | Some b => expandByVertex b (v_coords v) end)
    (m_verts m) (Some (if isDefault b then defaultBox (m_dim m) else b)).
End Box.
