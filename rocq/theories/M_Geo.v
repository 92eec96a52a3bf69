(** Geometric multiscale mappings (mapping/RadialGeoMultiscaleMapping.cpp,
    mapping/AxialGeoMultiscaleMapping.cpp).

    Values are rational numbers; [None] as the value of a vertex is a NaN (a
    division of zero by zero).  Square roots are avoided by comparing squares; the
    power functions of the square cross section are a parameter.  Only the
    consistent constraint exists (lines 117-121 and 189-193 are unreachable).  The
    meshes have three dimensions. *)
From Coq Require Import ZArith QArith Bool List.
Import ListNotations.
Open Scope list_scope.
Open Scope nat_scope.

(** [UB]: memory behind the end of a container is read; [Check]: PRECICE_CHECK
    fails *)
Inductive result (A : Type) := Good (a : A) | UB | Check.
Arguments Good {A} _. Arguments UB {A}. Arguments Check {A}.
Definition bindR {A B} (r : result A) (f : A -> result B) : result B :=
  match r with Good a => f a | UB => UB | Check => Check end.
Fixpoint mapR {A B} (f : A -> result B) (l : list A) : result (list B) :=
  match l with
  | [] => Good []
  | a :: r => bindR (f a) (fun b => bindR (mapR f r) (fun bs => Good (b :: bs)))
  end.
Definition getR {A} (l : list A) (i : nat) : result A := match nth_error l i with Some a => Good a | None => UB end.

Notation num := (option Q).
(** the output values: one component of every vertex is written, the others keep
    the zero they are created with (DataContext.cpp 146-150) *)
Definition place (d e : nat) (vals : list num) : list num :=
  flat_map (fun v => map (fun c => if c =? e then v else Some 0%Q) (seq 0 d)) vals.

(** ** Radial *)

(** std::stable_sort of the vertex numbers by the coordinate along the axis,
    RadialGeoMultiscaleMapping.cpp 43-49 *)
Fixpoint insertBy (xs : list Q) (a : nat) (l : list nat) : list nat :=
  match l with
  | [] => [a]
  | b :: r => if Qle_bool (nth a xs 0%Q) (nth b xs 0%Q) then a :: l else b :: insertBy xs a r
  end.
Fixpoint sortBy (xs : list Q) (l : list nat) : list nat :=
  match l with [] => [] | a :: r => insertBy xs a (sortBy xs r) end.
Definition ordered (xs : list Q) : list nat := sortBy xs (seq 0 (length xs)).

(** lines 50-56: the next vertex is the one with the next number, not the next
    one in the order; [xs]: the coordinates of the 1D input vertices *)
Definition spreadMidpoints (xs : list Q) : result (list Q) :=
  mapR (fun i => bindR (getR (ordered xs) i) (fun o =>
                 bindR (getR xs o) (fun a => bindR (getR xs (o + 1)) (fun b => Good ((a + b) / 2)%Q))))
       (seq 0 (length xs - 1)).
(** lines 84-97: the order is computed and not used *)
Definition collectMidpoints (xs : list Q) : result (list Q) :=
  mapR (fun i => bindR (getR xs i) (fun a => bindR (getR xs (i + 1)) (fun b => Good ((a + b) / 2)%Q)))
       (seq 0 (length xs - 1)).
(** lines 65-70 and 105-110; behind the last midpoint lies the largest double *)
Fixpoint findBin (mids : list Q) (y : Q) : nat :=
  match mids with
  | [] => 0
  | m :: r => if Qle_bool y m then 0 else S (findBin r y)
  end.

(** computeMapping, lines 39-72, and mapConsistent, lines 164-168: [ys] the
    coordinates of the output vertices, [d] the dimension of the data.  Without
    input vertices [inSize - 1] overflows and memory is read that is not there *)
Definition radialSpread (d : nat) (xs ys : list Q) (inp : list Q) : result (list num) :=
  match xs with
  | [] => UB
  | _ => bindR (spreadMidpoints xs) (fun mids =>
         bindR (mapR (fun y => getR inp (findBin mids y * d)) ys) (fun vals =>
         Good (place d 0 (map Some vals))))
  end.

(** the sum and the number of the values in bin [k], lines 99-113 and 176-182 *)
Definition binSum (bins : list nat) (vals : list Q) (k : nat) : Q :=
  fold_right (fun bv acc => if fst bv =? k then (snd bv + acc)%Q else acc) 0%Q (combine bins vals).
Definition binCount (bins : list nat) (k : nat) : nat := length (filter (fun b => b =? k) bins).
(** line 184 *)
Definition average (s : Q) (n : nat) : num :=
  match n with O => None | _ => Some (s / inject_Z (Z.of_nat n))%Q end.
(** computeMapping, lines 73-115, and mapConsistent, lines 169-186: [xs] the
    coordinates of the 1D output vertices, [ys] those of the input vertices *)
Definition radialCollect (d : nat) (xs ys : list Q) (inp : list Q) : result (list num) :=
  match xs with
  | [] => UB
  | _ => bindR (collectMidpoints xs) (fun mids =>
         let bins := map (findBin mids) ys in
         bindR (mapR (fun i => getR inp (i * d)) (seq 0 (length ys))) (fun vals =>
         Good (place d 0 (map (fun k => average (binSum bins vals k) (binCount bins k)) (seq 0 (length xs))))))
  end.

(** ** Axial *)

(** AxialGeoMultiscaleMapping.hpp, the enumerations of the configuration *)
Inductive adim := D1D3 | D1D2 | D2D3.
Inductive profile := UNIFORM | PARABOLIC.
Inductive section := CIRCLE | SQUARE.

Notation point := (list Q).
Definition sq (x : Q) : Q := (x * x)%Q.
Fixpoint dist2 (a b : point) : Q :=
  match a, b with x :: a, y :: b => (sq (x - y) + dist2 a b)%Q | _, _ => 0%Q end.

Section Axial.
(** std::pow(_, 0.879), std::pow(_, 0.879 - 1) and std::pow(_, 0.121), lines 267,
    303 and 359 *)
Variables (pw pwm pwc : Q -> Q).

(** AxialGeoMultiscaleMapping.cpp 228-237: the component of the data that is
    mapped *)
Definition effective (d axis : nat) : nat := if d =? 1 then 0 else axis.

(** lines 62-73: the squares of the distances, relative to the radius; a negative
    radius passes the check, a radius of zero never does (infinity or NaN) *)
Definition circleDistance (v0 : point) (radius : Q) (y : point) : result Q :=
  let r2 := (dist2 v0 y / sq radius)%Q in
  if Qeq_bool radius 0 then Check
  else if Qle_bool r2 (11025 # 10000) || Qle_bool radius 0 then Good r2 else Check.
(** lines 74-97 *)
Definition squareCoords (v0 : point) (radius : Q) (axis : nat) (y : point) : result (Q * Q) :=
  let t k := ((nth ((axis + k) mod 3) v0 0 - nth ((axis + k) mod 3) y 0) / radius)%Q in
  if Qeq_bool radius 0 then Check
  else if Qle_bool (sq (t 1)) (11025 # 10000) && Qle_bool (sq (t 2)) (11025 # 10000) then Good (t 1, t 2) else Check.
(** std::max(0.0, _), lines 264 and 266 *)
Definition max0 (q : Q) : Q := if Qle_bool q 0 then 0%Q else q.

(** one input vertex at [v0] with value [u] of the mapped component; lines 46-98
    and 244-273.  The distances are only computed for circles, but the 1D-2D
    profile needs them for squares, too *)
Definition axialSpread1 (dm : adim) (p : profile) (s : section) (radius : Q) (axis : nat) (v0 : point) (u : Q)
    (outs : list point) : result (list num) :=
  bindR (match s with CIRCLE => mapR (circleDistance v0 radius) outs | SQUARE => Good [] end) (fun ds =>
  bindR (match s with SQUARE => mapR (squareCoords v0 radius axis) outs | CIRCLE => Good [] end) (fun ts =>
  mapR (fun i =>
    match p, dm, s with
    | UNIFORM, _, _ => Good (Some u)
    | PARABOLIC, D1D2, _ => bindR (getR ds i) (fun r2 => Good (Some ((3 # 2) * u * (1 - r2))%Q))
    | PARABOLIC, _, CIRCLE => bindR (getR ds i) (fun r2 => Good (Some (2 * u * (1 - r2))%Q))
    | PARABOLIC, _, SQUARE => bindR (getR ts i) (fun t =>
        Good (Some ((2096 # 1000) * u * pw (max0 (1 - sq (fst t))) * pw (max0 (1 - sq (snd t))))%Q))
    end) (seq 0 (length outs)))).

(** the nearest vertex by squared distance, the first one of several; lines
    122-134 and 171-183 *)
Fixpoint nearestFrom (vs : list point) (y : point) (k best : nat) (bd : option Q) : nat * option Q :=
  match vs with
  | [] => (best, bd)
  | v :: r =>
      let dd := dist2 y v in
      match bd with
      | Some b => if Qle_bool b dd then nearestFrom r y (S k) best bd else nearestFrom r y (S k) k (Some dd)
      | None => nearestFrom r y (S k) k (Some dd)
      end
  end.
Definition nearest (vs : list point) (y : point) : nat := fst (nearestFrom vs y 0 0 None).
Definition nearestDist (vs : list point) (y : point) : Q := match snd (nearestFrom vs y 0 0 None) with Some b => b | None => 0%Q end.
(** lines 119-120, 135-140: the square of the largest distance of the output
    vertices that belong to input vertex [k] *)
Definition maxDist2 (ins outs : list point) (k : nat) : Q :=
  fold_right (fun y acc => if (nearest ins y =? k) && negb (Qle_bool (nearestDist ins y) acc) then nearestDist ins y else acc) 0%Q outs.
(** lines 102-114 and 155-167, the direction in which the vertices extend most *)
Definition spanOf (vs : list point) (c : nat) : Q :=
  let xs := map (fun v => nth c v 0%Q) vs in
  match xs with
  | [] => 0%Q
  | x :: r => (fold_left (fun a b => if Qle_bool a b then b else a) r x - fold_left (fun a b => if Qle_bool a b then a else b) r x)%Q
  end.
Definition lineCoord (vs : list point) : nat :=
  let l := if Qle_bool (spanOf vs 1) (spanOf vs 0) then 0 else 1 in
  if Qle_bool (spanOf vs 2) (spanOf vs l) then l else 2.

(** lines 99-142 and 274-307; [us]: the mapped component of the input values.  A
    radius of zero is not modelled here *)
Definition axialSpread2 (p : profile) (s : section) (radius : Q) (ins : list point) (us : list Q) (outs : list point) : result (list num) :=
  if length ins <=? 1 then Check
  else
  mapR (fun y =>
    let k := nearest ins y in
    bindR (getR us k) (fun u =>
    match p, s with
    | UNIFORM, _ => Good (Some u)
    | PARABOLIC, CIRCLE =>
        let R2 := maxDist2 ins outs k in
        if Qeq_bool R2 0 then Good None
        else Good (Some ((4 # 3) * u * (1 - nearestDist ins y / R2))%Q)
    | PARABOLIC, SQUARE =>
        let b1 := (1 - sq (nth (lineCoord ins) (nth k ins []) 0 / radius))%Q in
        let b2 := (1 - nearestDist ins y / sq radius)%Q in
        Good (Some (u * (2096 # 1500) * pwm (if Qle_bool b1 (1 # 1000000000000) then (1 # 1000000000000) else b1) * pw (max0 b2))%Q)
    end)) outs.

(** lines 147-151 and 312-334: the average over all input vertices *)
Definition axialCollect1 (us : list Q) : num := average (fold_right Qplus 0%Q us) (length us).
(** lines 152-187 and 335-363; a vertex without input vertices keeps its zero *)
Definition axialCollect2 (p : profile) (s : section) (radius : Q) (outs : list point) (ins : list point) (us : list Q) : result (list num) :=
  if length outs <=? 1 then Check
  else
  let bins := map (nearest outs) ins in
  Good (map (fun j =>
    if binCount bins j =? 0 then Some 0%Q
    else match average (binSum bins us j) (binCount bins j) with
         | None => None
         | Some a =>
             match p, s with
             | UNIFORM, _ => Some a
             | PARABOLIC, CIRCLE => Some (a * (9 # 8))%Q
             | PARABOLIC, SQUARE =>
                 Some (a * ((103745 # 100000) * pwc (max0 (1 - sq (nth (lineCoord outs) (nth j outs []) 0 / radius)))))%Q
             end
         end) (seq 0 (length outs))).

(** the mapped component of the values of [n] vertices *)
Definition component (d e n : nat) (inp : list Q) : result (list Q) :=
  mapR (fun i => getR inp (i * d + e)) (seq 0 n).
(** computeMapping and mapConsistent, type spread: [ins] and [outs] the vertices of
    the input and output mesh, [inp] the input values, [d] their dimension *)
Definition axialSpread (dm : adim) (p : profile) (s : section) (radius : Q) (d axis : nat) (ins outs : list point)
    (inp : list Q) : result (list num) :=
  let e := effective d axis in
  bindR (component d e (length ins) inp) (fun us =>
  bindR (match dm with
         | D2D3 => axialSpread2 p s radius ins us outs
         | _ => match ins, us with
                | [v0], [u] => axialSpread1 dm p s radius axis v0 u outs
                | _, _ => Check (* line 47 *)
                end
         end) (fun vals => Good (place d e vals))).
(** the same, type collect *)
Definition axialCollect (dm : adim) (p : profile) (s : section) (radius : Q) (d axis : nat) (ins outs : list point)
    (inp : list Q) : result (list num) :=
  let e := effective d axis in
  bindR (component d e (length ins) inp) (fun us =>
  bindR (match dm with
         | D2D3 => axialCollect2 p s radius outs ins us
         | _ => if length outs =? 1 then Good [axialCollect1 us] else Check
         end) (fun vals => Good (place d e vals))).
End Axial.
