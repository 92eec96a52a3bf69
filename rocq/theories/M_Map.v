(** Mappings between meshes: nearest neighbour, nearest projection and linear
    cell interpolation.

    Modelled code: src/math/barycenter.cpp 11-145, src/mapping/Polation.cpp 9-98,
    src/query/Index.cpp 171-182 and 277-367, and in src/mapping:
    NearestNeighborBaseMapping.cpp 30-84, NearestNeighborMapping.cpp 29-93,
    NearestNeighborGradientMapping.cpp 34-87, BarycentricBaseMapping.cpp 38-194,
    NearestProjectionMapping.cpp 45-121, LinearCellInterpolationMapping.cpp 31-120,
    Mapping.cpp 158-246; src/mesh/Utils.cpp 11-70.

    Simplifications: numbers are rationals and computed exactly.  Distances are
    compared by their squares.  The R-tree queries are parameters: whatever they
    return.  Statistics, events and log messages are left out. *)
From Coq Require Import ZArith QArith Bool List Arith.
From Verif Require Import M_Mesh M_Prep M_Box M_Quad.
Import ListNotations.
Open Scope nat_scope.

(** * Flat vectors of values: component [d] of vertex [i] at [i * dims + d] *)
Definition segment (dims i : nat) (v : list Q) : option (list Q) :=
  if i * dims + dims <=? length v then Some (firstn dims (skipn (i * dims) v)) else None.
(** [v.segment(k, n) += c]; [None]: out of range *)
Fixpoint addSeg (k : nat) (c v : list Q) : option (list Q) :=
  match k, v with
  | S k', x :: r => option_map (cons x) (addSeg k' c r)
  | S _, [] => None
  | O, _ => match c, v with
            | [], _ => Some v
            | y :: c', x :: r => option_map (cons (x + y)%Q) (addSeg 0 c' r)
            | _ :: _, [] => None
            end
  end.
Definition addCol (dims i : nat) (c v : list Q) : option (list Q) := addSeg (i * dims) c v.
(** [v.segment(k, n) = c] *)
Fixpoint putSeg (k : nat) (c v : list Q) : option (list Q) :=
  match k, v with
  | S k', x :: r => option_map (cons x) (putSeg k' c r)
  | S _, [] => None
  | O, _ => match c, v with
            | [], _ => Some v
            | y :: c', x :: r => option_map (cons y) (putSeg 0 c' r)
            | _ :: _, [] => None
            end
  end.

(** * Barycentric coordinates: src/math/barycenter.cpp *)
Definition qsub := vsub.
Definition cross2 (u v : list Q) : Q := (nth 0 u 0 * nth 1 v 0 - nth 1 u 0 * nth 0 v 0)%Q.

(** 11-38; [None]: division by zero, the result is not a number *)
Definition baryEdge (a b u : list Q) : option (Q * Q) :=
  let ab := qsub b a in
  let au := qsub u a in
  if Qeq_bool (vdot ab ab) 0 then None else
  let w1 := (vdot au ab / vdot ab ab)%Q in
  Some ((1 - w1)%Q, w1).

(** 40-99; [None]: the assertion on degenerate triangles *)
Definition baryTriangle (a b c u : list Q) : option (Q * Q * Q) :=
  if length a =? 3 then
    let ab := qsub b a in
    let ac := qsub c a in
    let n := vcross ab ac in
    if Qeq_bool (vdot n n) 0 then None else
    let scaleFactor := (1 / vdot n n)%Q in
    let au := qsub u a in
    let w2 := (vdot n (vcross ab au) * scaleFactor)%Q in
    let w1 := (vdot n (vcross au ac) * scaleFactor)%Q in
    Some ((1 - w1 - w2)%Q, w1, w2)
  else
    let ab := qsub b a in
    let ac := qsub c a in
    let ub := qsub b u in
    let uc := qsub c u in
    let ua := qsub a u in
    let twiceArea := cross2 ab ac in
    if Qeq_bool twiceArea 0 then None else
    let scaleFactor := (1 / twiceArea)%Q in
    let w0 := (cross2 ub uc * scaleFactor)%Q in
    let w1 := (cross2 uc ua * scaleFactor)%Q in
    Some (w0, w1, (1 - w0 - w1)%Q).

(** 101-145; [None]: division by zero *)
Definition vneg (a : list Q) : list Q := map Qopp a.
Definition baryTetra (a b c d u : list Q) : option (Q * Q * Q * Q) :=
  let au := qsub u a in
  let du := qsub u d in
  let cu := qsub u c in
  let ab := qsub b a in
  let ac := qsub c a in
  let ad := qsub d a in
  let bc := qsub c b in
  let tri_abc := vcross ab bc in
  let tri_abd := vcross ab (vneg ad) in
  let tri_acd := vcross ac ad in
  let volume := vdot tri_abc ad in
  if Qeq_bool volume 0 then None else
  let w3 := (vdot tri_abc au / volume)%Q in
  let w2 := (vdot tri_abd du / volume)%Q in
  let w1 := (vdot tri_acd cu / volume)%Q in
  Some ((1 - w3 - w2 - w1)%Q, w1, w2, w3).

(** * Polations: src/mapping/Polation.cpp *)
Record polation := MkPol { p_elems : list (nat * Q); p_dist2 : Q }.

Definition coordsOf (m : mesh) (v : nat) : list Q :=
  match nth_error (m_verts m) v with Some x => v_coords x | None => [] end.
Definition dist2 (a b : list Q) : Q := vdot (qsub a b) (qsub a b).
Definition vscale (s : Q) (a : list Q) : list Q := map (fun x => (x * s)%Q) a.
Definition vadd (a b : list Q) : list Q := map2 Qplus a b.

(** 9-14 *)
Definition polVertex (m : mesh) (u : list Q) (v : nat) : polation := MkPol [(v, 1%Q)] (dist2 u (coordsOf m v)).
(** what a constructor gives: a polation, weights that are not numbers, or a failed assertion *)
Inductive made := Pol (p : polation) | NotANumber | AssertFails.
(** 16-33 *)
Definition polEdge (m : mesh) (u : list Q) (e : nat * nat) : made :=
  let '(a, b) := e in
  match baryEdge (coordsOf m a) (coordsOf m b) u with
  | None => NotANumber
  | Some (w0, w1) =>
      let projection := vadd (vscale w0 (coordsOf m a)) (vscale w1 (coordsOf m b)) in
      Pol (MkPol [(a, w0); (b, w1)] (dist2 u projection))
  end.
(** 35-56 *)
Definition polTriangle (m : mesh) (u : list Q) (t : nat * nat * nat) : made :=
  let '(a, b, c) := t in
  match baryTriangle (coordsOf m a) (coordsOf m b) (coordsOf m c) u with
  | None => AssertFails
  | Some (w0, w1, w2) =>
      let projection := vadd (vadd (vscale w0 (coordsOf m a)) (vscale w1 (coordsOf m b))) (vscale w2 (coordsOf m c)) in
      Pol (MkPol [(a, w0); (b, w1); (c, w2)] (dist2 u projection))
  end.
(** 58-79 *)
Definition polTetra (m : mesh) (u : list Q) (t : nat * nat * nat * nat) : made :=
  let '(a, b, c, d) := t in
  match baryTetra (coordsOf m a) (coordsOf m b) (coordsOf m c) (coordsOf m d) u with
  | None => NotANumber
  | Some (w0, w1, w2, w3) => Pol (MkPol [(a, w0); (b, w1); (c, w2); (d, w3)] 0)
  end.

Section Tol.
Variable eps : Q. (* math::NUMERICAL_ZERO_DIFFERENCE *)

(** Polation.cpp 92-95: math::greaterEquals(weight, 0) *)
Definition isInterpolation (p : polation) : bool :=
  forallb (fun we => Qle_bool (- eps) (snd we - 0)) (p_elems p).
(** math::equals(weight, 0) *)
Definition isZero (w : Q) : bool := Qle_bool (qabs (w - 0)) eps.

(** * Spatial queries: src/query/Index.cpp *)
Section Index.
(** results of the R-trees *)
Variable closestVertex : list Q -> nat.
Variables closestEdges closestTriangles : list Q -> nat -> list nat.
Variable enclosingTetrahedra : list Q -> list nat.
Variable m : mesh.

(** 171-182; [None]: the assertion that the mesh is not empty *)
Definition getClosestVertex (u : list Q) : option nat :=
  if nonempty (m_verts m) then Some (closestVertex u) else None.

(** 314-318 *)
Definition findVertexProjection (u : list Q) : option polation :=
  match getClosestVertex u with Some v => Some (polVertex m u v) | None => None end.

(** [std::min_element] by distance: the first of the smallest *)
Fixpoint minElement (p : polation) (l : list polation) : polation :=
  match l with
  | [] => p
  | q :: r => minElement (if Qle_bool (p_dist2 p) (p_dist2 q) then p else q) r
  end.

(** the loops that collect the interpolating candidates; [None]: assertion or
    an index out of range *)
Fixpoint candidates {E} (mk : E -> made) (elems : list E) (matches : list nat) : option (list polation) :=
  match matches with
  | [] => Some []
  | i :: r =>
      match nth_error elems i with
      | None => None
      | Some e =>
          match mk e, candidates mk elems r with
          | AssertFails, _ => None
          | _, None => None
          | Pol p, Some l => if isInterpolation p then Some (p :: l) else Some l
          | NotANumber, Some l => Some l
          end
      end
  end.

(** 320-342 *)
Definition findEdgeProjection (u : list Q) (n : nat) (closest : polation) : option polation :=
  match candidates (polEdge m u) (m_edges m) (closestEdges u n) with
  | None => None
  | Some [] => Some closest
  | Some (p :: l) =>
      let min := minElement p l in
      if negb (Qle_bool (p_dist2 min) (p_dist2 closest)) then Some closest else Some min
  end.

(** 344-367 *)
Definition findTriangleProjection (u : list Q) (n : nat) (closest : polation) : option polation :=
  match candidates (polTriangle m u) (m_tris m) (closestTriangles u n) with
  | None => None
  | Some [] => findEdgeProjection u n closest
  | Some (p :: l) =>
      let min := minElement p l in
      if negb (Qle_bool (p_dist2 min) (p_dist2 closest)) then findEdgeProjection u n closest else Some min
  end.

(** 277-284 *)
Definition findNearestProjection (u : list Q) (n : nat) : option polation :=
  match findVertexProjection u with
  | None => None
  | Some closest => if m_dim m =? 2 then findEdgeProjection u n closest else findTriangleProjection u n closest
  end.

(** the first match that interpolates *)
Fixpoint firstCell {E} (mk : E -> made) (elems : list E) (matches : list nat) : option (option polation) :=
  match matches with
  | [] => Some None
  | i :: r =>
      match nth_error elems i with
      | None => None
      | Some e =>
          match mk e with
          | AssertFails => None
          | NotANumber => firstCell mk elems r
          | Pol p => if isInterpolation p then Some (Some p) else firstCell mk elems r
          end
      end
  end.

(** 286-312 *)
Definition findCellOrProjection (u : list Q) (n : nat) : option polation :=
  let cell := if m_dim m =? 2 then firstCell (polTriangle m u) (m_tris m) (closestTriangles u n)
              else firstCell (polTetra m u) (m_tets m) (enclosingTetrahedra u) in
  match cell with
  | None => None
  | Some (Some p) => Some p
  | Some None => findNearestProjection u n
  end.
End Index.

(** * Nearest neighbour *)

(** NearestNeighborBaseMapping.cpp 50-70: for each vertex of [origins] the
    closest vertex of [searchSpace] *)
Fixpoint vertexIndices (closest : list Q -> option nat) (origins : list vertex) : option (list nat) :=
  match origins with
  | [] => Some []
  | v :: r => match closest (v_coords v), vertexIndices closest r with
              | Some i, Some l => Some (i :: l)
              | _, _ => None
              end
  end.

(** NearestNeighborMapping.cpp 50-68: column [i] of the input goes to column
    [_vertexIndices[i]] of the output *)
Fixpoint nnConservative (dims i : nat) (indices : list nat) (inp out : list Q) : option (list Q) :=
  match indices with
  | [] => Some out
  | j :: r => match segment dims i inp with
              | None => None
              | Some c => match addCol dims j c out with
                          | None => None
                          | Some out' => nnConservative dims (S i) r inp out'
                          end
              end
  end.

(** NearestNeighborMapping.cpp 70-93 *)
Fixpoint nnConsistent (dims i : nat) (indices : list nat) (inp out : list Q) : option (list Q) :=
  match indices with
  | [] => Some out
  | j :: r => match segment dims j inp with
              | None => None
              | Some c => match putSeg (i * dims) c out with
                          | None => None
                          | Some out' => nnConsistent dims (S i) r inp out'
                          end
              end
  end.

(** * Barycentric mappings *)
Record operation := MkOp { o_out : nat; o_in : nat; o_weight : Q }.

(** BarycentricBaseMapping.cpp 169-176 *)
Definition addPolation (out : nat) (p : polation) : list operation :=
  flat_map (fun we => if negb (isZero (snd we)) then [MkOp out (fst we) (snd we)] else []) (p_elems p).

(** the loops of NearestProjectionMapping.cpp 88-108 and
    LinearCellInterpolationMapping.cpp 81-90; [i] is the ID of the next vertex *)
Fixpoint collect (find : list Q -> option polation) (i : nat) (origins : list vertex) : option (list operation) :=
  match origins with
  | [] => Some []
  | v :: r => match find (v_coords v), collect find (S i) r with
              | Some p, Some ops => Some (addPolation i p ++ ops)
              | _, _ => None
              end
  end.

(** BarycentricBaseMapping.cpp 178-194: sorted by the vertex that is written *)
Definition opLess (l r : operation) : bool :=
  if o_in l <? o_in r then true else if o_in r <? o_in l then false else o_out l <? o_out r.
Fixpoint insertOp (o : operation) (l : list operation) : list operation :=
  match l with
  | [] => [o]
  | p :: r => if opLess p o then p :: insertOp o r else o :: l
  end.
Definition sortOps (l : list operation) : list operation := fold_right insertOp [] l.

(** 38-73: [from] and [to] tell which vertex of an operation is read
    and written *)
Definition scaleSeg (w : Q) (c : list Q) : list Q := map (fun x => (w * x)%Q) c.
Fixpoint applyOps (from to : operation -> nat) (dims : nat) (ops : list operation) (inp out : list Q) : option (list Q) :=
  match ops with
  | [] => Some out
  | o :: r => match segment dims (from o) inp with
              | None => None
              | Some c => match addCol dims (to o) (scaleSeg (o_weight o) c) out with
                          | None => None
                          | Some out' => applyOps from to dims r inp out'
                          end
              end
  end.

Inductive constraint := Consistent | Conservative | ScaledSurface | ScaledVolume.
Definition isConservative (c : constraint) : bool := match c with Conservative => true | _ => false end.
Definition isScaled (c : constraint) : bool := match c with ScaledSurface | ScaledVolume => true | _ => false end.

(** 75-129; the default of the switch is PRECICE_UNREACHABLE *)
Definition knownDims (dims : nat) : bool := (1 <=? dims) && (dims <=? 3).
Definition baryConsistent (dims : nat) (ops : list operation) (inp out : list Q) : option (list Q) :=
  if knownDims dims then applyOps o_in o_out dims ops inp out else None.
Definition baryConservative (dims : nat) (ops : list operation) (inp out : list Q) : option (list Q) :=
  if knownDims dims then applyOps o_out o_in dims ops inp out else None.

(** * Scaling *)
(** mesh/Utils.cpp 11-70 for one component [d]; [len], [area], [vol] are the
    measures of the elements, see below *)
Definition at_ (dims d : nat) (values : list Q) (v : nat) : Q := nth (v * dims + d) values 0%Q.
Definition integrateEdges (len : nat * nat -> Q) (dims d : nat) (values : list Q) (l : list (nat * nat)) : Q :=
  fold_left (fun acc e => (acc + (1 # 2) * len e * (at_ dims d values (fst e) + at_ dims d values (snd e)))%Q) l 0%Q.
Definition integrateTriangles (area : nat * nat * nat -> Q) (dims d : nat) (values : list Q) (l : list (nat * nat * nat)) : Q :=
  fold_left (fun acc t => let '(v1, v2, v3) := t in
    (acc + area t / 3 * (at_ dims d values v1 + at_ dims d values v2 + at_ dims d values v3))%Q) l 0%Q.
Definition integrateTetrahedra (vol : nat * nat * nat * nat -> Q) (dims d : nat) (values : list Q) (l : list (nat * nat * nat * nat)) : Q :=
  fold_left (fun acc t => let '(v1, v2, v3, v4) := t in
    (acc + vol t / 4 * (at_ dims d values v1 + at_ dims d values v2 + at_ dims d values v3 + at_ dims d values v4))%Q) l 0%Q.

(** Mapping.cpp 228-235: factor and scaling *)
Definition scalingFactor (integralInput integralOutput : list Q) : list Q :=
  map2 (fun lhs rhs => if Qeq_bool rhs 0 then 1%Q else (lhs / rhs)%Q) integralInput integralOutput.
Fixpoint scaleValues (dims : nat) (factor : list Q) (k : nat) (values : list Q) : list Q :=
  match values with
  | [] => []
  | x :: r => (x * nth (k mod dims) factor 1)%Q :: scaleValues dims factor (S k) r
  end.

Section Elements.
(** length of an edge, area of a triangle, volume of a tetrahedron: any numbers,
    as the square roots in them are not modelled *)
Variables (len : mesh -> nat * nat -> Q) (area : mesh -> nat * nat * nat -> Q) (vol : mesh -> nat * nat * nat * nat -> Q).

(** mesh/Utils.cpp 11-39 and 41-70 *)
Definition integrateSurface (m : mesh) (dims d : nat) (values : list Q) : Q :=
  if m_dim m =? 2 then integrateEdges (len m) dims d values (m_edges m)
  else integrateTriangles (area m) dims d values (m_tris m).
Definition integrateVolume (m : mesh) (dims d : nat) (values : list Q) : Q :=
  if m_dim m =? 2 then integrateTriangles (area m) dims d values (m_tris m)
  else integrateTetrahedra (vol m) dims d values (m_tets m).
Definition integrals (volumeMode : bool) (m : mesh) (values : list Q) : list Q :=
  let dims := length values / nVertices m in
  map (fun d => if volumeMode then integrateVolume m dims d values else integrateSurface m dims d values) (seq 0 dims).

(** Mapping.cpp 191-214; both meshes have the same dimension *)
Definition hasConnectivity (volumeMode : bool) (m : mesh) : bool :=
  negb (nonempty (m_verts m)) ||
  (if m_dim m =? 2 then (if volumeMode then nonempty (m_tris m) else nonempty (m_edges m))
   else (if volumeMode then nonempty (m_tets m) else nonempty (m_tris m))).

(** Mapping.cpp 176-246; [None]: missing connectivity is reported, or the
    integrals have different sizes *)
Definition scaleConsistentMapping (volumeMode : bool) (inM outM : mesh) (inp out : list Q) : option (list Q) :=
  if (length inp =? 0) || (length out =? 0) then Some out
  else if negb (hasConnectivity volumeMode inM && hasConnectivity volumeMode outM) then None
  else
    let valueDimensions := length inp / nVertices inM in
    let integralInput := integrals volumeMode inM inp in
    let integralOutput := integrals volumeMode outM out in
    if length integralInput =? length integralOutput
    then Some (scaleValues valueDimensions (scalingFactor integralInput integralOutput) 0 out)
    else None.

(** * The mappings: computeMapping and Mapping::map (Mapping.cpp 158-174) *)
Variable closestV : mesh -> list Q -> nat.
Variables closestE closestT : mesh -> list Q -> nat -> list nat.
Variable enclosing : mesh -> list Q -> list nat.

(** which mesh is searched: NearestNeighborBaseMapping.cpp 41-48 etc. *)
Definition originsOf (c : constraint) (inp out : mesh) : mesh := if isConservative c then inp else out.
Definition searchSpaceOf (c : constraint) (inp out : mesh) : mesh := if isConservative c then out else inp.

(** Mapping.cpp 165-171 *)
Definition scaled (c : constraint) (inM outM : mesh) (inp : list Q) (out : option (list Q)) : option (list Q) :=
  match out with
  | None => None
  | Some o =>
      if isScaled c then
        let vm := match c with ScaledVolume => true | _ => false end in
        scaleConsistentMapping vm inM outM inp o
      else Some o
  end.

(** NearestNeighborBaseMapping.cpp 30-70 and Mapping.cpp 158-174 *)
Definition mapNN (c : constraint) (inM outM : mesh) (dims : nat) (inp out : list Q) : option (list Q) :=
  let s := searchSpaceOf c inM outM in
  match vertexIndices (getClosestVertex (closestV s) s) (m_verts (originsOf c inM outM)) with
  | None => None
  | Some indices =>
      if isConservative c then nnConservative dims 0 indices inp out
      else scaled c inM outM inp (nnConsistent dims 0 indices inp out)
  end.

(** NearestNeighborMapping.cpp 29-48: values at, or from, any coordinates; the
    matrices have one column per coordinate *)
Definition mapNNConsistentAt (inM : mesh) (dims : nat) (coordinates : list vertex) (inp values : list Q) : option (list Q) :=
  match vertexIndices (getClosestVertex (closestV inM) inM) coordinates with
  | None => None
  | Some indices => nnConsistent dims 0 indices inp values
  end.
Definition mapNNConservativeAt (outM : mesh) (dims : nat) (coordinates : list vertex) (source target : list Q) : option (list Q) :=
  match vertexIndices (getClosestVertex (closestV outM) outM) coordinates with
  | None => None
  | Some indices => nnConservative dims 0 indices source target
  end.

(** NearestNeighborGradientMapping.cpp 34-87: [gradients] is the list of the
    columns of the matrix *)
Definition offsetsMatched (origins searchSpace : mesh) (indices : list nat) : list (list Q) :=
  map (fun ij => qsub (coordsOf origins (fst ij)) (coordsOf searchSpace (snd ij))) (combine (seq 0 (length indices)) indices).
Fixpoint nngLoop (dims i : nat) (indices : list nat) (offsets : list (list Q)) (inp : list Q) (gradients : list (list Q))
  : option (list Q) :=
  match indices, offsets with
  | [], _ => Some []
  | j :: r, o :: ro =>
      match segment dims j inp with
      | None => None
      | Some c =>
          if j * dims + dims <=? length gradients then
            option_map (app (map (fun d => (nth d c 0 + vdot o (nth (j * dims + d) gradients []))%Q) (seq 0 dims)))
                       (nngLoop dims (S i) r ro inp gradients)
          else None
      end
  | _ :: _, [] => None
  end.
Definition mapNNG (c : constraint) (inM outM : mesh) (dims : nat) (inp : list Q) (gradients : list (list Q)) : option (list Q) :=
  if isConservative c then None else
  match vertexIndices (getClosestVertex (closestV inM) inM) (m_verts outM) with
  | None => None
  | Some indices => scaled c inM outM inp (nngLoop dims 0 indices (offsetsMatched outM inM indices) inp gradients)
  end.

(** NearestProjectionMapping.cpp 81, LinearCellInterpolationMapping.cpp 75 *)
Definition nnearest : nat := 4.
(** NearestProjectionMapping.cpp 45-121, LinearCellInterpolationMapping.cpp 31-120, Mapping.cpp 158-174 *)
Definition mapBary (find : mesh -> list Q -> option polation) (c : constraint) (inM outM : mesh) (dims : nat)
  (inp out : list Q) : option (list Q) :=
  let s := searchSpaceOf c inM outM in
  match collect (find s) 0 (m_verts (originsOf c inM outM)) with
  | None => None
  | Some ops =>
      if isConservative c then baryConservative dims (sortOps ops) inp out
      else scaled c inM outM inp (baryConsistent dims ops inp out)
  end.
Definition npFind (s : mesh) (u : list Q) : option polation :=
  findNearestProjection (closestV s) (closestE s) (closestT s) s u nnearest.
Definition cellFind (s : mesh) (u : list Q) : option polation :=
  findCellOrProjection (closestV s) (closestE s) (closestT s) (enclosing s) s u nnearest.
Definition mapNP := mapBary npFind.
Definition mapCell := mapBary cellFind.
End Elements.
End Tol.
