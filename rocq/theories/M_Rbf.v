(** Radial-basis-function mappings.

    Models src/mapping/RadialBasisFctSolver.hpp and RadialBasisFctMapping.hpp.

    Simplifications:
    - numbers are rationals; a radial function is a function [phi] of the squared
      distance (std::sqrt is part of [phi]);
    - the matrix decompositions of Eigen are parameters: [solveC] of the
      interpolation matrix, [lsq] and [tsolve] of the polynomial matrix
      (colPivHouseholderQr().solve and transpose().solve); what they satisfy is
      stated in S_Rbf.v;
    - several components are mapped one by one;
    - cross validation (off in the code) and the GPU solvers are left out. *)
From Coq Require Import List Arith Bool QArith.
Import ListNotations.
Open Scope Q_scope.

Definition vec := list Q.
Definition at_ (v : vec) (i : nat) : Q := nth i v 0.
Fixpoint sumn (n : nat) (f : nat -> Q) : Q := match n with O => 0 | S m => sumn m f + f m end.

(** Eigen::MatrixXd *)
Record matrix := Mx { m_rows : nat; m_cols : nat; m_at : nat -> nat -> Q }.
Definition transpose (m : matrix) : matrix := Mx (m_cols m) (m_rows m) (fun i j => m_at m j i).
Definition mul (m : matrix) (v : vec) : vec :=
  map (fun i => sumn (m_cols m) (fun j => m_at m i j * at_ v j)) (seq 0 (m_rows m)).
Definition zipWith (f : Q -> Q -> Q) (a b : vec) : vec := map (fun p => f (fst p) (snd p)) (combine a b).
Definition vadd := zipWith Qplus.
Definition vsub := zipWith Qminus.
Definition vneg : vec -> vec := map Qopp.

(** Vertex::rawCoords, three coordinates *)
Record vertex := Vx { v_x : Q; v_y : Q; v_z : Q }.
Definition coord (d : nat) (v : vertex) : Q := match d with O => v_x v | S O => v_y v | _ => v_z v end.
Definition origin : vertex := Vx 0 0 0.

(** std::array<bool, 3> activeAxis, as the list of the active axes *)
Definition axes := list nat.
(** RadialBasisFctSolver.hpp 349-351; [dead] has an entry per dimension of the mesh *)
Definition activeAxes (dead : list bool) : axes := filter (fun d => negb (nth d dead true)) (seq 0 3).

(** computeSquaredDifference, 98-109 *)
Definition sqdiff (ax : axes) (u v : vertex) : Q :=
  fold_right (fun d s => (coord d u - coord d v) * (coord d u - coord d v) + s) 0 ax.
(** a row of fillPolynomialEntries, 138-161 *)
Definition poly (ax : axes) (u : vertex) : vec := 1 :: map (fun d => coord d u) ax.

Inductive polynomial := ON | OFF | SEPARATE.
Definition isOn (p : polynomial) : bool := match p with ON => true | _ => false end.

Section Rbf.
Variable phi : Q -> Q.
Definition vtx (m : list vertex) (i : nat) : vertex := nth i m origin.

(** number of polynomial parameters inside the matrix, 169-171 *)
Definition polyparams (ax : axes) (p : polynomial) : nat := if isOn p then S (length ax) else 0.
(** the upper part of buildMatrixCLU, 183-207 *)
Definition upperC (ax : axes) (m : list vertex) (i j : nat) : Q :=
  if (j <? length m)%nat then phi (sqdiff ax (vtx m i) (vtx m j))
  else if (i <? length m)%nat then at_ (poly ax (vtx m i)) (j - length m) else 0.
(** buildMatrixCLU: the lower part is copied from the upper one, 208 *)
Definition matrixC (ax : axes) (p : polynomial) (m : list vertex) : matrix :=
  Mx (length m + polyparams ax p) (length m + polyparams ax p)
     (fun i j => if (i <=? j)%nat then upperC ax m i j else upperC ax m j i).
(** buildMatrixA, 212-245 *)
Definition matrixA (ax : axes) (p : polynomial) (m out : list vertex) : matrix :=
  Mx (length out) (length m + polyparams ax p)
     (fun i j => if (j <? length m)%nat then phi (sqdiff ax (vtx out i) (vtx m j))
                 else at_ (poly ax (vtx out i)) (j - length m)).
(** _matrixQ, _matrixV, 387-388, 410-411 *)
Definition matrixP (ax : axes) (m : list vertex) : matrix :=
  Mx (length m) (S (length ax)) (fun i k => at_ (poly ax (vtx m i)) k).

(** reduceActiveAxis, 111-135: the axis in which the mesh extends least is
    disabled (std::sort; the first one if several extend equally) *)
Definition lowest (f : vertex -> Q) (m : list vertex) : Q :=
  match m with [] => 0 | v :: r => fold_left (fun a w => if Qle_bool a (f w) then a else f w) r (f v) end.
Definition highest (f : vertex -> Q) (m : list vertex) : Q :=
  match m with [] => 0 | v :: r => fold_left (fun a w => if Qle_bool (f w) a then a else f w) r (f v) end.
Definition extent (m : list vertex) (d : nat) : Q := highest (coord d) m - lowest (coord d) m.
Definition smallest (m : list vertex) (ax : axes) : option nat :=
  match ax with
  | [] => None
  | d :: r => Some (fold_left (fun a b => if Qle_bool (extent m a) (extent m b) then a else b) r d)
  end.
Definition reduceActiveAxis (m : list vertex) (ax : axes) : axes :=
  match smallest m ax with None => ax | Some d => filter (fun a => negb (a =? d)%nat) ax end.
(** the loop 384-407; [ill] is conditionNumber > 1e5.  There are at most three
    axes; for a single constant the condition number is 1 *)
Fixpoint localAxes (ill : axes -> bool) (m : list vertex) (fuel : nat) (ax : axes) : axes :=
  match fuel with
  | O => ax
  | S k => if ill ax then localAxes ill m k (reduceActiveAxis m ax) else ax
  end.

(** the solver object; [s_local]: _localActiveAxis *)
Record solver := Solver { s_in : list vertex; s_out : list vertex; s_axes : axes; s_local : axes; s_poly : polynomial;
                          s_solveC : vec -> vec; s_lsq : vec -> vec; s_tsolve : vec -> vec }.
Definition s_C (s : solver) : matrix := matrixC (s_axes s) (s_poly s) (s_in s).
Definition s_A (s : solver) : matrix := matrixA (s_axes s) (s_poly s) (s_in s) (s_out s).
Definition s_Q (s : solver) : matrix := matrixP (s_local s) (s_in s).
Definition s_V (s : solver) : matrix := matrixP (s_local s) (s_out s).

(** solveConservative, 419-442 *)
Definition solveConservative (s : solver) (inputData : vec) : vec :=
  let out := s_solveC s (mul (transpose (s_A s)) inputData) in
  match s_poly s with
  | SEPARATE =>
      let eps := vsub (mul (transpose (s_V s)) inputData) (mul (transpose (s_Q s)) out) in
      vsub out (s_tsolve s (vneg eps))
  | _ => out
  end.
(** solveConsistent, 445-473 *)
Definition solveConsistent (s : solver) (inputData : vec) : vec :=
  match s_poly s with
  | SEPARATE =>
      let c := s_lsq s inputData in
      let p := s_solveC s (vsub inputData (mul (s_Q s) c)) in
      vadd (mul (s_A s) p) (mul (s_V s) c)
  | _ => mul (s_A s) (s_solveC s inputData)
  end.

(** RadialBasisFctMapping::mapConsistent in serial, lines 325-390: the entries
    of the polynomial are zero *)
Definition mapConsistent (s : solver) (values : vec) : vec :=
  solveConsistent s (values ++ repeat 0 (polyparams (s_axes s) (s_poly s))).
(** mapConservative in serial, 226-280: the entries of the polynomial are cut off *)
Definition mapConservative (s : solver) (values : vec) : vec :=
  firstn (length (s_in s)) (solveConservative s values).

(** ** Parallel: the first rank gathers, solves and scatters.
    A rank holds vertices of the mesh the interpolant lives on, with a flag
    that says whether it owns them, and vertices of the other mesh *)
Record rankData := RankData { r_in : list (vertex * bool); r_out : list vertex; r_values : vec }.
(** mesh::filterMesh with isOwner *)
Definition ownedMesh (r : rankData) : list vertex := map fst (filter snd (r_in r)).
(** globalInMesh, globalOutMesh, 110-150 *)
Definition globalIn (rs : list rankData) : list vertex := concat (map ownedMesh rs).
Definition globalOut (rs : list rankData) : list vertex := concat (map r_out rs).
(** Mesh::getOwnedVertexData *)
Definition ownedData (r : rankData) : vec := map snd (filter (fun p => snd (fst p)) (combine (r_in r) (r_values r))).
(** the pieces of the result that are sent to the ranks, 279-284, 376-384 *)
Fixpoint pieces {A} (sizes : list nat) (l : list A) : list (list A) :=
  match sizes with [] => [] | n :: r => firstn n l :: pieces r (skipn n l) end.
(** mapConsistent in parallel, 305-388; [N] is getGlobalNumberOfVertices of the
    input mesh.  [None]: the block 367 exceeds the matrix (an assertion of Eigen
    in debug builds, memory is overwritten in release builds) *)
Definition mapConsistentParallel (s : solver) (N : nat) (rs : list rankData) : option (list vec) :=
  let gathered := concat (map ownedData rs) in
  let rows := m_cols (s_C s) in
  if (rows <? N)%nat || (N <? length gathered)%nat then None
  else Some (pieces (map (fun r => length (r_out r)) rs)
              (solveConsistent s (firstn rows (gathered ++ repeat 0 (N - length gathered) ++ repeat 0 (rows - N))))).
(** values for the owned vertices, the others keep theirs (267-277, 289-300) *)
Fixpoint putOwned (vs : list (vertex * bool)) (old new : vec) : vec :=
  match vs, old with
  | (_, true) :: r, o :: os => match new with n :: ns => n :: putOwned r os ns | [] => o :: putOwned r os [] end
  | (_, false) :: r, o :: os => o :: putOwned r os new
  | _, _ => []
  end.
(** mapConservative in parallel, 203-302; here [r_out] and [r_values] are the
    input mesh and its data, [r_in] is the output mesh, its data are zero before;
    [N] is getGlobalNumberOfVertices of the output mesh *)
Definition mapConservativeParallel (s : solver) (N : nat) (rs : list rankData) : option (list vec) :=
  let gathered := concat (map r_values rs) in
  if (m_cols (s_C s) <? N)%nat then None
  else
    let out := firstn N (solveConservative s gathered) in
    Some (map (fun p => putOwned (r_in (fst p)) (repeat 0 (length (r_in (fst p)))) (snd p))
           (combine rs (pieces (map (fun r => length (ownedMesh r)) rs) out))).
End Rbf.
