(** The updated truncated singular value decomposition of the RS-SVD restart of IQN-IMVJ
    (acceleration/impl/SVDFactorization.cpp and SVDFactorization.hpp), on values.

    Numbers are the elements of an arbitrary field (S_Field): floating-point rounding is not
    modelled.  A matrix is a function of row and column; its numbers of rows and columns are passed
    along.  The rows are those of all ranks: IntraComm::dot, IntraComm::l2norm and
    ParallelMatrixOperations::multiply sum over the ranks, and every rank takes the same decisions.
    The preconditioner is applied by the caller (M_Imvj). *)
From Coq Require Import List Arith Bool.
From Verif Require Import S_Field M_QR.
Import ListNotations.

Section SVD.
Variable F : field.
Notation vec := (nat -> F).
Notation mat := (nat -> nat -> F).
(** IntraComm::l2norm; None: the norm is not a number of the field, which in the code is an overflow
    or a rounding *)
Variable norm : nat -> vec -> option F.
(** rho_orth <= std::numeric_limits<double>::min() (SVDFactorization.cpp line 152) *)
Variable tiny : F -> bool.
(** rho_orth * theta <= rho0 + omega * norm_coefficients (line 170), from rho_orth, rho0 and s *)
Variable again : F -> F -> vec -> bool.
(** the test of the QR2 filter, line 186, from rho00 and rho_orth; never true unless
    setApplyFilterQR was called *)
Variable drop : F -> F -> bool.

(** SVDFactorization.cpp, lines 120-183, the loop that orthogonalizes col, with [fuel] iterations left
    of the 4: whether orthogonalized, col, r and rho_orth *)
Fixpoint gramSchmidt (fuel n c : nat) (Q : mat) (col r : vec) (rho0 : F) : option (bool * vec * vec * F) :=
  let s := coefficients n c Q col in
  let r := fun j => if j <? c then add (r j) (s j) else r j in
  let col := withoutProjections n c Q col in
  match norm n col with
  | None => None
  | Some rho =>
      if tiny rho then Some (false, col, r, rho)
      else if again rho rho0 s then
        match fuel with
        | O | 1 => Some (false, col, r, rho)
        | S fuel' => gramSchmidt fuel' n c Q col r rho
        end
      else Some (true, col, r, rho)
  end.

(** SVDFactorization.cpp, lines 93-218, the loop over the columns of A: [m] columns from column [j]
    on are left; [c] is colsQ, which is rowsR.  The Boolean is false if the loop was left by the
    return of line 105. *)
Fixpoint qrColumns (n : nat) (A : mat) (m j c : nat) (Q R : mat) : option (bool * nat * mat * mat) :=
  match m with
  | O => Some (true, c, Q, R)
  | S m' =>
      if n =? j then Some (false, c, Q, R)
      else
        match norm n (fun e => A e j) with
        | None => None
        | Some rho00 =>
            match gramSchmidt 4 n c Q (fun e => A e j) (fun _ => zero) rho00 with
            | None => None
            | Some (orthogonalized, col, r, rho) =>
                if orthogonalized && negb (drop rho00 rho) then
                  qrColumns n A m' (S j) (S c) (fun e i => if i =? c then div (col e) rho else Q e i)
                    (fun i l => if l =? j then setv r c rho i else R i l)
                else
                  (* lines 193-217: the column is inserted and deleted again, the row of R is zeroed *)
                  qrColumns n A m' (S j) c (fun e i => if i =? c then zero else Q e i)
                    (fun i l => if i =? c then zero else if l =? j then r i else R i l)
            end
        end
  end.
(** computeQRdecomposition, lines 75-222, for a matrix with [n] rows and [m] columns: the number of
    columns of Q and rows of R, Q and R.  After the return of line 105 the matrices are not shrunk. *)
Definition computeQRdecomposition (n m : nat) (A : mat) : option (nat * mat * mat) :=
  match qrColumns n A m 0 0 (fun _ _ => zero) (fun _ _ => zero) with
  | None => None
  | Some (all, c, Q, R) => Some (if all : bool then c else m, Q, R)
  end.

(** Eigen::JacobiSVD<Matrix>(K, ComputeThinU | ComputeThinV) of a matrix with the given numbers of
    rows and columns: matrixU, singularValues and matrixV; None: no decomposition found, which the code
    does not check *)
Variable jacobiSVD : nat -> nat -> mat -> option (mat * vec * mat).
(** _sigma(i) < _sigma(0) * _truncationEps (SVDFactorization.hpp, line 157), from _sigma(i) and
    _sigma(0) *)
Variable below : F -> F -> bool.

(** members _psi, _sigma, _phi, _cols, _waste, _initialSVD *)
Record svd := SVD { s_psi : mat; s_sigma : vec; s_phi : mat; s_cols : nat; s_waste : nat; s_init : bool }.
(** a new object, SVDFactorization.hpp, members *)
Definition created : svd := SVD (fun _ _ => zero) (fun _ => zero) (fun _ _ => zero) 0 0 false.
(** reset, SVDFactorization.cpp lines 66-73: _waste is kept, and so is _cols until the next update *)
Definition resetSVD (s : svd) : svd := SVD (fun _ _ => zero) (fun _ => zero) (fun _ _ => zero) (s_cols s) (s_waste s) false.

(** SVDFactorization.hpp, lines 83 and 87, 97 and 99: Atil and Ptil, Btil and Qtil *)
Definition inside (n : nat) (Q A : mat) : mat := fun i j => fdot n (fun e => Q e i) (fun e => A e j).
Definition outside (n k : nat) (Q A : mat) : mat := fun e j => sub (A e j) (fsum k (fun i => mul (Q e i) (inside n Q A i j))).
(** SVDFactorization.hpp, lines 122-125: K_A and K_B, two blocks of rows *)
Definition stacked (k : nat) (up low : mat) : mat := fun i j => if i <? k then up i j else low (i - k) j.
(** SVDFactorization.hpp, lines 140-143: rotLeft and rotRight, two blocks of columns *)
Definition beside (k : nat) (left right : mat) : mat := fun e i => if i <? k then left e i else right e (i - k).
(** SVDFactorization.hpp, lines 115-126: the matrix K *)
Definition coreMatrix (k m : nat) (sigma : vec) (KA KB : mat) : mat := fun i j =>
  add (if (i =? j) && (i <? k) then sigma i else zero) (fsum m (fun l => mul (KA i l) (KB j l))).
(** SVDFactorization.hpp, lines 146-147 *)
Definition rotated (k : nat) (Q U : mat) : mat := fun e i => fsum k (fun l => mul (Q e l) (U l i)).
(** SVDFactorization.hpp, lines 153-162: _cols after the truncation, [m] values from [i] on are left *)
Fixpoint truncation (sigma : vec) (m i : nat) : nat :=
  match m with
  | O => i
  | S m' => if below (sigma i) (sigma 0) then i else truncation sigma m' (S i)
  end.

(** update, SVDFactorization.hpp lines 51-172, with A of [nA] rows and [mA] columns and B of [nB] rows
    and [mB] columns.  The numbers of rows never change (assertions of lines 65-66).  None: the
    numbers of columns differ (assertion of line 68, afterwards the one of the product in line 126),
    no column is left, so that _sigma(0) does not exist (line 168), or a norm or the decomposition
    is not available. *)
Definition update (nA nB : nat) (mA mB : nat) (A B : mat) (s : svd) : option svd :=
  if negb (mA =? mB) then None
  else
    let '(psi, sigma, phi, k) := if s_init s then (s_psi s, s_sigma s, s_phi s, s_cols s) else ((fun _ _ => zero), (fun _ => zero), (fun _ _ => zero), 0) in
    let Atil := inside nA psi A in
    let Btil := inside nB phi B in
    match computeQRdecomposition nA mA (outside nA k psi A), computeQRdecomposition nB mB (outside nB k phi B) with
    | Some (a, P, RA), Some (b, Q, RB) =>
        match jacobiSVD (k + a) (k + b) (coreMatrix k mA sigma (stacked k Atil RA) (stacked k Btil RB)) with
        | None => None
        | Some (U, sigma', V) =>
            let r := Nat.min (k + a) (k + b) in
            let cols := truncation sigma' r 0 in
            if cols =? 0 then None
            else Some (SVD (rotated (k + a) (beside k psi P) U) sigma' (rotated (k + b) (beside k phi Q) V) cols (s_waste s + (r - cols)) true)
        end
    | _, _ => None
    end.

(** getWaste, SVDFactorization.cpp lines 282-287 *)
Definition getWaste (s : svd) : nat * svd := (s_waste s, SVD (s_psi s) (s_sigma s) (s_phi s) (s_cols s) 0 (s_init s)).

(** restartIMVJ, IQNIMVJAcceleration.cpp lines 456-460: one update per pair *)
Fixpoint updates (nA nB : nat) (l : list (nat * nat * mat * mat)) (s : svd) : option svd :=
  match l with
  | [] => Some s
  | (mA, mB, A, B) :: l' => match update nA nB mA mB A B s with None => None | Some s' => updates nA nB l' s' end
  end.
(** IQNIMVJAcceleration.cpp, lines 476-479: the matrix Z *)
Definition scaledPhi (s : svd) : mat := fun i j => mul (s_phi s j i) (s_sigma s i).
(** IQNIMVJAcceleration.cpp, lines 486-487: the pair that replaces all the others *)
Definition chunk (s : svd) : list vec * list vec := (map (fun i e => s_psi s e i) (seq 0 (s_cols s)), map (fun i j => scaledPhi s i j) (seq 0 (s_cols s))).
End SVD.
Arguments gramSchmidt {_}. Arguments qrColumns {_}. Arguments computeQRdecomposition {_}.
Arguments SVD {_}. Arguments s_psi {_}. Arguments s_sigma {_}. Arguments s_phi {_}. Arguments s_cols {_}. Arguments s_waste {_}. Arguments s_init {_}.
Arguments created {_}. Arguments resetSVD {_}. Arguments inside {_}. Arguments outside {_}. Arguments stacked {_}. Arguments beside {_}.
Arguments coreMatrix {_}. Arguments rotated {_}. Arguments truncation {_}. Arguments update {_}. Arguments updates {_}. Arguments scaledPhi {_}. Arguments getWaste {_}. Arguments chunk {_}.
