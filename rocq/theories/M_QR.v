(** The incremental QR factorization of the quasi-Newton accelerations
    (acceleration/impl/QRFactorization.cpp), on values.

    Numbers are the elements of an arbitrary field (S_Field): floating-point rounding is not
    modelled.  A matrix is a function of row and column, a vector a function of the row.  The
    rows are those of all ranks: IntraComm::dot and IntraComm::l2norm sum over the ranks, and
    every rank takes the same decisions. *)
From Coq Require Import List Arith Bool.
From Verif Require Import S_Field.
Import ListNotations.

Section QR.
Variable F : field.
Notation vec := (nat -> F).
Notation mat := (nat -> nat -> F).
(** std::sqrt of the sum of two squares with the sign of the first (computeReflector, lines
    664-666), and IntraComm::l2norm *)
Variable hyp : F -> F -> F.
Variable norm : nat -> vec -> F.
(** rho <= std::numeric_limits<double>::min() (lines 271, 414) *)
Variable tiny : F -> bool.
(** rho1 * theta <= rho0 + omega * norm_coefficients (line 433), from rho1, rho0 and s *)
Variable again : F -> F -> vec -> bool.

(** members _rows (here of all ranks, _globalRows), _cols, _Q, _R *)
Record qr := QR { rows : nat; cols : nat; Qm : mat; Rm : mat }.

Definition setv (v : vec) (i : nat) (x : F) : vec := fun e => if e =? i then x else v e.
Definition setm (m : mat) (i j : nat) (x : F) : mat := fun e c => if (e =? i) && (c =? j) then x else m e c.

(** struct givensRot *)
Record givens := Givens { sigma : F; gamma : F }.
(** computeReflector, lines 653-672: the rotation and the new x and y *)
Definition computeReflector (x y : F) : givens * F * F :=
  if is_zero y then (Givens zero one, x, y)
  else let t := hyp x y in (Givens (div y t) (div x t), t, zero).
(** applyReflector, lines 678-693, on one pair of entries *)
Definition reflect (g : givens) (u v : F) : F * F :=
  let nu := div (sigma g) (add one (gamma g)) in
  let t := add (mul u (gamma g)) (mul v (sigma g)) in
  (t, sub (mul (add t u) nu) v).
(** applyReflector on the rows l and l + 1 of R, columns from .. upto - 1 (lines 213-217, 321-325) *)
Definition reflectRows (g : givens) (l from upto : nat) (m : mat) : mat := fun i j =>
  if (from <=? j) && (j <? upto) then
    if i =? l then fst (reflect g (m l j) (m (S l) j)) else if i =? S l then snd (reflect g (m l j) (m (S l) j)) else m i j
  else m i j.
(** applyReflector on the columns l and l + 1 of Q, all rows (lines 218-222, 326-330) *)
Definition reflectCols (g : givens) (l : nat) (m : mat) : mat := fun e j =>
  if j =? l then fst (reflect g (m e l) (m e (S l))) else if j =? S l then snd (reflect g (m e l) (m e (S l))) else m e j.

(** deleteColumn, loop of lines 210-223: [m] rounds from [l] on *)
Fixpoint deleteLoop (upto m l : nat) (Q R : mat) : mat * mat :=
  match m with
  | O => (Q, R)
  | S m' =>
      let '(g, x, y) := computeReflector (R l (S l)) (R (S l) (S l)) in
      let R := setm (setm R l (S l) x) (S l) (S l) y in
      deleteLoop upto m' (S l) (reflectCols g l Q) (reflectRows g l (S (S l)) upto R)
  end.
(** deleteColumn, lines 200-239; None: the assertions of lines 205-206 *)
Definition deleteColumn (k : nat) (s : qr) : option qr :=
  if k <? cols s then
    let '(Q, R) := deleteLoop (cols s) (cols s - 1 - k) k (Qm s) (Rm s) in
    Some (QR (rows s) (cols s - 1) Q (fun i j => if (k <=? j) && (i <=? j) then R i (S j) else R i j))
  else None.

(** the Fourier coefficients s of one Gram-Schmidt iteration and the vector without its
    projections, lines 375-395 *)
Definition coefficients (n c : nat) (Q : mat) (v : vec) : vec := fun j => if j <? c then fdot n (fun e => Q e j) v else zero.
Definition withoutProjections (n c : nat) (Q : mat) (v : vec) : vec := fun e => sub (v e) (fsum c (fun j => mul (Q e j) (coefficients n c Q v j))).
(** orthogonalize, lines 350-452, with [fuel] iterations left of the 4: the orthonormalized
    vector, r and rho; None: returned -1.  Where the norm is tiny, or the system is quadratic, rho
    is 0 and the vector is not used by the caller. *)
Fixpoint orthogonalize (fuel n c : nat) (Q : mat) (v r : vec) (rho0 : F) : option (vec * vec * F) :=
  let s := coefficients n c Q v in
  let r := fun j => if j <? c then add (r j) (s j) else r j in
  let v := withoutProjections n c Q v in
  let rho1 := norm n v in
  if n =? c then Some (v, r, zero)
  else if tiny rho1 then if again one rho0 s && (fuel =? 1) then None else Some (v, r, zero)
  else if again rho1 rho0 s then
    match fuel with
    | O | 1 => None
    | S fuel' => orthogonalize fuel' n c Q v r rho1
    end
  else Some (fun e => div (v e) rho1, setv r c rho1, rho1).

(** insertColumn, loop of lines 318-331: [m] rounds, the last one with l = k *)
Fixpoint insertLoop (upto m k : nat) (u : vec) (Q R : mat) : vec * mat * mat :=
  match m with
  | O => (u, Q, R)
  | S m' =>
      let l := k + m' in
      let '(g, x, y) := computeReflector (u l) (u (S l)) in
      insertLoop upto m' k (setv (setv u l x) (S l) y) (reflectCols g l Q) (reflectRows g l (S l) upto R)
  end.
(** the matrix R with room for column k, lines 293-305: [c] is the old number of columns *)
Definition makeRoom (c k : nat) (R : mat) : mat := fun i j =>
  if (k <? j) && (i =? j) then zero
  else if (k <? j) && (j <=? c) && (i <? j) then R i (j - 1)
  else if (i =? c) || (j =? c) then zero
  else R i j.
(** insertColumn, lines 242-337.  [drop rho0 rho]: the test of the QR2 filter, line 285 (never true
    without a singularity limit).  The Boolean is the returned one; None: the assertions of lines
    253-255. *)
Definition insertColumn (k : nat) (v : vec) (drop : F -> F -> bool) (s : qr) : option (bool * qr) :=
  if k <=? cols s then
    let rho0 := norm (rows s) v in
    match orthogonalize 4 (rows s) (cols s) (Qm s) v (fun _ => zero) rho0 with
    | None => Some (false, s)
    | Some (v', u, rho) =>
        if tiny rho then Some (false, s)
        else if drop rho0 rho then Some (false, s)
        else
          let c := cols s in
          let R := makeRoom c k (Rm s) in
          let Q := fun e j => if j =? c then v' e else Qm s e j in
          let '(u, Q, R) := insertLoop (S c) (c - k) k u Q R in
          Some (true, QR (rows s) (S c) Q (fun i j => if (j =? k) && (i <=? k) then u i else R i j))
    end
  else None.

Definition never (_ _ : F) : bool := false.
(** pushFront, pushBack, popFront, popBack, lines 798-816 *)
Definition pushFront (v : vec) (s : qr) := insertColumn 0 v never s.
Definition pushBack (v : vec) (s : qr) := insertColumn (cols s) v never s.
Definition popFront (s : qr) := deleteColumn 0 s.
Definition popBack (s : qr) := deleteColumn (cols s - 1) s.

(** the loops of resetFilter (lines 185-192) and of reset (lines 780-788): every column of V is
    inserted behind the ones inserted before (k and _cols agree in reset, assertion of line 794);
    the list has the numbers of the columns that were not inserted. *)
Fixpoint insertAll (drop : F -> F -> bool) (i : nat) (V : list vec) (s : qr) : option (qr * list nat) :=
  match V with
  | [] => Some (s, [])
  | v :: V' =>
      match insertColumn (cols s) v drop s with
      | None => None
      | Some (inserted, s') =>
          match insertAll drop (S i) V' s' with
          | None => None
          | Some (s'', del) => Some (s'', if inserted then del else i :: del)
          end
      end
  end.
Definition empty (n : nat) : qr := QR n 0 (fun _ _ => zero) (fun _ _ => zero).
(** reset(A, ...), lines 757-796, and resetFilter, lines 177-194 *)
Definition reset (n : nat) (drop : F -> F -> bool) (V : list vec) := insertAll drop 0 V (empty n).

(** applyFilter with the QR1 filters, lines 119-147.  [singular R c i]: fabs(R(i,i)) <
    singularityLimit * factor, where the factor may depend on R.  The for loop over the flags
    (line 123): [flags] are the remaining flags, the first of them the one of column [i];
    result: the flags after the loop, the factorization and the new numbers in delIndices. *)
Variable singular : mat -> nat -> nat -> bool.
Fixpoint qr1Round (flags : list bool) (i index : nat) (s : qr) : option (list bool * qr * list nat) :=
  match flags with
  | [] => Some ([], s, [])
  | true :: r =>
      match qr1Round r (S i) index s with None => None | Some (f, s', d) => Some (true :: f, s', d) end
  | false :: r =>
      if cols s <=? index then Some (flags, s, [])
      else if singular (Rm s) (cols s) index then
        match deleteColumn index s with
        | None => None
        | Some s => match qr1Round r (S i) index s with None => None | Some (f, s', d) => Some (true :: f, s', i :: d) end
        end
      else match qr1Round r (S i) (S index) s with None => None | Some (f, s', d) => Some (false :: f, s', d) end
  end.
(** the while loop of line 119: a round that deletes a column is followed by another one (line 135);
    nothing is done with one column or none (line 122) *)
Fixpoint qr1Filter (fuel : nat) (flags : list bool) (s : qr) : option (qr * list nat) :=
  match fuel with
  | O => None
  | S fuel' =>
      if 1 <? cols s then
        match qr1Round flags 0 0 s with
        | None => None
        | Some (flags', s', []) => Some (s', [])
        | Some (flags', s', d) => match qr1Filter fuel' flags' s' with None => None | Some (s'', d') => Some (s'', d ++ d') end
        end
      else Some (s, [])
  end.
Definition applyQR1 (s : qr) : option (qr * list nat) := qr1Filter (S (cols s)) (repeat false (cols s)) s.

(** R c = b with an upper triangular R by backward substitution (IQNILSAcceleration::computeQNUpdate,
    R.triangularView<Upper>().solve): the entries [k .. c - 1] of the solution, starting with the last *)
Fixpoint backSubstitution (c m : nat) (R : mat) (b : vec) : vec :=
  match m with
  | O => fun _ => zero
  | S m' =>
      let x := backSubstitution c m' R b in
      let i := c - 1 - m' in
      setv x i (div (sub (b i) (fsum c (fun j => if i <? j then mul (R i j) (x j) else zero))) (R i i))
  end.
Definition solveUpper (c : nat) (R : mat) (b : vec) : vec := backSubstitution c c R b.
End QR.
Arguments QR {_}. Arguments rows {_}. Arguments cols {_}. Arguments Qm {_}. Arguments Rm {_}.
Arguments setv {_}. Arguments setm {_}. Arguments Givens {_}. Arguments sigma {_}. Arguments gamma {_}. Arguments computeReflector {_}.
Arguments reflect {_}. Arguments reflectRows {_}. Arguments reflectCols {_}. Arguments deleteLoop {_}. Arguments deleteColumn {_}.
Arguments coefficients {_}. Arguments withoutProjections {_}. Arguments orthogonalize {_}. Arguments insertLoop {_}. Arguments makeRoom {_}.
Arguments insertColumn {_}. Arguments never {_}. Arguments pushFront {_}. Arguments pushBack {_}. Arguments popFront {_}. Arguments popBack {_}.
Arguments insertAll {_}. Arguments empty {_}. Arguments reset {_}. Arguments qr1Round {_}. Arguments qr1Filter {_}. Arguments applyQR1 {_}.
Arguments backSubstitution {_}. Arguments solveUpper {_}.
