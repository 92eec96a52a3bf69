(** The columns of quasi-Newton acceleration.

    Models what acceleration/BaseQNAcceleration.cpp and IQNILSAcceleration.cpp do with the
    matrices V and W, the factorization of V and the numbers of columns per window:
    BaseQNAcceleration.cpp 111-114 (initialize), 266-356 (updateDifferenceMatrices),
    364-557 (performAcceleration), 559-579 (applyFilter), 617-713 (iterationsConverged),
    721-747 (removeMatrixColumn), 769-781 (getLSSystemCols), 877-936
    (initializeVectorsAndPreconditioner); IQNILSAcceleration.cpp 52-123;
    impl/QRFactorization.cpp 109-207 (filters), 236-337 (insertColumn), 718-726 and 750-790
    (reset), 792-810 (pushFront, popBack); utils/EigenHelperFunctions.cpp 12-50.

    A column is represented by the window and the iteration it comes from; what the
    factorization decides from the numbers (whether a column can be inserted, whether the
    preconditioner was changed, which columns a filter deletes) is an input of each call.
    The rank has vertices at the interface.  [None] is a failing assertion or an access out
    of range. *)
From Coq Require Import Bool List Arith.
Import ListNotations.

(** (window, iteration) in which a column was added *)
Definition column := (nat * nat)%type.

(** acceleration/Acceleration.hpp: NOFILTER, QR1FILTER and QR1FILTER_ABS, QR2FILTER, QR3FILTER *)
Inductive filterType := NoFilter | QR1 | QR2 | QR3.
(** the configuration and the number of primary unknowns (getPrimaryLSSystemRows) *)
Record config := Config {
  c_max : nat;      (* _maxIterationsUsed *)
  c_reused : nat;   (* _timeWindowsReused *)
  c_force : bool;   (* _forceInitialRelaxation *)
  c_filter : filterType;
  c_rows : nat }.

(** the members of BaseQNAcceleration; [q_fallback] is QRFactorization::_computeQR2Filter;
    [q_window] and [q_iteration] count for the sake of the columns' names *)
Record qn := QN {
  q_cols : list nat; q_V : list column; q_W : list column; q_qr : list column; q_fallback : bool;
  q_colsBackup : list nat; q_VBackup : list column; q_WBackup : list column;
  q_firstIteration : bool; q_firstWindow : bool;
  q_window : nat; q_iteration : nat }.

(** the decisions of one call *)
Record decisions := Decisions {
  o_insert : bool;              (* the new column can be inserted at the front of the factorization *)
  o_newQR : bool;               (* _preconditioner->requireNewQR() *)
  o_restore : nat -> bool;      (* column can be inserted when the factorization is restored, 430 *)
  o_reset : nat -> bool;        (* column can be inserted when the factorization is reset, 453 *)
  o_keep : nat -> bool;         (* column passes the filter *)
  o_rebuild : bool }.           (* QR3: a diagonal element is too small *)

Fixpoint sum (l : list nat) : nat := match l with [] => 0 | n :: r => n + sum r end.

(** getLSSystemCols 769-781 *)
Definition getLSSystemCols (s : qn) : option nat :=
  let cols := sum (q_cols s) in
  if (cols =? length (q_V s)) && (cols =? length (q_W s)) then Some cols else None.

(** EigenHelperFunctions.cpp 12-21, 42-50 *)
Definition shiftSetFirst {A} (v : A) (m : list A) : option (list A) := match m with [] => None | _ => Some (v :: removelast m) end.
Definition removeColumnFromMatrix {A} (col : nat) (m : list A) : option (list A) :=
  if col <? length m then Some (firstn col m ++ skipn (S col) m) else None.

(** insertColumn 236-337: false if the system is quadratic *)
Definition insertable (rows : nat) (decision : bool) (qr : list column) : bool := decision && negb (length qr =? rows).
(** popBack 806-810 *)
Definition popBack (qr : list column) : option (list column) := match qr with [] => None | _ => Some (removelast qr) end.
(** reset 769-781 and resetFilter 178-196: insert one column after the other at the back;
    the factorization and the indices of the columns that failed *)
Fixpoint insertAll (rows : nat) (decision : nat -> bool) (i : nat) (V : list column) (qr : list column) : list column * list nat :=
  match V with
  | [] => (qr, [])
  | v :: r =>
      if insertable rows (decision i) qr then insertAll rows decision (S i) r (qr ++ [v])
      else let '(q, failed) := insertAll rows decision (S i) r qr in (q, i :: failed)
  end.

(** [_matrixCols.front()++] *)
Definition frontIncrement (l : list nat) : option (list nat) := match l with [] => None | n :: r => Some (S n :: r) end.
(** [_matrixCols.back()--; if (_matrixCols.back() == 0) _matrixCols.pop_back();] *)
Fixpoint backDecrement (l : list nat) : option (list nat) :=
  match l with
  | [] => None
  | [n] => match n with O => None | S O => Some [] | S m => Some [m] end
  | n :: r => match backDecrement r with None => None | Some q => Some (n :: q) end
  end.

Definition setMatrices (s : qn) (cols : list nat) (V W qr : list column) : qn :=
  QN cols V W qr (q_fallback s) (q_colsBackup s) (q_VBackup s) (q_WBackup s) (q_firstIteration s) (q_firstWindow s) (q_window s) (q_iteration s).
Definition setFallback (s : qn) (b : bool) : qn :=
  QN (q_cols s) (q_V s) (q_W s) (q_qr s) b (q_colsBackup s) (q_VBackup s) (q_WBackup s) (q_firstIteration s) (q_firstWindow s) (q_window s) (q_iteration s).

(** updateDifferenceMatrices 283-355 *)
Definition updateDifferenceMatrices (c : config) (o : decisions) (s : qn) : option qn :=
  if q_firstIteration s then Some s
  else
    match getLSSystemCols s with
    | None => None
    | Some n =>
        if negb (length (q_V s) =? length (q_W s)) || negb (n <=? c_max c) then None
        else
          let v := (q_window s, q_iteration s) in
          let inserted := insertable (c_rows c) (o_insert o) (q_qr s) in
          let pushed := if inserted then v :: q_qr s else q_qr s in
          let s' := setFallback s (q_fallback s || negb inserted) in
          match frontIncrement (q_cols s) with
          | None => None
          | Some cols =>
              if negb (n =? c_max c) && (n <=? c_rows c) then Some (setMatrices s' cols (v :: q_V s) (v :: q_W s) pushed)
              else
                match shiftSetFirst v (q_V s), shiftSetFirst v (q_W s), popBack pushed, backDecrement cols with
                | Some V, Some W, Some qr, Some cols' => Some (setMatrices s' cols' V W qr)
                | _, _, _, _ => None
                end
          end
    end.

(** the loop of removeMatrixColumn 733-746 *)
Fixpoint reduceCount (cols : nat) (columnIndex : nat) (l : list nat) : list nat :=
  match l with
  | [] => []
  | n :: r => if columnIndex <? cols + n then (if n =? 1 then r else pred n :: r) else n :: reduceCount (cols + n) columnIndex r
  end.
(** removeMatrixColumn 721-747, IQNILSAcceleration.cpp 125-130 *)
Definition removeMatrixColumn (i : nat) (s : qn) : option qn :=
  if length (q_V s) <=? 1 then None
  else
    match removeColumnFromMatrix i (q_V s), removeColumnFromMatrix i (q_W s) with
    | Some V, Some W => Some (setMatrices s (reduceCount 0 i (q_cols s)) V W (q_qr s))
    | _, _ => None
    end.
Fixpoint removeMatrixColumns (is : list nat) (s : qn) : option qn :=
  match is with [] => Some s | i :: r => match removeMatrixColumn i s with None => None | Some s' => removeMatrixColumns r s' end end.

(** [PRECICE_ASSERT(_matrixV.cols() == _qrV.cols())] *)
Definition checkColumns (s : qn) : option qn := if length (q_V s) =? length (q_qr s) then Some s else None.

(** 451-464 and 417-438: recompute the factorization, remove the columns that failed, in
    the order in which they failed *)
Definition resetQR (c : config) (decision : nat -> bool) (s : qn) : option qn :=
  let '(qr, failed) := insertAll (c_rows c) decision 0 (q_V s) [] in
  match removeMatrixColumns failed (setMatrices s (q_cols s) (q_V s) (q_W s) qr) with
  | None => None
  | Some s' => checkColumns s'
  end.

(** QRFactorization::applyFilter 109-172: the indices of the columns to delete and the
    factorization without them *)
Definition keptColumns (keep : nat -> bool) (qr : list column) : list column :=
  map snd (filter (fun q => keep (fst q)) (combine (seq 0 (length qr)) qr)).
Definition qrFilter (c : config) (o : decisions) (s : qn) : option (list column * list nat) :=
  match c_filter c with
  | NoFilter => Some (q_qr s, [])
  | QR1 => Some (if length (q_qr s) <=? 1 then (q_qr s, [])
                 else (keptColumns (o_keep o) (q_qr s), filter (fun i => negb (o_keep o i)) (seq 0 (length (q_qr s)))))
  | QR2 => Some (insertAll (c_rows c) (o_keep o) 0 (q_V s) [])
  | QR3 =>
      (* [size_t i = cols() - 1] with no columns, 151-153, and columns of V that do not exist *)
      if (length (q_qr s) =? 0) || (1 <? length (q_qr s)) && (length (q_V s) <? length (q_qr s)) then None
      else if q_fallback s || o_rebuild o then Some (insertAll (c_rows c) (o_keep o) 0 (q_V s) [])
      else Some (q_qr s, [])
  end.
(** applyFilter 559-579; QR3 clears its flag *)
Definition applyFilter (c : config) (o : decisions) (s : qn) : option qn :=
  match c_filter c with
  | NoFilter => Some s
  | _ =>
      match qrFilter c o s with
      | None => None
      | Some (qr, del) =>
          match removeMatrixColumns (rev del) (setMatrices s (q_cols s) (q_V s) (q_W s) qr) with
          | None => None
          | Some s' => checkColumns (setFallback s' (match c_filter c with QR3 => false | _ => q_fallback s' end))
          end
      end
  end.

Definition isQR23 (f : filterType) : bool := match f with QR2 | QR3 => true | _ => false end.
Definition isQR3 (f : filterType) : bool := match f with QR3 => true | _ => false end.

(** initializeVectorsAndPreconditioner 877-879, 935 *)
Definition initializeMatrices (s : qn) : qn :=
  if q_firstWindow s && q_firstIteration s then setMatrices s (q_cols s) [] [] [] else s.

Definition nextIteration (s : qn) : qn :=
  QN (q_cols s) (q_V s) (q_W s) (q_qr s) (q_fallback s) (q_colsBackup s) (q_VBackup s) (q_WBackup s) false (q_firstWindow s) (q_window s) (S (q_iteration s)).

(** 417-438 *)
Definition restoreBackup (c : config) (o : decisions) (s : qn) : option qn :=
  if q_firstWindow s then Some s
  else
    match getLSSystemCols s with
    | None => None
    | Some n =>
        if (n <? 1) && (c_reused c =? 0) && negb (c_force c)
        then resetQR c (o_restore o) (setMatrices s (q_colsBackup s) (q_VBackup s) (q_WBackup s) (q_qr s))
        else Some s
    end.
(** 451-464 *)
Definition newQR (c : config) (o : decisions) (s : qn) : option qn :=
  if o_newQR o then
    match (if isQR23 (c_filter c) then Some s else resetQR c (o_reset o) s) with
    | None => None
    | Some s' => Some (setFallback s' (q_fallback s' || isQR3 (c_filter c)))
    end
  else Some s.
(** IQNILSAcceleration::computeQNUpdate 84-98 *)
Definition computeQNUpdate (s : qn) : option qn :=
  match getLSSystemCols s with None => None | Some n => if length (q_qr s) =? n then Some s else None end.
(** 518-541 *)
Definition pendingDeletion (c : config) (s : qn) : option qn :=
  if q_firstIteration s && (c_reused c =? 0) && negb (c_force c) then
    match getLSSystemCols s with
    | None => None
    | Some n =>
        let s' := if 0 <? n then QN (q_cols s) (q_V s) (q_W s) (q_qr s) (q_fallback s) (q_cols s) (q_V s) (q_W s)
                                    (q_firstIteration s) (q_firstWindow s) (q_window s) (q_iteration s) else s in
        Some (if q_firstWindow s then s' else setMatrices s' [0] [] [] [])
    end
  else Some s.

Definition bind {A B} (a : option A) (f : A -> option B) : option B := match a with None => None | Some x => f x end.

(** performAcceleration 364-557 *)
Definition performAcceleration (c : config) (o : decisions) (s : qn) : option qn :=
  bind (updateDifferenceMatrices c o (initializeMatrices s)) (fun s =>
  if q_firstIteration s && (q_firstWindow s || c_force c) then Some (nextIteration s)
  else
    bind (restoreBackup c o s) (fun s =>
    bind (newQR c o s) (fun s =>
    bind (applyFilter c o s) (fun s =>
    bind (computeQNUpdate s) (fun s =>
    bind (pendingDeletion c s) (fun s => Some (nextIteration s))))))).

(** 649-651 and IQNILSAcceleration.cpp 117-122 *)
Definition popZeroFront (l : list nat) : list nat := match l with O :: r => r | _ => l end.
(** 701-707 *)
Fixpoint dropBack (n : nat) (V W qr : list column) : option (list column * list column * list column) :=
  match n with
  | O => Some (V, W, qr)
  | S m =>
      match removeColumnFromMatrix (length V - 1) V, removeColumnFromMatrix (length W - 1) W, popBack qr with
      | Some V', Some W', Some qr' => dropBack m V' W' qr'
      | _, _, _ => None
      end
  end.
(** 678-709 *)
Definition dropOldWindows (c : config) (s : qn) : option qn :=
  if c_reused c =? 0 then Some (if c_force c then setMatrices s [] [] [] [] else s)
  else if c_reused c <? length (q_cols s) then
    let toRemove := last (q_cols s) 0 in
    if toRemove =? 0 then None
    else
      match getLSSystemCols s with
      | None => None
      | Some n =>
          if n <=? toRemove then None
          else match dropBack toRemove (q_V s) (q_W s) (q_qr s) with
               | None => None
               | Some (V, W, qr) => Some (setMatrices s (removelast (q_cols s)) V W qr)
               end
      end
  else Some s.
(** iterationsConverged 617-713 *)
Definition iterationsConverged (c : config) (o : decisions) (s : qn) : option qn :=
  bind (getLSSystemCols s) (fun _ =>                                     (* 624, written to the info string *)
  bind (updateDifferenceMatrices c o (initializeMatrices s)) (fun s =>
  let s := setMatrices s (popZeroFront (popZeroFront (q_cols s))) (q_V s) (q_W s) (q_qr s) in
  bind (dropOldWindows c s) (fun s =>
  Some (QN (0 :: q_cols s) (q_V s) (q_W s) (q_qr s) (q_fallback s) (q_colsBackup s) (q_VBackup s) (q_WBackup s)
           true (q_firstWindow s && q_firstIteration s) (S (q_window s)) 0)))).

(** initialize 111-114 (called again after a change of meshes) *)
Definition initialize (s : qn) : qn :=
  QN [0] (q_V s) (q_W s) (q_qr s) (q_fallback s) (q_colsBackup s) (q_VBackup s) (q_WBackup s) true true (q_window s) 0.
Definition start : qn := initialize (QN [] [] [] [] false [] [] [] true true 0 0).

(** the calls of the coupling scheme, BaseCouplingScheme.cpp 293, 323, 855, 862 *)
Inductive event := Initialize | Perform (o : decisions) | Converged (o : decisions).
Definition step (c : config) (e : event) (s : qn) : option qn :=
  match e with
  | Initialize => Some (initialize s)
  | Perform o => performAcceleration c o s
  | Converged o => iterationsConverged c o s
  end.
Fixpoint run (c : config) (es : list event) (s : qn) : option qn :=
  match es with [] => Some s | e :: r => bind (step c e s) (run c r) end.
