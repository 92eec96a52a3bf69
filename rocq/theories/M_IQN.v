(** Quasi-Newton acceleration (IQN-ILS) on values.

    Models acceleration/BaseQNAcceleration.cpp 266-356 (updateDifferenceMatrices), 364-557
    (performAcceleration), 559-579 (applyFilter), 617-713 (iterationsConverged), 721-747
    (removeMatrixColumn), 877-945 (initializeVectorsAndPreconditioner), IQNILSAcceleration.cpp
    52-123 and acceleration/impl/{,Constant,Value,Residual,ResidualSum}Preconditioner; the
    factorization is the one of M_QR, the bookkeeping of columns the one of M_QN.

    Numbers are the elements of a field.  A vector holds the values of all data on all time
    steps of their grids; the primary data are some of its entries.  All ranks are taken
    together.  Bounds are not configured (C47 is about them).  [None] is a failing assertion or
    an access out of range. *)
From Coq Require Import Bool List Arith.
From Verif Require Import S_Field M_QR.
From Verif Require M_QN.
Import ListNotations.

Section IQN.
Variable F : field.
Notation vec := (nat -> F).
(** as in M_QR *)
Variable hyp : F -> F -> F.
Variable norm : nat -> vec -> F.
Variable tiny : F -> bool.
Variable again : F -> F -> vec -> bool.
(** the tests of the filters: QR1 (QRFactorization.cpp 133), QR2 (285), QR3 (157: diagonal
    element and norm of the column) *)
Variable singular : (nat -> nat -> F) -> nat -> nat -> bool.
Variable drop : F -> F -> bool.
Variable weak : F -> F -> bool.
(** norm < math::NUMERICAL_ZERO_DIFFERENCE, math::equals(x, 0.0) *)
Variable small : F -> bool.
(** ResidualSumPreconditioner.cpp 72-91: the weights have changed significantly *)
Variable moved : vec -> vec -> bool.

Inductive preconditioner := Constant (factors : vec) | Value | Residual | ResidualSum (onThreshold : bool).
Record config := Config {
  c_qn : M_QN.config;        (* limits, filter and number of primary unknowns *)
  c_relaxation : F;          (* _initialRelaxation *)
  c_ids : list nat;          (* the entries of the primary data *)
  c_parts : list nat;        (* sizes of the primary data, _subVectorSizes *)
  c_precond : preconditioner;
  c_freeze : nat }.          (* _maxNonConstTimeWindows; 0: never *)
Definition rowsOf (c : config) : nat := M_QN.c_rows (c_qn c).

(** * Preconditioners *)
Record precond := Precond {
  p_w : vec; p_inv : vec; p_newQR : bool; p_frozen : bool; p_windows : nat; p_first : bool; p_sum : vec; p_prev : vec }.
(** the part an entry belongs to, and the place of a part (_subVectorOffsets) *)
Fixpoint partOf (parts : list nat) (e : nat) : nat :=
  match parts with [] => 0 | n :: r => if e <? n then 0 else S (partOf r (e - n)) end.
Fixpoint offsetOf (parts : list nat) (k : nat) : nat :=
  match k, parts with S k', n :: r => n + offsetOf r k' | _, _ => 0 end.
Definition partNorm (parts : list nat) (v : vec) (k : nat) : F :=
  norm (nth k parts 0) (fun i => v (offsetOf parts k + i)).
(** weights 1 / x(k) and x(k) on the parts with a number x(k) that is not small *)
Definition setWeights (c : config) (x : vec) (p : precond) : precond :=
  let at_ e := x (partOf (c_parts c) e) in
  Precond (fun e => if (e <? rowsOf c) && negb (small (at_ e)) then div one (at_ e) else p_w p e)
          (fun e => if (e <? rowsOf c) && negb (small (at_ e)) then at_ e else p_inv p e)
          true (p_frozen p) (p_windows p) (p_first p) (p_sum p) (p_prev p).
Definition notFirst (p : precond) : precond := Precond (p_w p) (p_inv p) (p_newQR p) (p_frozen p) (p_windows p) false (p_sum p) (p_prev p).
Definition setSum (x : vec) (p : precond) : precond := Precond (p_w p) (p_inv p) (p_newQR p) (p_frozen p) (p_windows p) (p_first p) x (p_prev p).
Definition setPrev (x : vec) (p : precond) : precond := Precond (p_w p) (p_inv p) (p_newQR p) (p_frozen p) (p_windows p) (p_first p) (p_sum p) x.
(** ResidualSumPreconditioner.cpp 28-108; [total] is the norm of all parts together, line 46 *)
Definition updateSum (c : config) (onThreshold complete : bool) (res : vec) (p : precond) : precond :=
  if complete then setSum (fun _ => zero) (notFirst p)
  else
    let total := norm (rowsOf c) res in
    let p := setSum (fun k => if small total then p_sum p k else add (p_sum p k) (div (partNorm (c_parts c) res k) total)) p in
    if p_first p || negb onThreshold || moved (p_prev p) (p_sum p)
    then setPrev (p_sum p) (setWeights c (p_sum p) p) else p.
(** _update_ of the four types *)
Definition updateWeights (c : config) (complete : bool) (values res : vec) (p : precond) : precond :=
  match c_precond c with
  | Constant _ => p
  | Value => if negb complete && negb (p_first p) then p else notFirst (setWeights c (partNorm (c_parts c) values) p)
  | Residual => if complete then p else setWeights c (partNorm (c_parts c) res) p
  | ResidualSum onThreshold => updateSum c onThreshold complete res p
  end.
(** Preconditioner::update, Preconditioner.hpp 175-193 *)
Definition updatePrecond (c : config) (complete : bool) (values res : vec) (p : precond) : precond :=
  if p_frozen p then p
  else
    let n := if complete then S (p_windows p) else p_windows p in
    let f := complete && (c_freeze c <=? n) && (0 <? c_freeze c) in
    updateWeights c complete values res (Precond (p_w p) (p_inv p) (p_newQR p) f n (p_first p) (p_sum p) (p_prev p)).
Definition newQRfulfilled (p : precond) : precond := Precond (p_w p) (p_inv p) false (p_frozen p) (p_windows p) (p_first p) (p_sum p) (p_prev p).
(** initialize, Preconditioner.hpp 36-55 and ConstantPreconditioner.cpp 16-35.  The sums of
    ResidualSumPreconditioner are kept when it is called again (resize); the meshes do not change. *)
Definition initializePrecond (c : config) (p : precond) : precond :=
  match c_precond c with
  | Constant f => Precond (fun e => div one (f (partOf (c_parts c) e))) (fun e => f (partOf (c_parts c) e)) (p_newQR p) true (p_windows p) (p_first p) (p_sum p) (p_prev p)
  | _ => p
  end.
Definition startPrecond : precond := Precond (fun _ => one) (fun _ => one) false false 0 true (fun _ => zero) (fun _ => zero).
(** apply and revert, Preconditioner.hpp 117-165 *)
Definition scale (w : vec) (v : vec) : vec := fun e => mul (v e) (w e).

(** * Acceleration *)
(** the members of BaseQNAcceleration.  [a_several]: setting up the factorization anew refused
    more than one column at once (not in the code, used to state theorems) *)
Record iqn := IQN {
  a_cols : list nat; a_V : list vec; a_W : list vec; a_qr : qr F; a_fallback : bool;
  a_colsBackup : list nat; a_VBackup : list vec; a_WBackup : list vec;
  a_first : bool; a_firstWindow : bool; a_oldR : vec; a_oldXt : vec; a_p : precond; a_several : bool }.
Definition setMatrices (s : iqn) (cols : list nat) (V W : list vec) (q : qr F) : iqn :=
  IQN cols V W q (a_fallback s) (a_colsBackup s) (a_VBackup s) (a_WBackup s) (a_first s) (a_firstWindow s) (a_oldR s) (a_oldXt s) (a_p s) (a_several s).
Definition setFallback (s : iqn) (b : bool) : iqn :=
  IQN (a_cols s) (a_V s) (a_W s) (a_qr s) b (a_colsBackup s) (a_VBackup s) (a_WBackup s) (a_first s) (a_firstWindow s) (a_oldR s) (a_oldXt s) (a_p s) (a_several s).
Definition setPrecond (s : iqn) (p : precond) : iqn :=
  IQN (a_cols s) (a_V s) (a_W s) (a_qr s) (a_fallback s) (a_colsBackup s) (a_VBackup s) (a_WBackup s) (a_first s) (a_firstWindow s) (a_oldR s) (a_oldXt s) p (a_several s).
Definition setOld (s : iqn) (r xt : vec) : iqn :=
  IQN (a_cols s) (a_V s) (a_W s) (a_qr s) (a_fallback s) (a_colsBackup s) (a_VBackup s) (a_WBackup s) (a_first s) (a_firstWindow s) r xt (a_p s) (a_several s).
Definition setSeveral (s : iqn) (b : bool) : iqn :=
  IQN (a_cols s) (a_V s) (a_W s) (a_qr s) (a_fallback s) (a_colsBackup s) (a_VBackup s) (a_WBackup s) (a_first s) (a_firstWindow s) (a_oldR s) (a_oldXt s) (a_p s) b.
Definition nextIteration (s : iqn) : iqn :=
  IQN (a_cols s) (a_V s) (a_W s) (a_qr s) (a_fallback s) (a_colsBackup s) (a_VBackup s) (a_WBackup s) false (a_firstWindow s) (a_oldR s) (a_oldXt s) (a_p s) (a_several s).

(** the values of the primary data, and the residual (lines 272-275) *)
Definition primary (c : config) (v : vec) : vec := fun e => v (nth e (c_ids c) 0).
Definition residual (c : config) (x xt : vec) : vec := fun e => sub (primary c xt e) (primary c x e).

(** getLSSystemCols 769-781 *)
Definition getLSSystemCols (s : iqn) : option nat :=
  let cols := M_QN.sum (a_cols s) in
  if (cols =? length (a_V s)) && (cols =? length (a_W s)) then Some cols else None.
Definition bind {A B} (a : option A) (f : A -> option B) : option B := match a with None => None | Some x => f x end.

(** updateDifferenceMatrices 283-355: [x] and [xt] are _oldValues and _values *)
Definition updateDifferenceMatrices (c : config) (x xt : vec) (s : iqn) : option iqn :=
  let r := residual c x xt in
  if a_first s && (a_firstWindow s || M_QN.c_force (c_qn c)) then Some s
  else
    if a_first s then Some (setOld s r xt)
    else
      bind (getLSSystemCols s) (fun n =>
      if negb (length (a_V s) =? length (a_W s)) || negb (n <=? M_QN.c_max (c_qn c)) then None
      else
        let deltaR := fun e => sub (r e) (a_oldR s e) in
        let deltaXt := fun e => sub (xt e) (a_oldXt s e) in
        bind (pushFront hyp norm tiny again (scale (p_w (a_p s)) deltaR) (a_qr s)) (fun '(inserted, q) =>
        let s' := setOld (setFallback s (a_fallback s || negb inserted)) r xt in
        bind (M_QN.frontIncrement (a_cols s)) (fun cols =>
        if negb (n =? M_QN.c_max (c_qn c)) && (n <=? rowsOf c) then Some (setMatrices s' cols (deltaR :: a_V s) (deltaXt :: a_W s) q)
        else
          bind (M_QN.shiftSetFirst deltaR (a_V s)) (fun V =>
          bind (M_QN.shiftSetFirst deltaXt (a_W s)) (fun W =>
          bind (popBack hyp q) (fun q =>
          bind (M_QN.backDecrement cols) (fun cols => Some (setMatrices s' cols V W q)))))))).

(** removeMatrixColumn 721-747, IQNILSAcceleration.cpp 125-130 *)
Definition removeMatrixColumn (i : nat) (s : iqn) : option iqn :=
  if length (a_V s) <=? 1 then None
  else
    bind (M_QN.removeColumnFromMatrix i (a_V s)) (fun V =>
    bind (M_QN.removeColumnFromMatrix i (a_W s)) (fun W =>
    Some (setMatrices s (M_QN.reduceCount 0 i (a_cols s)) V W (a_qr s)))).
Fixpoint removeMatrixColumns (is : list nat) (s : iqn) : option iqn :=
  match is with [] => Some s | i :: r => bind (removeMatrixColumn i s) (removeMatrixColumns r) end.
(** [PRECICE_ASSERT(_matrixV.cols() == _qrV.cols())] *)
Definition checkColumns (s : iqn) : option iqn := if length (a_V s) =? cols (a_qr s) then Some s else None.

Definition scaledV (s : iqn) : list vec := map (scale (p_w (a_p s))) (a_V s).
(** 427-436 and 451-459: the factorization of the scaled matrix V; the columns that were refused
    are removed in the order in which they were refused *)
Definition resetQR (c : config) (s : iqn) : option iqn :=
  bind (reset hyp norm tiny again (rowsOf c) never (scaledV s)) (fun '(q, failed) =>
  bind (removeMatrixColumns failed (setSeveral (setMatrices s (a_cols s) (a_V s) (a_W s) q) (a_several s || (1 <? length failed)))) checkColumns).

(** QRFactorization::applyFilter 111-170.  The indices are sorted (169), which the other filters'
    are already. *)
Fixpoint insertSorted (i : nat) (l : list nat) : list nat := match l with [] => [i] | j :: r => if i <=? j then i :: l else j :: insertSorted i r end.
Definition sortIndices (l : list nat) : list nat := fold_right insertSorted [] l.
Definition qrFilter (c : config) (s : iqn) : option (qr F * list nat) :=
  match M_QN.c_filter (c_qn c) with
  | M_QN.NoFilter => Some (a_qr s, [])
  | M_QN.QR1 => bind (applyQR1 hyp singular (a_qr s)) (fun '(q, del) => Some (q, sortIndices del))
  | M_QN.QR2 => reset hyp norm tiny again (rowsOf c) drop (scaledV s)
  | M_QN.QR3 =>
      let m := cols (a_qr s) in
      if (m =? 0) || (1 <? m) && (length (a_V s) <? m) then None
      else if a_fallback s || existsb (fun i => weak (Rm (a_qr s) i i) (norm (rowsOf c) (nth i (scaledV s) (fun _ => zero)))) (seq 1 (m - 1))
      then reset hyp norm tiny again (rowsOf c) drop (scaledV s)
      else Some (a_qr s, [])
  end.
(** applyFilter 559-579 *)
Definition applyFilter (c : config) (s : iqn) : option iqn :=
  match M_QN.c_filter (c_qn c) with
  | M_QN.NoFilter => Some s
  | f =>
      bind (qrFilter c s) (fun '(q, del) =>
      bind (removeMatrixColumns (rev del) (setMatrices s (a_cols s) (a_V s) (a_W s) q)) (fun s =>
      checkColumns (setFallback s (if M_QN.isQR3 f then false else a_fallback s))))
  end.

(** initialize 111-114, initializeVectorsAndPreconditioner 877-945 *)
Definition initializeMatrices (c : config) (s : iqn) : iqn :=
  if a_firstWindow s && a_first s
  then setPrecond (setOld (setMatrices s (a_cols s) [] [] (empty (rowsOf c))) (fun _ => zero) (fun _ => zero)) (initializePrecond c (a_p s))
  else s.
(** 417-438 *)
Definition restoreBackup (c : config) (s : iqn) : option iqn :=
  if a_firstWindow s then Some s
  else
    bind (getLSSystemCols s) (fun n =>
    if (n <? 1) && (M_QN.c_reused (c_qn c) =? 0) && negb (M_QN.c_force (c_qn c))
    then resetQR c (setMatrices s (a_colsBackup s) (a_VBackup s) (a_WBackup s) (a_qr s))
    else Some s).
(** 446-464 *)
Definition newQR (c : config) (s : iqn) : option iqn :=
  if p_newQR (a_p s) then
    bind (if M_QN.isQR23 (M_QN.c_filter (c_qn c)) then Some s else resetQR c s) (fun s =>
    Some (setPrecond (setFallback s (a_fallback s || M_QN.isQR3 (M_QN.c_filter (c_qn c)))) (newQRfulfilled (a_p s))))
  else Some s.
(** IQNILSAcceleration::computeQNUpdate 52-112: the update *)
Definition computeQNUpdate (c : config) (r : vec) (s : iqn) : option vec :=
  bind (getLSSystemCols s) (fun n =>
  if cols (a_qr s) =? n then
    let b := fun i => opp (fdot (rowsOf c) (fun e => Qm (a_qr s) e i) (scale (p_w (a_p s)) r)) in
    let x := solveUpper (cols (a_qr s)) (Rm (a_qr s)) b in
    Some (fun e => fsum (length (a_W s)) (fun j => mul (nth j (a_W s) (fun _ => zero) e) (x j)))
  else None).
(** 518-541 *)
Definition pendingDeletion (c : config) (s : iqn) : option iqn :=
  if a_first s && (M_QN.c_reused (c_qn c) =? 0) && negb (M_QN.c_force (c_qn c)) then
    bind (getLSSystemCols s) (fun n =>
    let s' := if 0 <? n then IQN (a_cols s) (a_V s) (a_W s) (a_qr s) (a_fallback s) (a_cols s) (a_V s) (a_W s)
                                 (a_first s) (a_firstWindow s) (a_oldR s) (a_oldXt s) (a_p s) (a_several s) else s in
    Some (if a_firstWindow s then s' else setMatrices s' [0] [] [] (empty (rowsOf c))))
  else Some s.

(** the state in which the least-squares problem is solved *)
Definition prepareUpdate (c : config) (x xt : vec) (s : iqn) : option iqn :=
  bind (restoreBackup c s) (fun s =>
  bind (newQR c (setPrecond s (updatePrecond c false (primary c xt) (residual c x xt) (a_p s)))) (fun s =>
  applyFilter c s)).
(** performAcceleration 364-557: the new values and the new state.  Relaxation: Acceleration.cpp,
    applyRelaxation. *)
Definition performAcceleration (c : config) (x xt : vec) (s : iqn) : option (vec * iqn) :=
  let r := residual c x xt in
  bind (updateDifferenceMatrices c x xt (initializeMatrices c s)) (fun s =>
  if a_first s && (a_firstWindow s || M_QN.c_force (c_qn c))
  then Some (fun e => add (mul (c_relaxation c) (xt e)) (mul (sub one (c_relaxation c)) (x e)), nextIteration (setOld s r xt))
  else
    bind (prepareUpdate c x xt s) (fun s =>
    bind (computeQNUpdate c r s) (fun update =>
    bind (pendingDeletion c s) (fun s => Some (fun e => add (xt e) (update e), nextIteration s))))).

(** 701-707 *)
Fixpoint dropBack (n : nat) (V W : list vec) (q : qr F) : option (list vec * list vec * qr F) :=
  match n with
  | O => Some (V, W, q)
  | S m =>
      bind (M_QN.removeColumnFromMatrix (length V - 1) V) (fun V =>
      bind (M_QN.removeColumnFromMatrix (length W - 1) W) (fun W =>
      bind (popBack hyp q) (fun q => dropBack m V W q)))
  end.
(** 678-709 *)
Definition dropOldWindows (c : config) (s : iqn) : option iqn :=
  if M_QN.c_reused (c_qn c) =? 0 then Some (if M_QN.c_force (c_qn c) then setMatrices s [] [] [] (empty (rowsOf c)) else s)
  else if M_QN.c_reused (c_qn c) <? length (a_cols s) then
    let toRemove := last (a_cols s) 0 in
    if toRemove =? 0 then None
    else
      bind (getLSSystemCols s) (fun n =>
      if n <=? toRemove then None
      else bind (dropBack toRemove (a_V s) (a_W s) (a_qr s)) (fun '(V, W, q) => Some (setMatrices s (removelast (a_cols s)) V W q)))
  else Some s.
(** iterationsConverged 617-713 *)
Definition iterationsConverged (c : config) (x xt : vec) (s : iqn) : option iqn :=
  bind (getLSSystemCols s) (fun _ =>
  bind (updateDifferenceMatrices c x xt (initializeMatrices c s)) (fun s =>
  let s := setMatrices s (M_QN.popZeroFront (M_QN.popZeroFront (a_cols s))) (a_V s) (a_W s) (a_qr s) in
  let s := setPrecond s (updatePrecond c true (primary c xt) (residual c x xt) (a_p s)) in
  bind (dropOldWindows c s) (fun s =>
  Some (IQN (0 :: a_cols s) (a_V s) (a_W s) (a_qr s) (a_fallback s) (a_colsBackup s) (a_VBackup s) (a_WBackup s)
            true (a_firstWindow s && a_first s) (a_oldR s) (a_oldXt s) (a_p s) (a_several s))))).

(** initialize 111-114 *)
Definition initialize (s : iqn) : iqn :=
  IQN [0] (a_V s) (a_W s) (a_qr s) (a_fallback s) (a_colsBackup s) (a_VBackup s) (a_WBackup s) true true (a_oldR s) (a_oldXt s) (a_p s) (a_several s).
Definition start (c : config) : iqn :=
  initialize (IQN [] [] [] (empty (rowsOf c)) false [] [] [] true true (fun _ => zero) (fun _ => zero) startPrecond false).

(** the calls of the coupling scheme, with the old and the new values of the iteration.  There is no
    change of meshes (M_QN has it). *)
Inductive event := Perform (x xt : vec) | Converged (x xt : vec).
Definition step (c : config) (ev : event) (s : iqn) : option iqn :=
  match ev with
  | Perform x xt => match performAcceleration c x xt s with None => None | Some (_, s') => Some s' end
  | Converged x xt => iterationsConverged c x xt s
  end.
Fixpoint run (c : config) (evs : list event) (s : iqn) : option iqn :=
  match evs with [] => Some s | ev :: r => bind (step c ev s) (run c r) end.
(** [k] iterations of the first window: the solvers turn [x] into [H x] *)
Fixpoint iterate (c : config) (H : vec -> vec) (k : nat) (x : vec) : option (vec * iqn) :=
  match k with O => Some (x, start c) | S k' => bind (iterate c H k' x) (fun '(x, s) => performAcceleration c x (H x) s) end.
End IQN.
Arguments Constant {_}. Arguments Value {_}. Arguments Residual {_}. Arguments ResidualSum {_}. Arguments Config {_}. Arguments c_qn {_}. Arguments c_relaxation {_}. Arguments c_ids {_}.
Arguments c_parts {_}. Arguments c_precond {_}. Arguments c_freeze {_}. Arguments rowsOf {_}. Arguments Precond {_}. Arguments p_w {_}. Arguments p_inv {_}. Arguments p_newQR {_}.
Arguments p_frozen {_}. Arguments p_windows {_}. Arguments p_first {_}. Arguments p_sum {_}. Arguments p_prev {_}. Arguments partNorm {_}. Arguments setWeights {_}. Arguments notFirst {_}.
Arguments setSum {_}. Arguments setPrev {_}. Arguments updateSum {_}. Arguments updateWeights {_}. Arguments updatePrecond {_}. Arguments newQRfulfilled {_}. Arguments initializePrecond {_}.
Arguments startPrecond {_}. Arguments scale {_}. Arguments IQN {_}. Arguments a_cols {_}. Arguments a_V {_}. Arguments a_W {_}. Arguments a_qr {_}. Arguments a_fallback {_}.
Arguments a_colsBackup {_}. Arguments a_VBackup {_}. Arguments a_WBackup {_}. Arguments a_first {_}. Arguments a_firstWindow {_}. Arguments a_oldR {_}. Arguments a_oldXt {_}. Arguments a_p {_}.
Arguments a_several {_}. Arguments setMatrices {_}. Arguments setFallback {_}. Arguments setPrecond {_}. Arguments setOld {_}. Arguments setSeveral {_}. Arguments nextIteration {_}.
Arguments primary {_}. Arguments residual {_}. Arguments getLSSystemCols {_}. Arguments updateDifferenceMatrices {_}. Arguments removeMatrixColumn {_}. Arguments removeMatrixColumns {_}.
Arguments checkColumns {_}. Arguments scaledV {_}. Arguments resetQR {_}. Arguments qrFilter {_}. Arguments applyFilter {_}. Arguments initializeMatrices {_}. Arguments restoreBackup {_}.
Arguments newQR {_}. Arguments computeQNUpdate {_}. Arguments pendingDeletion {_}. Arguments prepareUpdate {_}. Arguments performAcceleration {_}. Arguments dropBack {_}.
Arguments dropOldWindows {_}. Arguments iterationsConverged {_}. Arguments initialize {_}. Arguments start {_}. Arguments Perform {_}. Arguments Converged {_}. Arguments step {_}. Arguments run {_}. Arguments iterate {_}.
