(** Quasi-Newton acceleration with the multi-vector Jacobian (IQN-IMVJ) on values.

    Models acceleration/IQNIMVJAcceleration.cpp 76-148 (updateDifferenceMatrices), 150-178
    (computeQNUpdate), 217-257 (buildWtil), 259-297 (buildJacobian), 299-390
    (computeNewtonUpdateEfficient), 392-429 (computeNewtonUpdate), 431-598 (restartIMVJ), 600-708
    (specializedIterationsConverged), 710-724 (removeMatrixColumn), 726-787
    (specializedInitializeVectorsAndPreconditioner), 789-815 (removeMatrixColumnRSLS), together with
    what BaseQNAcceleration.cpp does around them: 266-356, 364-557, 559-579, 617-713, 721-747,
    769-781, 877-945.

    Numbers are the elements of a field, vectors and primary data as in M_IQN.  All ranks are taken
    together.  Bounds are not configured.  What comes out of the factorizations is an input of each
    call: the pseudo-inverse, the columns that are removed because they cannot be factorized or by
    the filter, the weights of the preconditioner, and the decomposition that a restart with RS-SVD
    uses (M_QR, M_IQN model the factorization, the filters and the weights).  [None] is a failing
    assertion or an access out of range. *)
From Coq Require Import Bool List Arith.
From Verif Require Import S_Field.
From Verif Require M_QN.
Import ListNotations.

Section Imvj.
Variable F : field.
Notation vec := (nat -> F).
Notation matrix := (nat -> nat -> F).

(** IQNIMVJAcceleration.hpp 30-34; RS-LS with the number of windows to reuse *)
Inductive restartType := RsZero | RsLS (reused : nat) | RsSVD | RsSlide.
(** always-build-jacobian; the efficient update with an explicit Jacobian; restart mode with
    _chunkSize.  always-build-jacobian in restart mode is refused by
    AccelerationConfiguration.cpp. *)
Inductive mode := Always | Efficient | Chunks (t : restartType) (chunkSize : nat).
Record config := Config {
  c_mode : mode;
  c_max : nat;            (* _maxIterationsUsed *)
  c_reused : nat;         (* _timeWindowsReused *)
  c_force : bool;         (* _forceInitialRelaxation *)
  c_qr3 : bool;           (* the filter is QR3 *)
  c_relaxation : F;       (* _initialRelaxation *)
  c_ids : list nat;       (* the entries of the primary data *)
  c_all : nat }.          (* getLSSystemRows: number of all values *)
Definition rowsOf (c : config) : nat := length (c_ids c).
Definition isAlways (c : config) : bool := match c_mode c with Always => true | _ => false end.

(** the decisions of one call *)
Record decisions := Decisions {
  o_restored : list nat;  (* columns removed when the backup is factorized, in this order *)
  o_deleted : list nat;   (* columns removed because of new weights or by the filter, in this order *)
  o_Z : list vec;         (* the rows of the pseudo-inverse of V, unscaled *)
  o_w : vec; o_winv : vec;(* weights of the preconditioner and their inverses *)
  o_svd : list vec * list vec;  (* Psi (columns) and Sigma Phi^T (rows) after the updates of _svdJ *)
  o_lsDeleted : list nat; o_lsZ : list vec }. (* RS-LS: filter and pseudo-inverse, unscaled *)

(** a pair of Wtil (columns) and Z (rows) of _WtilChunk and _pseudoInverseChunk *)
Definition pair := (list vec * list vec)%type.
(** the members; [s_svd] is Psi Sigma Phi^T of _svdJ if isSVDinitialized *)
Record imvj := Imvj {
  s_cols : list nat; s_V : list vec; s_W : list vec; s_Wt : list vec; s_reset : bool;
  s_colsBackup : list nat; s_VBackup : list vec; s_WBackup : list vec;
  s_first : bool; s_firstWindow : bool; s_oldR : vec; s_oldXt : vec;
  s_Jold : matrix; s_J : matrix; s_chunk : list pair; s_svd : option matrix;
  s_lsCols : list nat; s_lsV : list vec; s_lsW : list vec }.
Definition setMatrices (s : imvj) cols V W := Imvj cols V W (s_Wt s) (s_reset s) (s_colsBackup s) (s_VBackup s) (s_WBackup s) (s_first s) (s_firstWindow s) (s_oldR s) (s_oldXt s) (s_Jold s) (s_J s) (s_chunk s) (s_svd s) (s_lsCols s) (s_lsV s) (s_lsW s).
Definition setWt (s : imvj) Wt reset := Imvj (s_cols s) (s_V s) (s_W s) Wt reset (s_colsBackup s) (s_VBackup s) (s_WBackup s) (s_first s) (s_firstWindow s) (s_oldR s) (s_oldXt s) (s_Jold s) (s_J s) (s_chunk s) (s_svd s) (s_lsCols s) (s_lsV s) (s_lsW s).
Definition setBackup (s : imvj) cols V W := Imvj (s_cols s) (s_V s) (s_W s) (s_Wt s) (s_reset s) cols V W (s_first s) (s_firstWindow s) (s_oldR s) (s_oldXt s) (s_Jold s) (s_J s) (s_chunk s) (s_svd s) (s_lsCols s) (s_lsV s) (s_lsW s).
Definition setFirst (s : imvj) first firstWindow := Imvj (s_cols s) (s_V s) (s_W s) (s_Wt s) (s_reset s) (s_colsBackup s) (s_VBackup s) (s_WBackup s) first firstWindow (s_oldR s) (s_oldXt s) (s_Jold s) (s_J s) (s_chunk s) (s_svd s) (s_lsCols s) (s_lsV s) (s_lsW s).
Definition setOld (s : imvj) r xt := Imvj (s_cols s) (s_V s) (s_W s) (s_Wt s) (s_reset s) (s_colsBackup s) (s_VBackup s) (s_WBackup s) (s_first s) (s_firstWindow s) r xt (s_Jold s) (s_J s) (s_chunk s) (s_svd s) (s_lsCols s) (s_lsV s) (s_lsW s).
Definition setJ (s : imvj) Jold J := Imvj (s_cols s) (s_V s) (s_W s) (s_Wt s) (s_reset s) (s_colsBackup s) (s_VBackup s) (s_WBackup s) (s_first s) (s_firstWindow s) (s_oldR s) (s_oldXt s) Jold J (s_chunk s) (s_svd s) (s_lsCols s) (s_lsV s) (s_lsW s).
Definition setChunk (s : imvj) chunk svd := Imvj (s_cols s) (s_V s) (s_W s) (s_Wt s) (s_reset s) (s_colsBackup s) (s_VBackup s) (s_WBackup s) (s_first s) (s_firstWindow s) (s_oldR s) (s_oldXt s) (s_Jold s) (s_J s) chunk svd (s_lsCols s) (s_lsV s) (s_lsW s).
Definition setLS (s : imvj) cols V W := Imvj (s_cols s) (s_V s) (s_W s) (s_Wt s) (s_reset s) (s_colsBackup s) (s_VBackup s) (s_WBackup s) (s_first s) (s_firstWindow s) (s_oldR s) (s_oldXt s) (s_Jold s) (s_J s) (s_chunk s) (s_svd s) cols V W.

Definition primary (c : config) (v : vec) : vec := fun e => v (nth e (c_ids c) 0).
Definition residual (c : config) (x xt : vec) : vec := fun e => sub (primary c xt e) (primary c x e).
Definition bind {A B} (a : option A) (f : A -> option B) : option B := match a with None => None | Some x => f x end.

(** products: W (Z y) with the columns W and the rows Z, the matrix W Z, and J y *)
Definition lowRank (n : nat) (p : pair) (y : vec) : vec :=
  fun e => fsum (length (fst p)) (fun j => mul (nth j (fst p) (fun _ => zero) e) (fdot n (nth j (snd p) (fun _ => zero)) y)).
Definition product (p : pair) : matrix :=
  fun e k => fsum (length (fst p)) (fun j => mul (nth j (fst p) (fun _ => zero) e) (nth j (snd p) (fun _ => zero) k)).
Definition apply (n : nat) (J : matrix) (y : vec) : vec := fun e => fsum n (fun k => mul (J e k) (y k)).
Fixpoint chunkApply (n : nat) (chunk : list pair) (y : vec) : vec :=
  match chunk with [] => fun _ => zero | p :: r => fun e => add (lowRank n p y e) (chunkApply n r y e) end.
(** the product with the Jacobian of the windows before, 108-134, 233-250, 366-382 *)
Definition previous (c : config) (s : imvj) (y : vec) : vec :=
  match c_mode c with Chunks _ _ => chunkApply (rowsOf c) (s_chunk s) y | _ => apply (rowsOf c) (s_Jold s) y end.
(** [PRECICE_ASSERT(colsLSSystemBackThen == _WtilChunk[i].cols())] *)
Definition matching (p : pair) : bool := length (snd p) =? length (fst p).
Definition consistent (c : config) (s : imvj) : bool :=
  match c_mode c with Chunks _ _ => forallb matching (s_chunk s) | _ => true end.

(** getLSSystemCols 769-781 *)
Definition getLSSystemCols (s : imvj) : option nat :=
  let cols := M_QN.sum (s_cols s) in
  if (cols =? length (s_V s)) && (cols =? length (s_W s)) then Some cols else None.

(** BaseQNAcceleration::updateDifferenceMatrices 266-356 *)
Definition updateBase (c : config) (x xt : vec) (s : imvj) : option imvj :=
  let r := residual c x xt in
  if s_first s && (s_firstWindow s || c_force c) then Some s
  else if s_first s then Some (setOld s r xt)
  else
    bind (getLSSystemCols s) (fun n =>
    if negb (n <=? c_max c) then None
    else
      let deltaR := fun e => sub (r e) (s_oldR s e) in
      let deltaXt := fun e => sub (xt e) (s_oldXt s e) in
      let s' := setOld s r xt in
      bind (M_QN.frontIncrement (s_cols s)) (fun cols =>
      if negb (n =? c_max c) && (n <=? rowsOf c) then Some (setMatrices s' cols (deltaR :: s_V s) (deltaXt :: s_W s))
      else
        bind (M_QN.shiftSetFirst deltaR (s_V s)) (fun V =>
        bind (M_QN.shiftSetFirst deltaXt (s_W s)) (fun W =>
        bind (M_QN.backDecrement cols) (fun cols => Some (setMatrices s' cols V W)))))).
(** 121-126 *)
Definition storeLS (c : config) (v w : vec) (s : imvj) : option imvj :=
  match c_mode c with
  | Chunks (RsLS _) _ => bind (M_QN.frontIncrement (s_lsCols s)) (fun cols => Some (setLS s cols (v :: s_lsV s) (w :: s_lsW s)))
  | _ => Some s
  end.
(** 76-148 *)
Definition updateDifferenceMatrices (c : config) (x xt : vec) (s : imvj) : option imvj :=
  bind (updateBase c x xt s) (fun s =>
  if isAlways c || s_first s then Some s
  else
    match s_V s, s_W s with
    | v :: _, w :: _ =>
        if negb (consistent c s) then None
        else
          let wtil := fun e => sub (w e) (previous c s v e) in
          bind (storeLS c v w s) (fun s =>
          if negb (length (s_Wt s) =? c_max c) && (length (s_Wt s) <=? c_all c) then Some (setWt s (wtil :: s_Wt s) (s_reset s))
          else bind (M_QN.shiftSetFirst wtil (s_Wt s)) (fun Wt => Some (setWt s Wt (s_reset s))))
    | _, _ => None
    end).

(** 710-724 and BaseQNAcceleration.cpp 721-747 *)
Definition removeMatrixColumn (c : config) (i : nat) (s : imvj) : option imvj :=
  if (length (s_V s) <=? 1) || (length (s_Wt s) <=? 1) then None
  else
    bind (if negb (s_reset s) && negb (isAlways c) then M_QN.removeColumnFromMatrix i (s_Wt s) else Some (s_Wt s)) (fun Wt =>
    bind (M_QN.removeColumnFromMatrix i (s_V s)) (fun V =>
    bind (M_QN.removeColumnFromMatrix i (s_W s)) (fun W =>
    Some (setMatrices (setWt s Wt (s_reset s)) (M_QN.reduceCount 0 i (s_cols s)) V W)))).
Fixpoint removeMatrixColumns (c : config) (is : list nat) (s : imvj) : option imvj :=
  match is with [] => Some s | i :: r => bind (removeMatrixColumn c i s) (removeMatrixColumns c r) end.
(** new factorization and applyFilter, BaseQNAcceleration.cpp 446-474 and 559-579.  QR3 goes through
    the columns from the last one on with an unsigned index, QRFactorization.cpp 150-161; without
    columns it starts out of range. *)
Definition applyFilter (c : config) (o : decisions) (s : imvj) : option imvj :=
  if c_qr3 c && (length (s_V s) =? 0) then None else removeMatrixColumns c (o_deleted o) s.
(** pseudoInverse 180-215: as many rows as the factorization has columns, which are not more than
    its rows (QRFactorization.cpp 236-260); 223-224, 274-275, 322-323 *)
Definition pseudoInverse (c : config) (o : decisions) (s : imvj) : option (list vec) :=
  bind (getLSSystemCols s) (fun n => if (length (o_Z o) =? n) && (n <=? rowsOf c) then Some (o_Z o) else None).

(** buildWtil 217-257 *)
Definition buildWtil (c : config) (s : imvj) : option imvj :=
  if consistent c s
  then Some (setWt s (map (fun '(v, w) => fun e => sub (w e) (previous c s v e)) (combine (s_V s) (s_W s))) false)
  else None.
Definition plus (A B : matrix) : matrix := fun e k => add (A e k) (B e k).
(** the product of Wtil and Z, which must fit *)
Definition times (s : imvj) (Z : list vec) : option pair := if length (s_Wt s) =? length Z then Some (s_Wt s, Z) else None.

(** computeNewtonUpdate 392-429 *)
Definition computeNewtonUpdate (c : config) (Z : list vec) (r : vec) (s : imvj) : option (vec * imvj) :=
  bind (buildWtil c s) (fun s =>
  bind (times s Z) (fun p =>
  let J := plus (product p) (s_Jold s) in
  Some (apply (rowsOf c) J (fun e => opp (r e)), setJ s (s_Jold s) J))).
(** computeNewtonUpdateEfficient 299-390 *)
Definition computeNewtonUpdateEfficient (c : config) (Z : list vec) (r : vec) (s : imvj) : option (vec * imvj) :=
  bind (if s_reset s then buildWtil c s else Some s) (fun s =>
  bind (times s Z) (fun p =>
  if negb (consistent c s) then None
  else
    let m := fun e => opp (r e) in
    let update := fun e => add (previous c s m e) (lowRank (rowsOf c) p m e) in
    Some (update, if s_first s && (c_reused c =? 0) && negb (c_force c) then setWt s [] true else s))).
Definition computeQNUpdate (c : config) (o : decisions) (r : vec) (s : imvj) : option (vec * imvj) :=
  bind (pseudoInverse c o s) (fun Z => if isAlways c then computeNewtonUpdate c Z r s else computeNewtonUpdateEfficient c Z r s).

(** initializeVectorsAndPreconditioner 877-945, specializedInitializeVectorsAndPreconditioner 726-787 *)
Definition initializeMatrices (c : config) (s : imvj) : imvj :=
  if s_firstWindow s && s_first s
  then
    let s := setWt (setOld (setMatrices s (s_cols s) [] []) (fun _ => zero) (fun _ => zero)) [] (s_reset s) in
    match c_mode c with
    | Chunks (RsLS _) _ => setLS (setChunk s [] None) [0] [] []
    | Chunks _ _ => setChunk s [] None
    | _ => setChunk (setJ s (fun _ _ => zero) (fun _ _ => zero)) (s_chunk s) None
    end
  else s.
(** BaseQNAcceleration.cpp 417-438 *)
Definition restoreBackup (c : config) (o : decisions) (s : imvj) : option imvj :=
  if s_firstWindow s then Some s
  else
    bind (getLSSystemCols s) (fun n =>
    if (n <? 1) && (c_reused c =? 0) && negb (c_force c)
    then bind (removeMatrixColumns c (o_restored o) (setMatrices s (s_colsBackup s) (s_VBackup s) (s_WBackup s))) (fun s => Some (setWt s (s_Wt s) true))
    else Some s).
(** 518-541 *)
Definition pendingDeletion (c : config) (s : imvj) : option imvj :=
  if s_first s && (c_reused c =? 0) && negb (c_force c) then
    bind (getLSSystemCols s) (fun n =>
    let s := if 0 <? n then setBackup s (s_cols s) (s_V s) (s_W s) else s in
    Some (if s_firstWindow s then s else setWt (setMatrices s [0] [] []) (s_Wt s) true))
  else Some s.
(** the state in which the update is computed *)
Definition prepareUpdate (c : config) (o : decisions) (s : imvj) : option imvj :=
  bind (restoreBackup c o s) (applyFilter c o).
(** performAcceleration 364-557: the new values and the new state *)
Definition performAcceleration (c : config) (o : decisions) (x xt : vec) (s : imvj) : option (vec * imvj) :=
  let r := residual c x xt in
  bind (updateDifferenceMatrices c x xt (initializeMatrices c s)) (fun s =>
  if s_first s && (s_firstWindow s || c_force c)
  then Some (fun e => add (mul (c_relaxation c) (xt e)) (mul (sub one (c_relaxation c)) (x e)), setFirst (setOld s r xt) false (s_firstWindow s))
  else
    bind (prepareUpdate c o s) (fun s =>
    bind (computeQNUpdate c o r s) (fun '(update, s) =>
    bind (pendingDeletion c s) (fun s => Some (fun e => add (xt e) (update e), setFirst s false (s_firstWindow s)))))).

(** * Restarts *)
(** removeMatrixColumnRSLS 789-815 *)
Definition removeLS (i : nat) (s : imvj) : option imvj :=
  if length (s_lsV s) <=? 1 then None
  else
    bind (M_QN.removeColumnFromMatrix i (s_lsV s)) (fun V =>
    bind (M_QN.removeColumnFromMatrix i (s_lsW s)) (fun W =>
    Some (setLS s (M_QN.reduceCount 0 i (s_lsCols s)) V W))).
Fixpoint removeLSs (is : list nat) (s : imvj) : option imvj :=
  match is with [] => Some s | i :: r => bind (removeLS i s) (removeLSs r) end.
(** 496-498; [fuel]: at least the number of columns *)
Fixpoint notTooSquare (rows fuel : nat) (s : imvj) : option imvj :=
  if rows <=? length (s_lsV s) * 2
  then match fuel with O => None | S f => bind (removeLS (length (s_lsV s) - 1) s) (notTooSquare rows f) end
  else Some s.
(** 488-556 *)
Definition restartLS (c : config) (o : decisions) (s : imvj) : option imvj :=
  let s := setChunk s [] (s_svd s) in
  if length (s_lsV s) =? 0 then Some s
  else
    bind (notTooSquare (c_all c) (length (s_lsV s)) s) (fun s =>
    bind (removeLSs (o_lsDeleted o) s) (fun s =>
    if length (o_lsZ o) =? length (s_lsV s) then Some (setChunk s [(s_lsW s, o_lsZ o)] (s_svd s)) else None)).
(** 437-486: the pairs that the decomposition does not have yet are added to it, scaled with the
    weights; the decomposition becomes the only pair, with the weights removed.  [o_svd] is what the
    decomposition is after the updates and truncations. *)
Definition weigh (w winv : vec) (M : matrix) : matrix := fun e k => mul (mul (w e) (M e k)) (winv k).
Fixpoint sumPairs (w winv : vec) (ps : list pair) : matrix :=
  match ps with [] => fun _ _ => zero | p :: r => plus (weigh w winv (product p)) (sumPairs w winv r) end.
Definition updatedSVD (o : decisions) (s : imvj) : matrix :=
  match s_svd s with
  | None => sumPairs (o_w o) (o_winv o) (s_chunk s)
  | Some M => plus M (sumPairs (o_w o) (o_winv o) (tl (s_chunk s)))
  end.
Definition restartSVD (o : decisions) (s : imvj) : option imvj :=
  let '(psi, Z) := o_svd o in
  Some (setChunk s [(map (fun p e => mul (p e) (o_winv o e)) psi, map (fun z k => mul (z k) (o_w o k)) Z)] (Some (product (psi, Z)))).
(** 566-590: [i] is the loop variable *)
Fixpoint addAt (i : nat) (A : list vec) (chunk : list pair) : option (list pair) :=
  match chunk, i with
  | [], _ => None
  | (W, Z) :: r, O => if length W =? length A then Some ((map (fun '(w, a) => fun e => add (w e) (a e)) (combine W A), Z) :: r) else None
  | p :: r, S j => bind (addAt j A r) (fun r => Some (p :: r))
  end.
Fixpoint slide (c : config) (V : list vec) (i : nat) (chunk : list pair) : option (list pair) :=
  match i with
  | O => Some chunk
  | S j =>
      match chunk with
      | [] => None
      | p :: r => if negb (matching p) then None else bind (addAt j (map (lowRank (rowsOf c) p) V) r) (slide c V j)
      end
  end.
Definition restartIMVJ (c : config) (o : decisions) (t : restartType) (s : imvj) : option imvj :=
  match t with
  | RsZero => Some (setChunk s [] (s_svd s))
  | RsLS _ => restartLS c o s
  | RsSVD => if forallb matching (s_chunk s) then restartSVD o s else None
  | RsSlide => bind (slide c (s_V s) (length (s_chunk s) - 1) (s_chunk s)) (fun chunk => Some (setChunk s chunk (s_svd s)))
  end.

(** * The end of a window *)
(** [toRemove] columns at the end *)
Fixpoint dropBack (n : nat) (V : list vec) : option (list vec) :=
  match n with O => Some V | S m => bind (M_QN.removeColumnFromMatrix (length V - 1) V) (dropBack m) end.
(** 605-632 *)
Definition truncateLS (c : config) (s : imvj) : option imvj :=
  match c_mode c with
  | Chunks (RsLS reused) _ =>
      bind (match s_lsCols s with [] => None | O :: r => Some r | l => Some l end) (fun cols =>
      bind (if reused =? 0 then Some (setLS s [] [] [])
            else if reused <? length cols then
              let toRemove := last cols 0 in
              if (toRemove =? 0) || (length (s_lsV s) <=? toRemove) then None
              else bind (dropBack toRemove (s_lsV s)) (fun V => bind (dropBack toRemove (s_lsW s)) (fun W => Some (setLS s (removelast cols) V W)))
            else Some (setLS s cols (s_lsV s) (s_lsW s))) (fun s =>
      Some (setLS s (0 :: s_lsCols s) (s_lsV s) (s_lsW s))))
  | _ => Some s
  end.
(** buildJacobian 259-297 *)
Definition buildJacobian (c : config) (Z : list vec) (s : imvj) : option imvj :=
  bind (if s_reset s then buildWtil c s else Some s) (fun s =>
  bind (times s Z) (fun p => Some (setJ s (s_Jold s) (plus (product p) (s_Jold s))))).
(** 660-695 *)
Definition storeWindow (c : config) (o : decisions) (s : imvj) : option imvj :=
  bind (pseudoInverse c o s) (fun Z =>
  match c_mode c with
  | Chunks t size =>
      let s := setChunk s (s_chunk s ++ [(s_Wt s, Z)]) (s_svd s) in
      if size + 1 <=? length (s_chunk s) then restartIMVJ c o t s else Some s
  | _ => buildJacobian c Z s
  end).
(** specializedIterationsConverged 600-708; [prepareStore] is the state in which the window is stored *)
Definition prepareStore (c : config) (o : decisions) (s : imvj) : option imvj :=
  bind (truncateLS c s) (fun s => if isAlways c then Some s else applyFilter c o s).
Definition specializedIterationsConverged (c : config) (o : decisions) (s : imvj) : option imvj :=
  bind (prepareStore c o s) (fun s =>
  bind (if isAlways c then Some s
        else bind (storeWindow c o s) (fun s => Some (if (0 <? c_reused c) || c_force c then setWt s (s_Wt s) true else s))) (fun s =>
  Some (match c_mode c with Chunks _ _ => s | _ => setJ s (s_J s) (s_J s) end))).
(** BaseQNAcceleration.cpp 678-709 *)
Definition dropOldWindows (c : config) (s : imvj) : option imvj :=
  if c_reused c =? 0 then Some (if c_force c then setMatrices s [] [] [] else s)
  else if c_reused c <? length (s_cols s) then
    let toRemove := last (s_cols s) 0 in
    if toRemove =? 0 then None
    else
      bind (getLSSystemCols s) (fun n =>
      if n <=? toRemove then None
      else bind (dropBack toRemove (s_V s)) (fun V => bind (dropBack toRemove (s_W s)) (fun W => Some (setMatrices s (removelast (s_cols s)) V W))))
  else Some s.
(** the differences of the last iteration, BaseQNAcceleration.cpp 617-656 *)
Definition lastDifferences (c : config) (x xt : vec) (s : imvj) : option imvj :=
  bind (getLSSystemCols s) (fun _ =>
  bind (updateDifferenceMatrices c x xt (initializeMatrices c s)) (fun s =>
  Some (setMatrices s (match s_cols s with O :: r => r | l => l end) (s_V s) (s_W s)))).
(** iterationsConverged 617-713 *)
Definition iterationsConverged (c : config) (o : decisions) (x xt : vec) (s : imvj) : option imvj :=
  bind (lastDifferences c x xt s) (fun s =>
  bind (specializedIterationsConverged c o s) (fun s =>
  let s := setFirst s (s_first s) (s_firstWindow s && s_first s) in
  bind (dropOldWindows c s) (fun s =>
  Some (setFirst (setMatrices s (0 :: s_cols s) (s_V s) (s_W s)) true (s_firstWindow s))))).

(** initialize 111-114; the members start without columns, _resetLS is false *)
Definition start : imvj :=
  Imvj [0] [] [] [] false [] [] [] true true (fun _ => zero) (fun _ => zero) (fun _ _ => zero) (fun _ _ => zero) [] None [] [] [].
(** the calls of the coupling scheme *)
Inductive event := Perform (o : decisions) (x xt : vec) | Converged (o : decisions) (x xt : vec).
Definition step (c : config) (ev : event) (s : imvj) : option imvj :=
  match ev with
  | Perform o x xt => match performAcceleration c o x xt s with None => None | Some (_, s') => Some s' end
  | Converged o x xt => iterationsConverged c o x xt s
  end.
Fixpoint run (c : config) (evs : list event) (s : imvj) : option imvj :=
  match evs with [] => Some s | ev :: r => bind (step c ev s) (run c r) end.
End Imvj.
Arguments Config {_}. Arguments c_mode {_}. Arguments c_max {_}. Arguments c_reused {_}. Arguments c_force {_}. Arguments c_qr3 {_}. Arguments c_relaxation {_}.
Arguments c_ids {_}. Arguments c_all {_}. Arguments Decisions {_}. Arguments o_restored {_}. Arguments o_deleted {_}. Arguments o_Z {_}. Arguments o_w {_}.
Arguments o_winv {_}. Arguments o_svd {_}. Arguments o_lsDeleted {_}. Arguments o_lsZ {_}. Arguments Imvj {_}. Arguments s_cols {_}. Arguments s_V {_}.
Arguments s_W {_}. Arguments s_Wt {_}. Arguments s_reset {_}. Arguments s_colsBackup {_}. Arguments s_VBackup {_}. Arguments s_WBackup {_}. Arguments s_first {_}.
Arguments s_firstWindow {_}. Arguments s_oldR {_}. Arguments s_oldXt {_}. Arguments s_Jold {_}. Arguments s_J {_}. Arguments s_chunk {_}. Arguments s_svd {_}.
Arguments s_lsCols {_}. Arguments s_lsV {_}. Arguments s_lsW {_}. Arguments Perform {_}. Arguments Converged {_}. Arguments rowsOf {_}. Arguments isAlways {_}.
Arguments setMatrices {_}. Arguments setWt {_}. Arguments setBackup {_}. Arguments setFirst {_}. Arguments setOld {_}. Arguments setJ {_}. Arguments setChunk {_}.
Arguments setLS {_}. Arguments primary {_}. Arguments residual {_}. Arguments lowRank {_}. Arguments product {_}. Arguments apply {_}. Arguments chunkApply {_}.
Arguments previous {_}. Arguments matching {_}. Arguments consistent {_}. Arguments getLSSystemCols {_}. Arguments updateBase {_}. Arguments storeLS {_}.
Arguments updateDifferenceMatrices {_}. Arguments removeMatrixColumn {_}. Arguments removeMatrixColumns {_}. Arguments applyFilter {_}. Arguments pseudoInverse {_}.
Arguments buildWtil {_}. Arguments plus {_}. Arguments times {_}. Arguments computeNewtonUpdate {_}. Arguments computeNewtonUpdateEfficient {_}. Arguments computeQNUpdate {_}.
Arguments initializeMatrices {_}. Arguments restoreBackup {_}. Arguments pendingDeletion {_}. Arguments prepareUpdate {_}. Arguments performAcceleration {_}.
Arguments removeLS {_}. Arguments removeLSs {_}. Arguments notTooSquare {_}. Arguments restartLS {_}. Arguments weigh {_}. Arguments sumPairs {_}. Arguments updatedSVD {_}.
Arguments restartSVD {_}. Arguments addAt {_}. Arguments slide {_}. Arguments restartIMVJ {_}. Arguments dropBack {_}. Arguments truncateLS {_}. Arguments buildJacobian {_}.
Arguments storeWindow {_}. Arguments prepareStore {_}. Arguments specializedIterationsConverged {_}. Arguments dropOldWindows {_}. Arguments lastDifferences {_}.
Arguments iterationsConverged {_}. Arguments start {_}. Arguments step {_}. Arguments run {_}.
