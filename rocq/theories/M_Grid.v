(** The time grids of the quasi-Newton acceleration (src/time/TimeGrids.cpp and the parts of
    src/acceleration/BaseQNAcceleration.cpp that use them).

    [None] is a failed assertion, an access out of bounds or a division by zero.  Times are exact
    (canonical rationals); [interp] is Waveform::sample, [relax] the relaxation of the values of one
    time step.  The matrices, the preconditioner and the update of the values are not part of this
    model (C81, C82): an update is any function of the vector of values. *)
From Coq Require Import List Arith Bool ZArith QArith Qcanon.
Import ListNotations.
Open Scope list_scope.
Open Scope nat_scope.

Definition bind {A B} (x : option A) (f : A -> option B) : option B := match x with Some y => f y | None => None end.
Definition ltb (x y : Qc) : bool := if Qclt_le_dec x y then true else false.
Definition eqb (x y : Qc) : bool := if Qc_eq_dec x y then true else false.
Fixpoint mapM {A B} (f : A -> option B) (l : list A) : option (list B) :=
  match l with [] => Some [] | x :: r => bind (f x) (fun y => bind (mapM f r) (fun q => Some (y :: q))) end.

Section Grid.
Variable eps : Qc.
Context {V : Type}.
Variable zero : V.
Definition vec := list V.
(** Waveform.hpp: the stamples *)
Definition wave := list (Qc * vec).
Variable interp : wave -> Qc -> vec.
Variable relax : vec -> vec -> vec.

(** math/differences.hpp 20-24 and 70-92 *)
Definition greater (a b : Qc) : bool := ltb eps (a - b).
Definition smaller (a b : Qc) : bool := ltb (a - b) (- eps).
Definition smallerEquals (a b : Qc) : bool := negb (ltb eps (a - b)).
Definition equals (a b : Qc) : bool := negb (ltb eps (a - b)) && negb (ltb (a - b) (- eps)).

(** CouplingData: getSize(), waveform(), _previousTimeStepsStorage *)
Record data := Data { d_size : nat; d_wave : wave; d_prev : wave }.
Definition dataMap := list (nat * data).
Fixpoint at_ {A} (m : list (nat * A)) (id : nat) : option A :=
  match m with [] => None | (i, d) :: r => if i =? id then Some d else at_ r id end.
Fixpoint put {A} (m : list (nat * A)) (id : nat) (x : A) : list (nat * A) :=
  match m with [] => [] | (i, d) :: r => if i =? id then (i, x) :: r else (i, d) :: put r id x end.
(** Waveform.cpp 169-176 *)
Definition times (w : wave) : list Qc := map fst w.
Definition lastOf {A} (l : list A) : option A := match rev l with [] => None | x :: _ => Some x end.

(** * TimeGrids.cpp *)
Definition grids := list (nat * list Qc).
(** 11-21 *)
Definition newGrids (m : dataMap) (ids : list nat) (reduced : bool) : option grids :=
  mapM (fun id => bind (at_ m id) (fun d =>
    if reduced then bind (lastOf (times (d_wave d))) (fun t => Some (id, [t])) else Some (id, times (d_wave d)))) ids.
(** 23-35 *)
Definition after (g : grids) (id : nat) (t : Qc) : option (list Qc) :=
  bind (at_ g id) (fun l => Some (filter (fun d => greater d t) l)).
(** 37-60: one grid *)
Definition moveOne (g : list Qc) (w : wave) : option (list Qc) :=
  if length g =? 1 then bind (lastOf (times w)) (fun t => Some [t]) else
  bind (hd_error (times w)) (fun newMin =>
  bind (lastOf (times w)) (fun newMax =>
  bind (hd_error g) (fun oldMin =>
  bind (lastOf g) (fun oldMax =>
  if eqb (oldMax - oldMin) 0%Qc then None else
  Some (map (fun t => ((t - oldMin) / (oldMax - oldMin) * (newMax - newMin) + newMin)%Qc) g))))).
Definition move (g : grids) (m : dataMap) : option grids :=
  mapM (fun '(id, l) => bind (at_ m id) (fun d => bind (moveOne l (d_wave d)) (fun l' => Some (id, l')))) g.

(** * BaseQNAcceleration.cpp *)
(** 842-845: [data(i + offset) = current(i)] for all i below the size *)
Definition write (v : vec) (offset : nat) (x : vec) : vec := firstn offset v ++ x ++ skipn (offset + length x) v.
(** 835-847: one time *)
Definition gatherTime (size : nat) (d : data) (s : vec * vec * nat) (t : Qc) : option (vec * vec * nat) :=
  let '(v, o, offset) := s in
  let current := interp (d_wave d) t in
  let old := interp (d_prev d) t in
  if (length v <? offset + size) || (length o <? offset + size) then None else
  if (length current <? size) || (length old <? size) then None else
  Some (write v offset (firstn size current), write o offset (firstn size old), offset + size).
Fixpoint foldM {A B} (f : A -> B -> option A) (a : A) (l : list B) : option A :=
  match l with [] => Some a | x :: r => bind (f a x) (fun a' => foldM f a' r) end.
(** 828-850 *)
Definition concatenate (v o : vec) (m : dataMap) (ids : list nat) (g : grids) (windowStart : Qc) : option (vec * vec) :=
  bind (foldM (fun s id => bind (at_ m id) (fun d => bind (after g id windowStart) (fun l => foldM (gatherTime (d_size d) d) s l))) (v, o, 0) ids)
    (fun '(v, o, _) => Some (v, o)).

(** the members used here *)
Record qn := QN { q_ids : list nat; q_primary : list nat; q_reduced : bool; q_force : bool; q_first : bool; q_firstWindow : bool;
  q_grids : grids; q_pgrids : grids; q_values : vec; q_old : vec; q_pvalues : vec; q_pold : vec }.
(** 859-865: the entries of all data *)
Definition entries (m : dataMap) (ids : list nat) (g : grids) (windowStart : Qc) : option nat :=
  foldM (fun sum id => bind (after g id windowStart) (fun l => bind (at_ m id) (fun d => Some (sum + length l * d_size d)))) 0 ids.
(** 852-876, without what is parallel, see [dimOffsets] *)
Definition initVectors (s : qn) (m : dataMap) (windowStart : Qc) : option qn :=
  bind (newGrids m (q_ids s) false) (fun g =>
  bind (newGrids m (q_primary s) (q_reduced s)) (fun pg =>
  bind (entries m (q_primary s) pg windowStart) (fun pn =>
  bind (entries m (q_ids s) g windowStart) (fun n =>
  Some (QN (q_ids s) (q_primary s) (q_reduced s) (q_force s) (q_first s) (q_firstWindow s) g pg (repeat zero n) (repeat zero n) (repeat zero pn) (repeat zero pn)))))).
(** 373-392 and 636-646: the same lines in performAcceleration and in iterationsConverged *)
Definition prepare (s : qn) (m : dataMap) (windowStart : Qc) : option qn :=
  bind (if q_firstWindow s && q_first s then initVectors s m windowStart else Some s) (fun s =>
  bind (if q_first s then bind (move (q_grids s) m) (fun g => bind (move (q_pgrids s) m) (fun pg =>
     Some (QN (q_ids s) (q_primary s) (q_reduced s) (q_force s) (q_first s) (q_firstWindow s) g pg (q_values s) (q_old s) (q_pvalues s) (q_pold s)))) else Some s) (fun s =>
  bind (concatenate (q_values s) (q_old s) m (q_ids s) (q_grids s) windowStart) (fun '(v, o) =>
  bind (concatenate (q_pvalues s) (q_pold s) m (q_primary s) (q_pgrids s) windowStart) (fun '(pv, po) =>
  Some (QN (q_ids s) (q_primary s) (q_reduced s) (q_force s) (q_first s) (q_firstWindow s) (q_grids s) (q_pgrids s) v o pv po))))).

(** Waveform.cpp 29-52 *)
Fixpoint override (w : wave) (t : Qc) (x : vec) : option wave :=
  match w with
  | [] => None
  | (t0, x0) :: r => if equals t0 t then Some ((t0, x) :: r) else bind (override r t x) (fun r' => Some ((t0, x0) :: r'))
  end.
Definition setSample (w : wave) (t : Qc) (x : vec) : option wave :=
  match w with
  | [] => Some [(t, x)]
  | (t0, _) :: _ =>
      if smallerEquals t0 t then
        match override w t x with
        | Some w' => Some w'
        | None => bind (lastOf (times w)) (fun l => if smaller l t then Some (w ++ [(t, x)]) else None)
        end
      else None
  end.
(** Waveform.cpp 148-155 *)
Definition trimAfter (w : wave) (t : Qc) : wave := filter (fun p => negb (greater (fst p) t)) w.
(** 594-605: one time; [values(offset + j)] out of bounds is [None] *)
Definition scatterTime (size : nat) (values : vec) (s : wave * nat) (t : Qc) : option (wave * nat) :=
  let (w, offset) := s in
  if length values <? offset + size then None else
  bind (setSample w t (firstn size (skipn offset values))) (fun w' => Some (w', offset + size)).
(** 580-608 *)
Definition updateCouplingData (s : qn) (m : dataMap) (values : vec) (windowStart : Qc) : option dataMap :=
  bind (foldM (fun '(m, offset) id => bind (at_ m id) (fun d => bind (after (q_grids s) id windowStart) (fun l =>
      bind (foldM (scatterTime (d_size d) values) (trimAfter (d_wave d) windowStart, offset) l) (fun '(w, offset) => Some (put m id (Data (d_size d) w (d_prev d)), offset))))) (m, 0) (q_ids s))
    (fun '(m, _) => Some m).
(** Acceleration.cpp 17-46, without gradients *)
Definition applyRelaxation (m : dataMap) (windowStart : Qc) : dataMap :=
  map (fun '(id, d) => (id, Data (d_size d) (map (fun '(t, x) => if greater t windowStart then (t, relax x (interp (d_prev d) t)) else (t, x)) (d_wave d)) (d_prev d))) m.

(** 364-555; [f] gives the values after the quasi-Newton step and the treatment of bounds *)
Definition perform (s : qn) (m : dataMap) (windowStart : Qc) (f : vec -> vec) : option (qn * dataMap) :=
  bind (prepare s m windowStart) (fun s =>
  let values := f (q_values s) in
  let done v := QN (q_ids s) (q_primary s) (q_reduced s) (q_force s) false (q_firstWindow s) (q_grids s) (q_pgrids s) v (q_old s) (q_pvalues s) (q_pold s) in
  if q_first s && (q_firstWindow s || q_force s) then Some (done (q_values s), applyRelaxation m windowStart) else
  bind (updateCouplingData s m values windowStart) (fun m' => Some (done values, m'))).
(** 617-713 *)
Definition converged (s : qn) (m : dataMap) (windowStart : Qc) : option qn :=
  bind (prepare s m windowStart) (fun s =>
  Some (QN (q_ids s) (q_primary s) (q_reduced s) (q_force s) true (q_firstWindow s && q_first s) (q_grids s) (q_pgrids s) (q_values s) (q_old s) (q_pvalues s) (q_pold s))).
(** 82-115 *)
Definition start (ids primary : list nat) (reduced force : bool) : qn := QN ids primary reduced force true true [] [] [] [] [] [].

(** * Parallel participants, 890-931: [offsets id]: the vertex offsets of the mesh of the data, [steps id]:
    the number of times of its grid, [dims id]: its dimension *)
Definition dimOffset (ids : list nat) (offsets : nat -> list nat) (dims steps : nat -> nat) (i : nat) : nat :=
  match i with 0 => 0 | S i => fold_left (fun sum id => sum + nth i (offsets id) 0 * dims id * steps id) ids 0 end.
End Grid.
