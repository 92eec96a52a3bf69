(** Relaxation and Aitken acceleration.

    Models acceleration/Acceleration.cpp 17-46 (applyRelaxation),
    acceleration/ConstantRelaxationAcceleration.cpp 15-38,
    acceleration/AitkenAcceleration.cpp 22-143 and the parts of
    cplscheme/CouplingData.cpp they use (96-110 sampling the previous iteration,
    177-182 storeIteration, 232-240 moveToNextWindow).

    Simplifications: real arithmetic (rationals); the vectors of all ranks are one
    vector, so IntraComm::dot is a dot product; the weights of the preconditioner
    are an input of each iteration; a division by zero (NaN in the code) is [None].
    [None] is a failing assertion otherwise. *)
From Coq Require Import ZArith QArith Bool List.
From Verif Require Import M_Time M_Wave M_WaveCache.
Import ListNotations.
Open Scope nat_scope.

Section Accel.
Variable eps : Z.                             (* tolerance for times *)
Variable qr : list row -> list Q -> list Q.   (* see M_WaveCache *)
Variable tol : Q.                             (* tolerance for numbers, math/differences.hpp *)

Definition vec := list Q.
Definition smp := (vec * vec)%type.           (* time/Sample.hpp: values and gradients *)
Definition wform := waveform (G := vec).

(** coefficient-wise operations of Eigen; the sizes must agree *)
Fixpoint zip (f : Q -> Q -> Q) (a b : vec) : option vec :=
  match a, b with
  | [], [] => Some []
  | x :: r, y :: q => match zip f r q with None => None | Some l => Some (f x y :: l) end
  | _, _ => None
  end.
(** [values * omega + old * (1.0 - omega)], Acceleration.cpp 36 and 41 *)
Definition relax (omega : Q) (values old : vec) : option vec := zip (fun v o => v * omega + o * (1 - omega))%Q values old.

(** CouplingData: the data, the waveform of the previous iteration, hasGradient() and
    the global sample of the data *)
Record couplingData := CD { cd_wave : wform; cd_prev : wform; cd_gradient : bool; cd_global : option smp }.
Definition dataMap := list (nat * couplingData).
Fixpoint at_ (m : dataMap) (id : nat) : option couplingData :=
  match m with [] => None | (i, d) :: r => if i =? id then Some d else at_ r id end.

(** the body of the inner loop, Acceleration.cpp 28-44, for one stample *)
Definition relaxStample (omega : Q) (windowStart : Z) (gradient : bool) (prev : wform) (g : option smp) (q : Z * smp)
  : option ((Z * smp) * wform * option smp) :=
  if negb (greater eps (fst q) windowStart) then Some (q, prev, g)
  else
    match wf_sample eps qr prev (fst q) with
    | None => None
    | Some (old, prev') =>
        match relax omega (fst (snd q)) old with
        | None => None
        | Some values =>
            match (if gradient then
                     match wf_sampleGradients eps prev' (fst q) with None => None | Some og => relax omega (snd (snd q)) og end
                   else Some (snd (snd q))) with
            | None => None
            | Some gradients => Some ((fst q, (values, gradients)), prev', Some (values, gradients))
            end
        end
    end.
Fixpoint relaxStamples (omega : Q) (windowStart : Z) (gradient : bool) (l : wave smp) (prev : wform) (g : option smp)
  : option (wave smp * wform * option smp) :=
  match l with
  | [] => Some ([], prev, g)
  | q :: r =>
      match relaxStample omega windowStart gradient prev g q with
      | None => None
      | Some (q', prev', g') =>
          match relaxStamples omega windowStart gradient r prev' g' with
          | None => None
          | Some (r', prev'', g'') => Some (q' :: r', prev'', g'')
          end
      end
  end.
(** the waveform is changed in place: a cached spline stays *)
Definition relaxData (omega : Q) (windowStart : Z) (d : couplingData) : option couplingData :=
  match relaxStamples omega windowStart (cd_gradient d) (wf_st (cd_wave d)) (cd_prev d) (cd_global d) with
  | None => None
  | Some (l, prev, g) => Some (CD (Wf l (wf_deg (cd_wave d)) (wf_spline (cd_wave d))) prev (cd_gradient d) g)
  end.
(** Acceleration.cpp 17-46 *)
Fixpoint applyRelaxation (omega : Q) (m : dataMap) (windowStart : Z) : option dataMap :=
  match m with
  | [] => Some []
  | (id, d) :: r =>
      match relaxData omega windowStart d, applyRelaxation omega r windowStart with
      | Some d', Some r' => Some ((id, d') :: r')
      | _, _ => None
      end
  end.

(** ConstantRelaxationAcceleration.cpp 15-26: the check of the constructor, and 33-38 *)
Definition constantOk (relaxation : Q) : bool := Qltb 0 relaxation && Qle_bool relaxation 1.
Definition constantRelaxation (relaxation : Q) (m : dataMap) (windowStart : Z) : option dataMap :=
  applyRelaxation relaxation m windowStart.

(** CouplingData.cpp 177-182 and 232-240: operator= of the waveform drops the spline *)
Definition storeIteration (d : couplingData) : option couplingData :=
  match wf_st (cd_wave d) with
  | [] => None
  | w => Some (CD (cd_wave d) (Wf w (wf_deg (cd_wave d)) None) (cd_gradient d) (cd_global d))
  end.

(** * Aitken *)
(** _initialRelaxation, _primaryDataIDs, _aitkenFactor, _oldResiduals, _iterationCounter *)
Record aitken := Aitken { a_initial : Q; a_ids : list nat; a_factor : Q; a_old : vec; a_counter : nat }.
(** 22-37 and 39-63: the check of the constructor and the state after initialize *)
Definition aitkenNew (initial : Q) (ids : list nat) (entries : nat) : option aitken :=
  if Qltb 0 initial && Qle_bool initial 1 then Some (Aitken initial ids initial (repeat 0%Q entries) 0) else None.

(** math/math.hpp 10-18 *)
Definition sign (x : Q) : Q := if Qltb tol x then 1%Q else if Qltb tol (- x) then (- (1))%Q else 0%Q.
Definition qabs (x : Q) : Q := if Qltb x 0 then (- x)%Q else x.
Definition qmin (a b : Q) : Q := if Qltb b a then b else a.
Definition dotv (a b : vec) : Q := fold_right Qplus 0%Q (map (fun p => fst p * snd p)%Q (combine a b)).

(** 123-143: the values at the end of the window, of all primary data.  The end of
    the window is a time stamp, so sampling there caches no spline. *)
Fixpoint concatenate (m : dataMap) (ids : list nat) (windowEnd : Z) : option (vec * vec) :=
  match ids with
  | [] => Some ([], [])
  | id :: r =>
      match at_ m id with
      | None => None
      | Some d =>
          match wf_sample eps qr (cd_wave d) windowEnd, wf_sample eps qr (cd_prev d) windowEnd, concatenate m r windowEnd with
          | Some (v, _), Some (o, _), Some (vs, os) => if length v =? length o then Some (v ++ vs, o ++ os) else None
          | _, _, _ => None
          end
      end
  end.

(** 79-105: the factor.  [weights] are the weights of the preconditioner, which is
    only used for more than one primary data. *)
Definition weigh (a : aitken) (weights v : vec) : option vec :=
  if 1 <? length (a_ids a) then zip Qmult v weights else Some v.
Definition nextFactor (a : aitken) (weights residuals : vec) : option Q :=
  match zip Qminus residuals (a_old a) with
  | None => None
  | Some deltas =>
      if a_counter a =? 0 then Some (sign (a_factor a) * qmin (a_initial a) (qabs (a_factor a)))%Q
      else
        match weigh a weights deltas, weigh a weights (a_old a) with
        | Some d, Some o =>
            let denominator := dotv d d in
            if Qeq_bool denominator 0 then None else Some (- a_factor a * (dotv o d / denominator))%Q
        | _, _ => None
        end
  end.
(** 65-117 *)
Definition aitkenPerform (a : aitken) (weights : vec) (m : dataMap) (windowStart windowEnd : Z) : option (aitken * dataMap) :=
  match concatenate m (a_ids a) windowEnd with
  | None => None
  | Some (values, oldValues) =>
      match zip Qminus values oldValues with
      | None => None
      | Some residuals =>
          match nextFactor a weights residuals with
          | None => None
          | Some f =>
              match applyRelaxation f m windowStart with
              | None => None
              | Some m' => Some (Aitken (a_initial a) (a_ids a) f residuals (S (a_counter a)), m')
              end
          end
      end
  end.
(** 119-121: [huge] is numeric_limits::max() *)
Definition aitkenConverged (huge : Q) (a : aitken) : aitken :=
  Aitken (a_initial a) (a_ids a) (a_factor a) (repeat huge (length (a_old a))) 0.
End Accel.
