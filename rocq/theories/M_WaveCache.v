(** Waveforms with interpolation: src/time/Waveform.cpp and src/math/Bspline.cpp.

    Sample values are lists of rationals, times are integers (M_Wave.v).
    Gradients are an abstract type.  The linear solve of Bspline.cpp 56-60
    (Eigen::SparseQR) is a parameter [qr]. *)
From Coq Require Import ZArith QArith Bool List.
From Verif Require Import M_Time M_Wave.
Import ListNotations.
Open Scope nat_scope.

Definition qat (l : list Q) (i : nat) : Q := nth i l 0%Q.
Definition Qltb (a b : Q) : bool := negb (Qle_bool b a).

(** Eigen::KnotAveraging (unsupported/Eigen/Splines/SplineFitting.h), called in
    Bspline.cpp 34: degree+1 zeros, averages of [d] consecutive parameters,
    degree+1 ones *)
Definition qsum (l : list Q) : Q := fold_right Qplus 0%Q l.
Definition mean (l : list Q) : Q := (qsum l / inject_Z (Z.of_nat (length l)))%Q.
Definition segment {A} (l : list A) (i n : nat) : list A := firstn n (skipn i l).
Definition knotAveraging (ts : list Q) (d : nat) : list Q :=
  repeat 0%Q (d + 1)
  ++ map (fun j => mean (segment ts j d)) (seq 1 (length ts - d - 1))
  ++ repeat 1%Q (d + 1).

(** std::upper_bound on the knots [i, i + n): first index whose knot is > u *)
Fixpoint upperBound (U : list Q) (u : Q) (i n : nat) : nat :=
  match n with
  | O => i
  | S n' => if Qltb u (qat U i) then i else upperBound U u (S i) n'
  end.

(** Eigen::Spline::Span (unsupported/Eigen/Splines/Spline.h) *)
Definition span (u : Q) (d : nat) (U : list Q) : nat :=
  if Qle_bool u (qat U 0) then d
  else upperBound U u (d - 1) ((length U - d - 1) - (d - 1)) - 1.

(** Eigen::Spline::BasisFunctionsImpl: one round of the triangular scheme *)
Fixpoint basisInner (L R : nat -> Q) (j r : nat) (N : list Q) (saved : Q) : list Q :=
  match N with
  | [] => [saved]
  | x :: N' =>
      let tmp := (x / (R (r + 1)%nat + L (j - r)%nat))%Q in
      (saved + R (r + 1)%nat * tmp)%Q :: basisInner L R j (S r) N' (L (j - r)%nat * tmp)%Q
  end.
Fixpoint basisUpTo (u : Q) (U : list Q) (i j : nat) : list Q :=
  match j with
  | O => [1%Q]
  | S j' =>
      let L k := (u - qat U (i + 1 - k)%nat)%Q in
      let R k := (qat U (i + k)%nat - u)%Q in
      basisInner L R (S j') 0 (basisUpTo u U i j') 0%Q
  end.
Definition basis (u : Q) (d : nat) (U : list Q) : list Q := basisUpTo u U (span u d U) d.

Fixpoint dot (a b : list Q) : Q :=
  match a, b with x :: a', y :: b' => (x * y + dot a' b')%Q | _, _ => 0%Q end.

(** Eigen::Spline::operator() *)
Definition splineEval (U ctrls : list Q) (u : Q) : Q :=
  let d := length U - length ctrls - 1 in
  dot (basis u d U) (segment ctrls (span u d U - d) (d + 1)).

(** a sparse row: (column, coefficient) *)
Definition row := list (nat * Q).
Definition rowDot (r : row) (c : list Q) : Q := qsum (map (fun e => (snd e * qat c (fst e))%Q) r).

(** the collocation matrix, Bspline.cpp 38-51 *)
Definition collocationRow (ts : list Q) (d : nat) (U : list Q) (i : nat) : row :=
  if (i =? 0) || (i =? length ts - 1) then [(i, 1%Q)]
  else combine (seq (span (qat ts i) d U - d) (d + 1)) (basis (qat ts i) d U).
Definition collocation (ts : list Q) (d : nat) (U : list Q) : list row :=
  map (collocationRow ts d U) (seq 0 (length ts)).

Record spline := Spl {
  sp_knots : list Q; (* _knots *)
  sp_ctrls : list (list Q); (* _ctrls, one list per degree of freedom *)
  sp_min : Z; (* _tsMin *)
  sp_max : Z  (* _tsMax *)
}.

(** the lambda relativeTime, Bspline.cpp 27 *)
Definition relTime (tmin tmax t : Z) : Q := (inject_Z (t - tmin) / inject_Z (tmax - tmin))%Q.
Definition clamp01 (x : Q) : Q := if Qltb x 0 then 0%Q else if Qltb 1 x then 1%Q else x.

Section Wf.
Variable eps : Z.
Variable qr : list row -> list Q -> list Q.
Context {G : Type}.
Definition sample : Type := (list Q * G)%type.

Definition column (n : nat) (w : wave sample) : list Q := map (fun p => qat (fst (snd p)) n) w.
Definition nDofs (w : wave sample) : nat := match w with [] => 0 | p :: _ => length (fst (snd p)) end.

(** Bspline::Bspline on getTimesAndValues() (Waveform.cpp 189-198) *)
Definition mkSpline (w : wave sample) (d : nat) : spline :=
  let ts := map fst w in
  let tmin := hd 0%Z ts in let tmax := last ts 0%Z in
  let rs := map (relTime tmin tmax) ts in
  let U := knotAveraging rs d in
  Spl U (map (fun n => qr (collocation rs d U) (column n w)) (seq 0 (nDofs w))) tmin tmax.

(** Bspline.cpp 64-77 *)
Definition interpolateAt (sp : spline) (t : Z) : list Q :=
  let u := clamp01 (relTime (sp_min sp) (sp_max sp) t) in
  map (fun c => splineEval (sp_knots sp) c u) (sp_ctrls sp).

(** Waveform.hpp: _stampleStorage, _degree, _bspline *)
Record waveform := Wf { wf_st : wave sample; wf_deg : nat; wf_spline : option spline }.

(** Waveform.cpp 242-245 *)
Definition usedDegree (requested available : nat) : nat := Nat.min requested (available - 1).

(** the scan of Waveform.cpp 210-218: stop at the first stample equal to, or
    after, [t] *)
Fixpoint scan (w : wave sample) (t : Z) : option sample :=
  match w with
  | [] => None
  | (u, x) :: r => if equals eps u t then Some x else if greater eps u t then None else scan r t
  end.

(** Waveform.cpp 200-228; [None] is a failing assertion; also returns the
    waveform because the spline is cached *)
Definition wf_sample (f : waveform) (t : Z) : option (list Q * waveform) :=
  match wf_st f with
  | [] => None
  | _ =>
      let d := usedDegree (wf_deg f) (length (wf_st f)) in
      if d =? 0 then
        match w_atOrAfter eps (wf_st f) t with None => None | Some x => Some (fst x, f) end
      else
        match scan (wf_st f) t with
        | Some x => Some (fst x, f)
        | None =>
            let sp := match wf_spline f with Some sp => sp | None => mkSpline (wf_st f) d end in
            Some (interpolateAt sp t, Wf (wf_st f) (wf_deg f) (Some sp))
        end
  end.

(** Waveform.cpp 230-240 *)
Definition wf_sampleGradients (f : waveform) (t : Z) : option G :=
  match w_atOrAfter eps (wf_st f) t with None => None | Some x => Some (snd x) end.

Inductive op :=
| OSet (t : Z) (x : sample)     (* setSampleAtTime, 29-52 *)
| OSetAll (x : sample)          (* setAllSamples, 54-59 *)
| ODegree (d : nat)             (* setInterpolationDegree, 61-68 *)
| OMove | OTrim | OClear | OClearExceptLast (* 95-137 *)
| OTrimBefore (t : Z) | OTrimAfter (t : Z) (* 139-155 *)
| OAssign (w : wave sample) (d : nat) (* operator=, 19-27 *)
| OInPlace (g : Z -> sample -> sample) (* writing through stamples(), e.g. Acceleration.cpp 28-44 *)
| OSample (t : Z).              (* sample, 200-228 *)

Definition reset (o : option (wave sample)) (d : nat) : option waveform :=
  match o with None => None | Some w => Some (Wf w d None) end.

(** [None] is a failing assertion *)
Definition wf_op (o : op) (f : waveform) : option waveform :=
  match o with
  | OSet t x => reset (w_set eps (wf_st f) t x) (wf_deg f)
  | OSetAll x => Some (Wf (w_setAll (wf_st f) x) (wf_deg f) (wf_spline f))
  | ODegree d => Some (Wf (wf_st f) d None)
  | OMove => reset (w_move (wf_st f)) (wf_deg f)
  | OTrim => reset (w_trim (wf_st f)) (wf_deg f)
  | OClear => Some (Wf (w_clear (wf_st f)) (wf_deg f) None)
  | OClearExceptLast =>
      match wf_st f with
      | [] => Some f
      | w => Some (Wf (w_clearExceptLast w) (wf_deg f) None)
      end
  | OTrimBefore t => Some (Wf (w_trimBefore eps (wf_st f) t) (wf_deg f) None)
  | OTrimAfter t => Some (Wf (w_trimAfter eps (wf_st f) t) (wf_deg f) None)
  | OAssign w d => reset (w_setMany eps [] w) d
  | OInPlace g => Some (Wf (map (fun p => (fst p, g (fst p) (snd p))) (wf_st f)) (wf_deg f) (wf_spline f))
  | OSample t => match wf_sample f t with None => None | Some (_, f') => Some f' end
  end.

Fixpoint wf_run (l : list op) (f : waveform) : option waveform :=
  match l with
  | [] => Some f
  | o :: r => match wf_op o f with None => None | Some f' => wf_run r f' end
  end.

(** Waveform.cpp 12-17 *)
Definition wf_new (d : nat) : waveform := Wf [] d None.
End Wf.
