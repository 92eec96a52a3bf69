(** Samples over time: src/time/Waveform.cpp.

    A storage is the list of its stamples (time stamp, sample) in order.  The
    cached spline [_bspline] is modelled in M_WaveCache.v. *)
From Coq Require Import ZArith Bool List.
From Verif Require Import M_Time.
Import ListNotations.
Open Scope Z_scope.

Section Wave.
Context {X : Type}.
Variable eps : Z.

Definition wave := list (Z * X).

(** the [find_if] + override of Waveform.cpp 43-51 *)
Fixpoint w_override (w : wave) (t : Z) (x : X) : option wave :=
  match w with
  | [] => None
  | (t0, x0) :: r =>
      if equals eps t0 t then Some ((t0, x) :: r)
      else match w_override r t x with None => None | Some r' => Some ((t0, x0) :: r') end
  end.

(** Waveform.cpp 75-82 *)
Fixpoint w_maxStored (w : wave) : Z :=
  match w with [] => -1 | [(t, _)] => t | _ :: r => w_maxStored r end.

(** Waveform.cpp 29-52; [None] is a failing assertion (lines 42, 46).  The NaN
    assertion of line 41 is not modelled. *)
Definition w_set (w : wave) (t : Z) (x : X) : option wave :=
  match w with
  | [] => Some [(t, x)]
  | (t0, _) :: _ =>
      if smallerEquals eps t0 t then
        match w_override w t x with
        | Some w' => Some w'
        | None => if smaller eps (w_maxStored w) t then Some (w ++ [(t, x)]) else None
        end
      else None
  end.

(** Waveform.cpp 54-59 *)
Definition w_setAll (w : wave) (x : X) : wave := map (fun p => (fst p, x)) w.

Fixpoint w_last (w : wave) : option (Z * X) :=
  match w with [] => None | [p] => Some p | _ :: r => w_last r end.

(** Waveform.cpp 95-105; [None] is the assertion nTimes() >= 2 *)
Definition w_move (w : wave) : option wave :=
  match w with
  | _ :: _ :: _ => match w_last w with Some p => Some [p] | None => None end
  | _ => None
  end.

(** Waveform.cpp 107-117 *)
Definition w_trim (w : wave) : option wave := match w with [] => None | p :: _ => Some [p] end.
(** Waveform.cpp 119-126 *)
Definition w_clear (w : wave) : wave := [].
(** Waveform.cpp 128-137 *)
Definition w_clearExceptLast (w : wave) : wave :=
  match w_last w with None => [] | Some p => [p] end.
(** Waveform.cpp 139-146 *)
Definition w_trimBefore (w : wave) (t : Z) : wave := filter (fun p => negb (smaller eps (fst p) t)) w.
(** Waveform.cpp 148-155 *)
Definition w_trimAfter (w : wave) (t : Z) : wave := filter (fun p => negb (greater eps (fst p) t)) w.

(** Waveform.cpp 157-167; [None]: assertion "no values found!" (or no sample) *)
Definition w_atOrAfter (w : wave) (t : Z) : option X :=
  match w with
  | [(_, x)] => Some x
  | _ => match find (fun p => greaterEquals eps (fst p) t) w with
         | Some p => Some (snd p)
         | None => None
         end
  end.

(** Waveform.cpp 247-251 *)
Definition w_atEnd (w : wave) : option X :=
  match w_last w with Some p => Some (snd p) | None => None end.

(** src/mesh/Data.cpp 97-104: only moves if there is more than one stample *)
Definition d_moveToNextWindow (w : wave) : wave :=
  match w with
  | _ :: _ :: _ => match w_move w with Some w' => w' | None => w end
  | _ => w
  end.

(** insert a list of stamples one after the other *)
Fixpoint w_setMany (w : wave) (l : list (Z * X)) : option wave :=
  match l with
  | [] => Some w
  | (t, x) :: r => match w_set w t x with None => None | Some w' => w_setMany w' r end
  end.

End Wave.
Arguments wave X : clear implicits.
