(** Tolerant comparisons and the time handler.

    Times are integers counting ticks; the tolerance [eps] is a parameter.
    Arithmetic is exact. *)
From Coq Require Import ZArith Bool List.
Import ListNotations.
Open Scope Z_scope.

(** src/math/differences.hpp: equals, greater, greaterEquals, smaller,
    smallerEquals (scalar versions). *)
Definition equals (eps a b : Z) : bool := Z.abs (a - b) <=? eps.
Definition greater (eps a b : Z) : bool := eps <? a - b.
Definition greaterEquals (eps a b : Z) : bool := - eps <=? a - b.
Definition smaller (eps a b : Z) : bool := a - b <? - eps.
Definition smallerEquals (eps a b : Z) : bool := a - b <=? eps.

(** src/cplscheme/impl/TimeHandler.cpp 11-21.  [utils::DoubleAggregator]
    (Kahan summation, src/utils/DoubleAggregator.hpp) is exact addition. *)
Record thandler := TH { th_max : option Z; th_start : Z; th_prog : Z }.

(** TimeHandler.cpp 61-65 *)
Definition th_resetTo (t : Z) (h : thandler) := TH (th_max h) t 0.
(** TimeHandler.cpp 67-70 *)
Definition th_progressBy (dt : Z) (h : thandler) := TH (th_max h) (th_start h) (th_prog h + dt).
(** TimeHandler.cpp 72-75 *)
Definition th_resetProgress (h : thandler) := TH (th_max h) (th_start h) 0.
(** TimeHandler.cpp 119-123 *)
Definition th_untilTime (h : thandler) (t : Z) := - (th_start h + th_prog h - t).
(** TimeHandler.cpp 125-131; [None] stands for numeric_limits<double>::max() *)
Definition th_untilEnd (h : thandler) : option Z :=
  match th_max h with None => None | Some T => Some (th_untilTime h T) end.
(** TimeHandler.cpp 150-154 *)
Definition th_untilProgress (h : thandler) (w : Z) := - (th_prog h - w).
(** TimeHandler.cpp 109-117 *)
Definition th_untilWindowEnd (h : thandler) (w : Z) : Z :=
  match th_max h with
  | None => th_untilProgress h w
  | Some T => Z.min (th_untilProgress h w) (th_untilTime h T)
  end.
(** TimeHandler.cpp 94-97 *)
Definition th_reachedEndOfWindow (eps : Z) (h : thandler) (w : Z) : bool :=
  equals eps (th_untilWindowEnd h w) 0.
(** TimeHandler.cpp 99-105 *)
Definition th_reachedEnd (eps : Z) (h : thandler) : bool :=
  match th_max h with None => false | Some T => equals eps (th_untilTime h T) 0 end.
(** TimeHandler.cpp 145-148 *)
Definition th_time (h : thandler) : Z := th_start h + th_prog h.
(** TimeHandler.cpp 77-90; [None] is the failing assertion of line 86 *)
Definition th_completeTimeWindow (eps : Z) (h : thandler) (w : Z) : option thandler :=
  if equals eps (th_prog h) w
  then Some (TH (th_max h) (th_start h + w) 0)
  else if th_reachedEnd eps h
       then Some (TH (th_max h) (th_start h + th_prog h) 0)
       else None.
