(** The function of the coarse-graining mapping (mapping/CoarseGrainingMapping.cpp),
    over real numbers: rounding is left out and pi is exact. *)
From Coq Require Import Reals.
Open Scope R_scope.

(** 26-59: evaluate; 1, 2 and 3 are the grain dimension, other values are unreachable *)
Definition lucyFactor (grainDim : nat) (c : R) : R :=
  match grainDim with
  | 1%nat => 5 * (1 / (3 * c))
  | 2%nat => 5 * (1 / (PI * c ^ 2))
  | _ => 105 * (1 / (16 * PI * c ^ 3))
  end.
Definition lucyShape (grainDim : nat) (ratio : R) : R :=
  match grainDim with
  | 1%nat => (1 + ratio) * (1 - ratio) ^ 3
  | _ => (1 + 3 * ratio) * (1 - ratio) ^ 3
  end.
Definition evaluate (grainDim : nat) (c r : R) : R :=
  if Rlt_dec c r then 0 else lucyFactor grainDim c * lucyShape grainDim (r / c).
(** 66-78: the constructor *)
Definition grainDim : nat := 3.
