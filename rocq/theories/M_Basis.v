(** The radial basis functions (mapping/impl/BasisFunctions.hpp) and how the configuration creates
    them (mapping/config/MappingConfiguration.cpp), over real numbers: rounding is left out. *)
From Coq Require Import Reals Arith.
Open Scope R_scope.

(** math::pow_int, math/math.hpp 21-40: the loop, [fuel] bounds the number of rounds *)
Fixpoint powLoop (fuel e : nat) (x y : R) : R :=
  match fuel with
  | O => x * y
  | S fuel' => if (1 <? e)%nat then if Nat.odd e then powLoop fuel' (Nat.div e 2) (x * x) (x * y) else powLoop fuel' (Nat.div e 2) (x * x) y else x * y
  end.
Definition pow_int (e : nat) (base : R) : R := if (e =? 0)%nat then 1 else powLoop e e base 1.

(** NUMERICAL_ZERO_DIFFERENCE, math/differences.hpp 8, and the one of BasisFunctions.hpp 22 *)
Definition tolerance : R := / 10 ^ 14.
(** math::greater(x, 0.0), math/differences.hpp 71-74 *)
Definition positive (x : R) : bool := if Rlt_dec tolerance (x - 0) then true else false.
(** Gaussian::cutoffThreshold, 285 *)
Definition cutoffThreshold : R := / 10 ^ 9.

(** BasisFunction, MappingConfiguration.hpp *)
Inductive basis :=
  CompactPolynomialC0 | CompactPolynomialC2 | CompactPolynomialC4 | CompactPolynomialC6 | CompactPolynomialC8 | CompactThinPlateSplinesC2 |
  ThinPlateSplines | VolumeSplines | Multiquadrics | InverseMultiquadrics | Gaussian.
(** an object: its class and its RadialBasisParameters *)
Record rbf := Rbf { kind : basis; parameter1 : R; parameter2 : R; parameter3 : R }.

(** the functions behind the test p >= 1: 334, 386, 439, 492, 544, 596; fma is exact *)
Definition compactShape (k : basis) (p : R) : R :=
  match k with
  | CompactPolynomialC0 => pow_int 2 (1 - p)
  | CompactPolynomialC2 => pow_int 4 (1 - p) * (4 * p + 1)
  | CompactPolynomialC4 => pow_int 6 (1 - p) * (35 * pow_int 2 p + (18 * p + 3))
  | CompactPolynomialC6 => pow_int 8 (1 - p) * (32 * pow_int 3 p + 25 * pow_int 2 p + (8 * p + 1))
  | CompactPolynomialC8 => pow_int 10 (1 - p) * (1287 * pow_int 4 p + 1350 * pow_int 3 p + 630 * pow_int 2 p + 150 * p + 15)
  | _ => 1 - 30 * pow_int 2 p - 10 * pow_int 3 p + 45 * pow_int 4 p - 6 * pow_int 5 p - pow_int 3 p * 60 * ln (Rmax p tolerance)
  end.
(** operator() and evaluate of all classes: 95-99, 131-135, 172-176, 204-207, 263-272, 328-336, 380-388,
    433-441, 486-494, 538-546, 590-598 *)
Definition evaluate (f : rbf) (radius : R) : R :=
  match kind f with
  | ThinPlateSplines => ln (Rmax radius tolerance) * pow_int 2 radius
  | VolumeSplines => Rabs radius
  | Multiquadrics => sqrt (parameter1 f + pow_int 2 radius)
  | InverseMultiquadrics => 1 / sqrt (parameter1 f + pow_int 2 radius)
  | Gaussian => if Rlt_dec (parameter2 f) radius then 0 else exp (- pow_int 2 (parameter1 f * radius)) - parameter3 f
  | k => let p := radius * parameter1 f in if Rle_dec 1 p then 0 else compactShape k p
  end.
(** hasCompactSupport, 46-66, and getSupportRadius; None: no compact support *)
Definition getSupportRadius (f : rbf) : option R :=
  match kind f with
  | ThinPlateSplines | VolumeSplines | Multiquadrics | InverseMultiquadrics => None
  | Gaussian => Some (parameter2 f)
  | _ => Some (1 / parameter1 f)
  end.
(** isStrictlyPositiveDefinite, 71-77 and the base classes *)
Definition isStrictlyPositiveDefinite (k : basis) : bool := match k with ThinPlateSplines | Multiquadrics | VolumeSplines => false | _ => true end.

(** the constructor of the classes with a support radius, 308-316 and alike; None: std::invalid_argument *)
Definition newCompact (k : basis) (supportRadius : R) : option rbf := if positive supportRadius then Some (Rbf k (1 / supportRadius) 0 0) else None.
(** the constructor of Gaussian, 229-251; no support radius: infinity *)
Definition newGaussian (shape : R) (supportRadius : option R) : option rbf :=
  if negb (positive shape) then None
  else if negb (match supportRadius with None => true | Some r => positive r end) then None
  else
    let threshold := sqrt (- ln cutoffThreshold) / shape in
    match supportRadius with
    | None => Some (Rbf Gaussian shape threshold 0)
    | Some r =>
        let radius := Rmin r threshold in
        Some (Rbf Gaussian shape radius (evaluate (Rbf Gaussian shape radius 0) r))
    end.
(** constructRBF, MappingConfiguration.cpp 113-157; None: the error of 155 *)
Definition constructRBF (k : basis) (supportRadius shapeParameter : R) : option rbf :=
  match k with
  | ThinPlateSplines | VolumeSplines => Some (Rbf k 0 0 0)
  | Multiquadrics => Some (Rbf k (pow_int 2 shapeParameter) 0 0)
  | InverseMultiquadrics => if positive shapeParameter then Some (Rbf k (pow_int 2 shapeParameter) 0 0) else None
  | Gaussian => newGaussian shapeParameter None
  | _ => newCompact k supportRadius
  end.

(** What a basis-function tag leads to: an error, a function, or a Gaussian with an infinite shape parameter,
    whose support radius is 0 (242-243) *)
Inductive outcome := Refused | Created (f : rbf) | InfiniteShape.
Definition created (o : option rbf) : outcome := match o with None => Refused | Some f => Created f end.
(** xmlTagCallback, MappingConfiguration.cpp 506-524, and getRBFMapping, 167.  An attribute that is not given is
    0, for Gaussian not a number; the division by 0 of 519 gives infinity. *)
Definition configured (k : basis) (supportRadius shapeParameter : option R) : outcome :=
  match k with
  | Gaussian =>
      match supportRadius, shapeParameter with
      | Some r, None => if Req_EM_T r 0 then InfiniteShape else created (constructRBF k r (sqrt (- ln cutoffThreshold) / r))
      | None, Some s => created (constructRBF k 0 s)
      | _, _ => Refused
      end
  | _ => created (constructRBF k (match supportRadius with Some r => r | None => 0 end) (match shapeParameter with Some s => s | None => 0 end))
  end.
(** what the function gives; None: not a number, which is infinity times 0 *)
Definition value (o : outcome) (radius : R) : option R :=
  match o with
  | Refused => None
  | Created f => Some (evaluate f radius)
  | InfiniteShape => if Rlt_dec 0 radius then Some 0 else None
  end.
