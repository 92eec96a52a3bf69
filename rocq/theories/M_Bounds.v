(** Bounds of coupling data in quasi-Newton acceleration.

    Models acceleration/BaseQNAcceleration.cpp 99-110 (data with bounds), 117-149
    (checkBoundViolation), 151-174 (onBoundViolationsClamp), 176-223
    (onBoundViolationsScale), 225-235 (clampToBounds), 237-258
    (computeShorteningFactor), 484-516 (their use in performAcceleration) for all ranks
    of a participant.

    Simplifications: real arithmetic (rationals); the quasi-Newton update is an input;
    the collective operations of the ranks return the sum and the maximum at once
    (they are modelled in M_Comm and M_Ring).  [None] is a failing assertion or an access
    out of range. *)
From Coq Require Import QArith Bool List Arith.
Import ListNotations.
Open Scope nat_scope.

Definition vec := list Q.

(** CouplingData: getDimensions(), getLowerBound(), getUpperBound() *)
Record dataInfo := Info { i_dim : nat; i_lower : list (option Q); i_upper : list (option Q) }.
(** Eigen's operator< and operator> *)
Definition qlt (a b : Q) : bool := negb (Qle_bool b a).
Definition qmax (a b : Q) : Q := if Qle_bool a b then b else a.
Definition qmin (a b : Q) : Q := if Qle_bool a b then a else b.
Definition qabs (a : Q) : Q := if Qle_bool 0 a then a else (- a)%Q.

(** BaseQNAcceleration.cpp 104-109: the data is in _idsWithBounds *)
Definition hasValue (o : option Q) : bool := match o with Some _ => true | None => false end.
Definition withBounds (d : dataInfo) : bool := existsb hasValue (i_lower d) || existsb hasValue (i_upper d).

(** [Eigen::Map<Eigen::MatrixXd>(data, dataDimension, size / dataDimension)]: entry [i] of
    the segment is in row [i mod dataDimension], if it belongs to the matrix at all *)
Definition covered (d : dataInfo) (size i : nat) : bool := i <? i_dim d * (size / i_dim d).
Definition lowerAt (d : dataInfo) (i : nat) : option Q := nth (i mod i_dim d) (i_lower d) None.
Definition upperAt (d : dataInfo) (i : nat) : option Q := nth (i mod i_dim d) (i_upper d) None.

Definition indexed {A} (l : list A) : list (nat * A) := combine (seq 0 (length l)) l.

(** 138-144 *)
Definition entryViolates (d : dataInfo) (i : nat) (x : Q) : bool :=
  match lowerAt d i with Some b => qlt x b | None => false end || match upperAt d i with Some b => qlt b x | None => false end.
Definition violates (d : dataInfo) (segment : vec) : bool :=
  existsb (fun q => covered d (length segment) (fst q) && entryViolates d (fst q) (snd q)) (indexed segment).

(** [data.segment(offset, size)] and what comes after it *)
Definition cut (size : nat) (data : vec) : option (vec * vec) :=
  if size <=? length data then Some (firstn size data, skipn size data) else None.

(** checkBoundViolation 117-149; the offset is that of the part of the data that is left,
    the result is the list of flags of all data instead of the list of violating IDs *)
Fixpoint checkBoundViolation (ds : list (dataInfo * nat)) (data : vec) : option (list bool) :=
  match ds with
  | [] => Some []
  | (d, size) :: r =>
      match cut size data with
      | None => None
      | Some (segment, rest) =>
          match checkBoundViolation r rest with
          | None => None
          | Some l => Some ((withBounds d && violates d segment) :: l)
          end
      end
  end.

(** clampToBounds 225-235 *)
Definition clampEntry (d : dataInfo) (size : nat) (q : nat * Q) : Q :=
  if covered d size (fst q) then
    let x := match lowerAt d (fst q) with Some b => qmax (snd q) b | None => snd q end in
    match upperAt d (fst q) with Some b => qmin x b | None => x end
  else snd q.
Definition clampToBounds (d : dataInfo) (segment : vec) : vec := map (clampEntry d (length segment)) (indexed segment).

(** onBoundViolationsClamp 151-174 *)
Fixpoint onBoundViolationsClamp (ds : list (dataInfo * nat)) (violating : list bool) (data : vec) : option vec :=
  match ds, violating with
  | (d, size) :: r, v :: vs =>
      match cut size data with
      | None => None
      | Some (segment, rest) =>
          match onBoundViolationsClamp r vs rest with
          | None => None
          | Some l => Some ((if v then clampToBounds d segment else segment) ++ l)
          end
      end
  | _, _ => Some data
  end.

(** one coefficient of [(denominator != 0.0).select(numerator / denominator, 0.0)], 243-252 *)
Definition quotient (numerator denominator : Q) : Q := if Qeq_bool denominator 0 then 0%Q else (numerator / denominator)%Q.
Definition shortening (d : dataInfo) (size : nat) (q : nat * (Q * Q)) : Q :=
  let '(i, (x, u)) := q in
  if covered d size i then
    qmax (match lowerAt d i with Some b => quotient (x - b)%Q (- qabs u)%Q | None => 0%Q end)
         (match upperAt d i with Some b => quotient (x - b)%Q (qabs u) | None => 0%Q end)
  else 0%Q.
(** computeShorteningFactor 237-258 with its assertions *)
Definition computeShorteningFactor (d : dataInfo) (data update : vec) : option Q :=
  let s := fold_left qmax (map (shortening d (length data)) (indexed (combine data update))) 0%Q in
  if Qle_bool 0 s && Qle_bool s 1 then Some s else None.

(** the loop of onBoundViolationsScale, 178-201 *)
Fixpoint localScale (ds : list (dataInfo * nat)) (violating : list bool) (data update : vec) : option Q :=
  match ds, violating with
  | (d, size) :: r, v :: vs =>
      match cut size data, cut size update with
      | Some (segment, rest), Some (upd, rest') =>
          match (if v then computeShorteningFactor d segment upd else Some 0%Q), localScale r vs rest rest' with
          | Some s, Some t => Some (qmax s t)
          | _, _ => None
          end
      | _, _ => None
      end
  | _, _ => Some 0%Q
  end.

(** coefficient-wise operations; both vectors have the same size *)
Definition zipWith (f : Q -> Q -> Q) (a b : vec) : vec := map (fun q => f (fst q) (snd q)) (combine a b).

(** one rank: the sizes of its data (values().size()), the values before the update and
    the quasi-Newton update *)
Record rank := Rank { r_sizes : list nat; r_values : vec; r_update : vec }.
(** acceleration/Acceleration.hpp: OnBoundViolation *)
Inductive onBoundViolation := Ignore | Clamp | Discard | ScaleToBound.

Fixpoint mapM {A B} (f : A -> option B) (l : list A) : option (list B) :=
  match l with
  | [] => Some []
  | a :: r => match f a, mapM f r with Some b, Some q => Some (b :: q) | _, _ => None end
  end.

(** 487-516 on all ranks *)
Definition applyUpdate (infos : list dataInfo) (policy : onBoundViolation) (ranks : list rank) : option (list vec) :=
  let updated r := zipWith Qplus (r_values r) (r_update r) in
  let ds r := combine infos (r_sizes r) in
  if negb (existsb withBounds infos) then Some (map updated ranks)
  else
    match policy with
    | Ignore => Some (map updated ranks)
    | _ =>
        match mapM (fun r => checkBoundViolation (ds r) (updated r)) ranks with
        | None => None
        | Some flags =>
            let rs := combine ranks flags in
            let any := existsb (existsb (fun v => v)) flags in
            match policy with
            | Clamp => mapM (fun q => if existsb (fun v => v) (snd q) then onBoundViolationsClamp (ds (fst q)) (snd q) (updated (fst q))
                                      else Some (updated (fst q))) rs
            | Discard => Some (if any then map (fun r => zipWith Qminus (updated r) (r_update r)) ranks else map updated ranks)
            | _ =>
                if any then
                  match mapM (fun q => localScale (ds (fst q)) (snd q) (updated (fst q)) (r_update (fst q))) rs with
                  | None => None
                  | Some scales =>
                      let s := fold_left qmax scales 0%Q in
                      Some (map (fun r => zipWith (fun x u => x - u * s)%Q (updated r) (r_update r)) ranks)
                  end
                else Some (map updated ranks)
            end
        end
    end.
