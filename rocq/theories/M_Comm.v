(** Messages between ranks: src/com/Communication.{hpp,cpp}.

    Simplifications: a rank is a process number, the rank offset of a connection
    is part of it; an asynchronous send followed by a wait is a blocking send,
    and asynchronous sends to several ranks that are waited for together are
    blocking sends in this order (which allows fewer schedules).  A message is
    received with the type and length it was sent with, otherwise the receiver
    fails (MPI: truncation error; sockets: would mix up messages). *)
From Coq Require Import ZArith QArith List Arith.
From Verif Require Import M_Net.
Import ListNotations.
Open Scope nat_scope.
Open Scope proc_scope.

Inductive packet :=
| KInt (z : Z)
| KInts (l : list Z)
| KDbl (q : Q)
| KDbls (l : list Q).

(** Communication::send / receive *)
Definition sendInt (d : nat) (z : Z) : proc packet unit := send d (KInt z).
Definition recvInt (s : nat) : proc packet Z :=
  m <- recv s ;; match m with KInt z => PRet z | _ => PErr (EAssert 100) end.
Definition sendInts (d : nat) (l : list Z) : proc packet unit := send d (KInts l).
Definition recvInts (s n : nat) : proc packet (list Z) :=
  m <- recv s ;;
  match m with KInts l => if length l =? n then PRet l else PErr (EAssert 101) | _ => PErr (EAssert 101) end.
Definition sendDbl (d : nat) (q : Q) : proc packet unit := send d (KDbl q).
Definition recvDbl (s : nat) : proc packet Q :=
  m <- recv s ;; match m with KDbl q => PRet q | _ => PErr (EAssert 102) end.
Definition sendDbls (d : nat) (l : list Q) : proc packet unit := send d (KDbls l).
Definition recvDbls (s n : nat) : proc packet (list Q) :=
  m <- recv s ;;
  match m with KDbls l => if length l =? n then PRet l else PErr (EAssert 103) | _ => PErr (EAssert 103) end.

Definition sizeOf {A} (l : list A) : Z := Z.of_nat (length l).

(** Communication.cpp 319-326 *)
Definition sendRangeInt (d : nat) (l : list Z) : proc packet unit :=
  sendInt d (sizeOf l) ;;;
  if (0 <? sizeOf l)%Z then sendInts d l else PRet tt.
(** Communication.cpp 328-339 *)
Definition receiveRangeInt (s : nat) : proc packet (list Z) :=
  size <- recvInt s ;;
  check (0 <=? size)%Z (EAssert 104) ;;;
  if (0 <? size)%Z then recvInts s (Z.to_nat size) else PRet [].
(** Communication.cpp 310-317 *)
Definition sendRangeDbl (d : nat) (l : list Q) : proc packet unit :=
  sendInt d (sizeOf l) ;;;
  if (0 <? sizeOf l)%Z then sendDbls d l else PRet tt.
(** Communication.cpp 341-352 *)
Definition receiveRangeDbl (s : nat) : proc packet (list Q) :=
  size <- recvInt s ;;
  check (0 <=? size)%Z (EAssert 104) ;;;
  if (0 <? size)%Z then recvDbls s (Z.to_nat size) else PRet [].

(** loops over ranks: with an accumulator, and without *)
Fixpoint foldRanks {M S} (l : list nat) (f : nat -> S -> proc M S) (s : S) : proc M S :=
  match l with [] => PRet s | r :: l' => s' <- f r s ;; foldRanks l' f s' end.
Definition forRanks {M} (l : list nat) (f : nat -> proc M unit) : proc M unit := foldRanks l (fun r _ => f r) tt.

(** ** Broadcasts: Communication.cpp 185-308 (primary side, others) *)
Definition bcastInt (rs : list nat) (z : Z) : proc packet unit := forRanks rs (fun r => sendInt r z).
Definition bcastIntRecv (b : nat) : proc packet Z := recvInt b.
Definition bcastDbl (rs : list nat) (q : Q) : proc packet unit := forRanks rs (fun r => sendDbl r q).
Definition bcastDblRecv (b : nat) : proc packet Q := recvDbl b.
Definition bcastInts (rs : list nat) (l : list Z) : proc packet unit := forRanks rs (fun r => sendInts r l).
Definition bcastDbls (rs : list nat) (l : list Q) : proc packet unit := forRanks rs (fun r => sendDbls r l).
(** 263-268 *)
Definition bcastBool (rs : list nat) (b : bool) : proc packet unit := bcastInt rs (if b then 1 else 0)%Z.
(** 270-276 *)
Definition bcastBoolRecv (b : nat) : proc packet bool :=
  z <- recvInt b ;; PRet (negb (Z.eqb z 0)).
(** 278-282 *)
Definition bcastVecInt (rs : list nat) (l : list Z) : proc packet unit :=
  bcastInt rs (sizeOf l) ;;; bcastInts rs l.
(** 284-292 *)
Definition bcastVecIntRecv (b : nat) : proc packet (list Z) :=
  size <- recvInt b ;; recvInts b (Z.to_nat size).
(** 294-308 *)
Definition bcastVecDbl (rs : list nat) (l : list Q) : proc packet unit :=
  bcastInt rs (sizeOf l) ;;; bcastDbls rs l.
Definition bcastVecDblRecv (b : nat) : proc packet (list Q) :=
  size <- recvInt b ;; recvDbls b (Z.to_nat size).

(** ** Reductions: Communication.cpp 42-183 *)
Definition qadd (a b : list Q) : list Q := map (fun p => (fst p + snd p)%Q) (combine a b).
(** 42-58: primary side of the sum of vectors *)
Definition reduceDbls (rs : list nat) (l : list Q) : proc packet (list Q) :=
  foldRanks rs (fun r acc => x <- recvDbls r (length acc) ;; PRet (qadd acc x)) l.
(** 60-67 *)
Definition reduceDblsSend (l : list Q) (primary : nat) : proc packet unit := sendDbls primary l.
(** 69-81 *)
Definition reduceInt (rs : list nat) (z : Z) : proc packet Z :=
  foldRanks rs (fun r acc => x <- recvInt r ;; PRet (acc + x)%Z) z.
(** 83-89 *)
Definition reduceIntSend (z : Z) (primary : nat) : proc packet unit := sendInt primary z.
(** 94-109 *)
Definition allreduceDbls (rs : list nat) (l : list Q) : proc packet (list Q) :=
  res <- reduceDbls rs l ;; bcastDbls rs res ;;; PRet res.
(** 113-121 *)
Definition allreduceDblsOther (l : list Q) (primary : nat) : proc packet (list Q) :=
  reduceDblsSend l primary ;;; recvDbls primary (length l).
(** 123-142 *)
Definition reduceDbl (rs : list nat) (q : Q) : proc packet Q :=
  foldRanks rs (fun r acc => x <- recvDbl r ;; PRet (acc + x)%Q) q.
Definition allreduceDbl (rs : list nat) (q : Q) : proc packet Q :=
  res <- reduceDbl rs q ;; bcastDbl rs res ;;; PRet res.
(** 144-152 *)
Definition allreduceDblOther (q : Q) (primary : nat) : proc packet Q :=
  sendDbl primary q ;;; recvDbl primary.
(** 154-172 *)
Definition allreduceInt (rs : list nat) (z : Z) : proc packet Z :=
  res <- reduceInt rs z ;; bcastInt rs res ;;; PRet res.
(** 175-183 *)
Definition allreduceIntOther (z : Z) (primary : nat) : proc packet Z :=
  sendInt primary z ;;; recvInt primary.

(** ** src/utils/IntraComm.cpp 31-65, 149-384: rank 0 is the primary rank, the
    others are secondary ranks; a single rank communicates with nobody *)
Definition secondaries (n : nat) : list nat := seq 1 (n - 1).
Definition isPrimary (n r : nat) : bool := (r =? 0) && negb (n =? 1).
Definition isSecondary (r : nat) : bool := negb (r =? 0).
(** 149-170: every rank returns the content of its receive buffer [rcv] *)
Definition icReduceDbls (n r : nat) (l rcv : list Q) : proc packet (list Q) :=
  if isSecondary r then reduceDblsSend l 0 ;;; PRet rcv
  else if isPrimary n r then reduceDbls (secondaries n) l
  else PRet l.
(** 179-200 *)
Definition icReduceInt (n r : nat) (z rcv : Z) : proc packet Z :=
  if isSecondary r then reduceIntSend z 0 ;;; PRet rcv
  else if isPrimary n r then reduceInt (secondaries n) z
  else PRet z.
(** 202-223 *)
Definition icAllreduceDbls (n r : nat) (l : list Q) : proc packet (list Q) :=
  if isSecondary r then allreduceDblsOther l 0
  else if isPrimary n r then allreduceDbls (secondaries n) l
  else PRet l.
(** 225-246 *)
Definition icAllreduceDbl (n r : nat) (q : Q) : proc packet Q :=
  if isSecondary r then allreduceDblOther q 0
  else if isPrimary n r then allreduceDbl (secondaries n) q
  else PRet q.
(** 248-269 *)
Definition icAllreduceInt (n r : nat) (z : Z) : proc packet Z :=
  if isSecondary r then allreduceIntOther z 0
  else if isPrimary n r then allreduceInt (secondaries n) z
  else PRet z.
(** 271-291: every rank returns the content of its buffer *)
Definition icBcastDbls (n r : nat) (l : list Q) : proc packet (list Q) :=
  if isPrimary n r then bcastDbls (secondaries n) l ;;; PRet l
  else if isSecondary r then recvDbls 0 (length l)
  else PRet l.
(** 293-313 *)
Definition icBcastBool (n r : nat) (b : bool) : proc packet bool :=
  if isPrimary n r then bcastBool (secondaries n) b ;;; PRet b
  else if isSecondary r then bcastBoolRecv 0
  else PRet b.
(** 315-335 *)
Definition icBcastDbl (n r : nat) (q : Q) : proc packet Q :=
  if isPrimary n r then bcastDbl (secondaries n) q ;;; PRet q
  else if isSecondary r then bcastDblRecv 0
  else PRet q.
(** 337-357 *)
Definition icBcastInt (n r : nat) (z : Z) : proc packet Z :=
  if isPrimary n r then bcastInt (secondaries n) z ;;; PRet z
  else if isSecondary r then bcastIntRecv 0
  else PRet z.
(** 373-384; the assertion of line 383 *)
Definition icBarrier (n r : nat) : proc packet unit :=
  if n =? 1 then PRet tt else
  sum <- icAllreduceInt n r 1 ;; check (Z.eqb sum (Z.of_nat n)) (EAssert 105).
(** 102-138 dot; 67-100 l2norm is the square root of [icDot n r v v] *)
Definition qdot (a b : list Q) : Q := fold_right Qplus 0%Q (map (fun p => (fst p * snd p)%Q) (combine a b)).
Definition icDot (n r : nat) (a b : list Q) : proc packet Q :=
  if n =? 1 then PRet (qdot a b) else icAllreduceDbl n r (qdot a b).
