(** Products of distributed matrices in the IQN-IMVJ acceleration
    (src/acceleration/impl/ParallelMatrixOperations.hpp).

    Numbers are the elements of a field, so sums can be taken in any order.  A matrix is a list of rows
    or a function of row and column.  Ranks are numbered from 0, there are [N] of them. *)
From Coq Require Import Bool List Arith.
From Verif Require Import S_Field.
Import ListNotations.

Section Cycle.
Variable F : field.
Notation row := (list F).
Notation block := (list row).

(** * Ring communication: _multiply_cyclic 114-214 *)
(** [offsets], [q] and [p] as in the code; [left r] are the rows of leftMatrix of rank [r], [right r]
    the rows of its rightMatrix, [cols r] the columns of its rightMatrix and result *)
Record input := Input { i_N : nat; i_offsets : list nat; i_q : nat; i_p : nat; i_left : nat -> block; i_right : nat -> block; i_cols : nat -> nat }.
Definition offset (a : input) (r : nat) : nat := nth r (i_offsets a) 0.
(** 141, 191-192: rows of a rank's left matrix *)
Definition rowsOf (a : input) (r : nat) : nat := if 0 <? r then offset a (r + 1) - offset a r else offset a 1.
(** 140 *)
Definition prevProc (a : input) (r : nat) : nat := if r =? 0 then i_N a - 1 else r - 1.
(** the rank at the other end of _cyclicCommRight, Communication.cpp 359-394 *)
Definition nextProc (a : input) (r : nat) : nat := if r =? i_N a - 1 then 0 else r + 1.
(** 187, 189: the owner of what rank [r] has in cycle [k] *)
Definition sourceProc (a : input) (r k : nat) : nat := if r <? k then i_N a + r - k else r - k.
(** Eigen's size() *)
Definition size (a : input) (m : block) : nat := length m * i_q a.
(** a row times the right matrix *)
Definition rowTimes (a : input) (r : nat) (x : row) : row :=
  map (fun j => fsum (i_q a) (fun k => mul (nth k x zero) (nth j (nth k (i_right a r) []) zero))) (seq 0 (i_cols a r)).

(** where a rank is: before the call, before the waits 172-175 of a cycle, before the wait 201-202 of
    a cycle, at the end; [Failed]: a block out of range of the result, or a message that does not have
    the size of the buffer *)
Inductive place := Begin | Wait1 (cycle : nat) | Wait2 (cycle : nat) | Done | Failed.
(** [out]: the matrix of an asynchronous send that has not been received yet; [inp]: an asynchronous
    receive has been started that has not got its data yet; [rcv], [copy]: leftMatrix_rcv,
    leftMatrix_copy; [res]: the rows of the result *)
Record rank := Rank { at_ : place; out : option block; inp : bool; rcv : block; copy : block; res : nat -> row }.

(** result.block(off, 0, ...) = ... *)
Definition setBlock (off : nat) (b : block) (m : nat -> row) : nat -> row :=
  fun g => if (off <=? g) && (g <? off + length b) then nth (g - off) b [] else m g.
Definition store (a : input) (r : nat) (off : nat) (m : block) (next : place) (s : rank) : rank :=
  let b := map (rowTimes a r) m in
  if off + length b <=? i_p a then Rank next (out s) (inp s) (rcv s) (copy s) (setBlock off b (res s))
  else Rank Failed (out s) (inp s) (rcv s) (copy s) (res s).
Definition zeros (a : input) (rows : nat) : block := repeat (repeat zero (i_q a)) rows.

(** 140-164: start to send and receive, multiply the own block.  The contents of a new matrix do not
    matter; they are zero here. *)
Definition begin (a : input) (r : nat) (s : rank) : rank :=
  let left := i_left a r in
  let buffer := zeros a (rowsOf a (prevProc a r)) in
  store a r (offset a r) left (if 1 <? i_N a then Wait1 1 else Done)
    (Rank Begin (if 0 <? size a left then Some left else None) (0 <? size a buffer) buffer (copy s) (res s)).
(** 172-199: hand over what was received, start to receive the next matrix *)
Definition relay (a : input) (r k : nat) (s : rank) : rank :=
  let buffer := zeros a (rowsOf a (sourceProc a r (k + 1))) in
  let more := k <? i_N a - 1 in
  Rank (Wait2 k) (if more && (0 <? size a (rcv s)) then Some (rcv s) else out s) (if more && (0 <? size a buffer) then true else inp s) buffer (rcv s) (res s).
(** 201-212 *)
Definition multiplyBlock (a : input) (r k : nat) (s : rank) : rank :=
  store a r (offset a (sourceProc a r k)) (copy s) (if k + 1 <? i_N a then Wait1 (k + 1) else Done) s.
(** what rank [r] does next by itself, if it does not have to wait *)
Definition act (a : input) (r : nat) (s : rank) : option rank :=
  match at_ s with
  | Begin => Some (begin a r s)
  | Wait1 k => match out s, inp s with None, false => Some (relay a r k s) | _, _ => None end
  | Wait2 k => match out s with None => Some (multiplyBlock a r k s) | Some _ => None end
  | Done | Failed => None
  end.

Definition system := nat -> rank.
Definition put (s : system) (r : nat) (x : rank) : system := fun i => if i =? r then x else s i.
Definition sent (s : rank) : rank := Rank (at_ s) None (inp s) (rcv s) (copy s) (res s).
Definition received (d : block) (s : rank) : rank :=
  if length d =? length (rcv s) then Rank (at_ s) (out s) false d (copy s) (res s)
  else Rank Failed (out s) (inp s) (rcv s) (copy s) (res s).
(** a rank goes on, or a message arrives; a send is only complete when its data have been received *)
Inductive step (a : input) : system -> system -> Prop :=
| step_act s r x : r < i_N a -> act a r (s r) = Some x -> step a s (put s r x)
| step_transfer s r d : r < i_N a -> out (s r) = Some d -> inp (s (nextProc a r)) = true ->
    step a s (put (put s r (sent (s r))) (nextProc a r) (received d (put s r (sent (s r)) (nextProc a r)))).
Definition initial (result : nat -> nat -> row) : system := fun r => Rank Begin None false [] [] (result r).
Inductive steps (a : input) : nat -> system -> system -> Prop :=
| steps_0 s : steps a 0 s s
| steps_S n s t u : steps a n s t -> step a t u -> steps a (S n) s u.

(** * Sums over the ranks: the results of the collective operations of IntraComm are the sums over all
    ranks, see C36 *)
(** rank [k] has the columns [left k] of a matrix with [p] rows and [n k] of the rows of the other one *)
Record columns := Columns { c_N : nat; c_offsets : list nat; c_n : nat -> nat; c_p : nat; c_r : nat; c_left : nat -> nat -> nat -> F; c_right : nat -> nat -> nat -> F }.
Definition localDot (a : columns) (i j k : nat) : F := fsum (c_n a k) (fun e => mul (c_left a k i e) (c_right a k e j)).
(** the loop of 234-235, which ends with an access out of range if no rank has row [i] *)
Fixpoint findRank (offsets : list nat) (i rank fuel : nat) : option nat :=
  match nth_error offsets (rank + 1) with
  | None => None
  | Some o => if o <=? i then match fuel with O => None | S f => findRank offsets i (rank + 1) f end else Some rank
  end.
(** _multiplyNM_dotProduct 216-252: row of the result of rank [me], or None if it is not written *)
Fixpoint dotLoop (a : columns) (me : nat) (is : list nat) (m : nat -> option (nat -> F)) : option (nat -> option (nat -> F)) :=
  match is with
  | [] => Some m
  | i :: r =>
      match findRank (c_offsets a) i 0 (length (c_offsets a)) with
      | None => None
      | Some rank =>
          let value := fun j => fsum (c_N a) (localDot a i j) in
          dotLoop a me r (if me =? rank then fun l => if l =? i - nth rank (c_offsets a) 0 then Some value else m l else m)
      end
  end.
Definition multiplyDot (a : columns) (me : nat) : option (nat -> option (nat -> F)) := dotLoop a me (seq 0 (c_p a)) (fun _ => None).
(** _multiplyNM_block 254-307: the primary rank has the sum of all blocks, keeps its rows and sends the
    others; the number of rows of result at rank [me] is [rows] *)
Definition summarizedBlocks (a : columns) (i j : nat) : F := fsum (c_N a) (localDot a i j).
Definition sendRows (a : columns) (k : nat) : nat := nth (k + 1) (c_offsets a) 0 - nth k (c_offsets a) 0.
Definition isSent (a : columns) (k : nat) : bool := 0 <? sendRows a k * c_r a.
Definition isReceived (a : columns) (rows : nat) : bool := 0 <? rows * c_r a.
Definition multiplyBlocks (a : columns) (me : nat) : list (nat -> F) :=
  if me =? 0 then map (fun l => summarizedBlocks a l) (seq 0 (nth 1 (c_offsets a) 0))
  else map (fun l => summarizedBlocks a (nth me (c_offsets a) 0 + l)) (seq 0 (sendRows a me)).
(** multiply 88-112: all ranks get the whole product *)
Definition multiplySmall (a : columns) (i j : nat) : F := fsum (c_N a) (localDot a i j).
End Cycle.
Arguments Input {_}. Arguments i_N {_}. Arguments i_offsets {_}. Arguments i_q {_}. Arguments i_p {_}. Arguments i_left {_}. Arguments i_right {_}. Arguments i_cols {_}.
Arguments offset {_}. Arguments rowsOf {_}. Arguments prevProc {_}. Arguments nextProc {_}. Arguments sourceProc {_}. Arguments size {_}. Arguments rowTimes {_}.
Arguments Rank {_}. Arguments at_ {_}. Arguments out {_}. Arguments inp {_}. Arguments rcv {_}. Arguments copy {_}. Arguments res {_}. Arguments setBlock {_}. Arguments store {_}. Arguments zeros {_}.
Arguments begin {_}. Arguments relay {_}. Arguments multiplyBlock {_}. Arguments act {_}. Arguments put {_}. Arguments sent {_}. Arguments received {_}. Arguments step {_}. Arguments initial {_}. Arguments steps {_}.
Arguments Columns {_}. Arguments c_N {_}. Arguments c_offsets {_}. Arguments c_n {_}. Arguments c_p {_}. Arguments c_r {_}. Arguments c_left {_}. Arguments c_right {_}. Arguments localDot {_}. Arguments dotLoop {_}.
Arguments multiplyDot {_}. Arguments summarizedBlocks {_}. Arguments sendRows {_}. Arguments isSent {_}. Arguments isReceived {_}. Arguments multiplyBlocks {_}. Arguments multiplySmall {_}.
