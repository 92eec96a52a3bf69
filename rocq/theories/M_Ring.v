(** The ring of ranks of the IQN-IMVJ acceleration: connectCircularComm
    (src/com/Communication.cpp 359-394) over sockets
    (src/com/SocketCommunication.cpp 55-135, 199-263).

    The file with the acceptor's address (ConnectionInfoPublisher.cpp) is a
    message from the acceptor to the rank that waits for a file of this name.
    Names of ranks are their numbers, an address is the number of the rank that
    listens there.  The tag, timers and system errors are left out. *)
From Coq Require Import ZArith List Arith.
From Verif Require Import M_Net.
Import ListNotations.
Open Scope nat_scope.
Open Scope proc_scope.

Inductive rmsg :=
| RFile (acceptorName requesterName address : nat) (* ConnectionInfoWriter::write *)
| RConnect (peer : nat)                            (* the TCP connection to a listening socket *)
| RInt (z : Z).

Definition rInt (src : nat) : proc rmsg Z :=
  m <- recv src ;; match m with RInt z => PRet z | _ => PErr (EAssert 160) end.

(** SocketCommunication::acceptConnection by rank [r], with the requester being
    rank [from]; returns the rank at the other end.  A requester communicator
    of size one: the loop of lines 92-127 runs once. *)
Definition acceptConnection (from r acceptorName requesterName : nat) (acceptorRank : Z) : proc rmsg nat :=
  send from (RFile acceptorName requesterName r) ;;;
  m <- recv from ;;
  match m with
  | RConnect peer =>
      requesterRank <- rInt from ;;
      send from (RInt acceptorRank) ;;;
      size <- rInt from ;;
      check (Z.eqb size 1) (EAssert 161) ;;;
      PRet peer
  | _ => PErr (EAssert 160)
  end.

(** SocketCommunication::requestConnection by rank [r]; [listens] is the rank
    that writes the file *)
Definition requestConnection (listens r acceptorName requesterName : nat) (requesterRank size : Z) : proc rmsg nat :=
  m <- recv listens ;;
  match m with
  | RFile a q address =>
      check ((a =? acceptorName) && (q =? requesterName))%bool (EAssert 162) ;;;
      send address (RConnect r) ;;;
      send address (RInt requesterRank) ;;;
      acceptorRank <- rInt address ;;
      send address (RInt size) ;;;
      PRet address
  | _ => PErr (EAssert 160)
  end.

(** Communication.cpp 359-394: returns the ranks at the other ends of [left]
    and [right] *)
Definition prevProc (n r : nat) : nat := (r + n - 1) mod n.
Definition nextProc (n r : nat) : nat := (r + 1) mod n.
Definition connectCircularComm (n r : nat) : proc rmsg (option (nat * nat)) :=
  if n =? 1 then PRet None else
  let prev := prevProc n r in
  let next := nextProc n r in
  if Nat.even r then
    left <- acceptConnection prev r prev r 0 ;;
    right <- requestConnection next r r next 0 1 ;;
    PRet (Some (left, right))
  else
    right <- requestConnection next r r next 0 1 ;;
    left <- acceptConnection prev r prev r 0 ;;
    PRet (Some (left, right)).
