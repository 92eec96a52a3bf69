(** Names of the address files.

    Models src/com/ConnectionInfoPublisher.cpp 18-50 and the names that the
    callers choose: src/m2n/M2N.cpp 85, 114, src/m2n/PointToPointCommunication.cpp
    342, 406-410, 438-443, src/com/Communication.cpp 14-37, 359-393,
    src/acceleration/impl/ParallelMatrixOperations.cpp 31-41.

    Simplification: the hash (utils/Hash.cpp, a name-based UUID) is a parameter;
    the file is <hash[0..2]>/<rest of the hash>, here the hash itself. *)
From Coq Require Import List Arith ZArith.
From Verif Require Import M_Publish.
Import ListNotations.

Definition minus : nat := 45.
Definition isDigit (c : nat) : bool := (48 <=? c) && (c <=? 57).

(** std::to_string *)
Fixpoint showUint (d : Decimal.uint) : text :=
  match d with
  | Decimal.Nil => []
  | Decimal.D0 r => 48 :: showUint r | Decimal.D1 r => 49 :: showUint r | Decimal.D2 r => 50 :: showUint r
  | Decimal.D3 r => 51 :: showUint r | Decimal.D4 r => 52 :: showUint r | Decimal.D5 r => 53 :: showUint r
  | Decimal.D6 r => 54 :: showUint r | Decimal.D7 r => 55 :: showUint r | Decimal.D8 r => 56 :: showUint r
  | Decimal.D9 r => 57 :: showUint r
  end.
Definition showNat (n : nat) : text := showUint (Nat.to_uint n).
Definition showInt (z : Z) : text :=
  match z with Zneg p => minus :: showNat (Pos.to_nat p) | _ => showNat (Z.to_nat z) end.

(** a connection: who accepts, who requests, the tag and the rank; -1 if no rank
    is given (ConnectionInfoPublisher.hpp, member rank) *)
Record connection := Connection { k_acceptor : text; k_requester : text; k_tag : text; k_rank : Z }.

(** localDirectory, ConnectionInfoPublisher.cpp 29-36 *)
Definition localDirectory (dir acceptor requester : text) : text * text := (dir, acceptor ++ minus :: requester).
Section Hash.
Variable hash : text -> text.
(** hashedFilePath and getFilename, 18-27, 43-50 *)
Definition hashedFilePath (k : connection) : text := hash (k_acceptor k ++ k_tag k ++ k_requester k ++ showInt (k_rank k)).
Definition filename (dir : text) (k : connection) : text * text * text :=
  (localDirectory dir (k_acceptor k) (k_requester k), hashedFilePath k).
End Hash.

(** the files under a directory, SocketCommunication.cpp 399-410 (remove_all) *)
Definition removed (dir acceptor requester : text) (f : text * text * text) : Prop := fst f = localDirectory dir acceptor requester.

(** the connection of rank [rank] with its left neighbour in the ring that
    the quasi-Newton acceleration of [participant] sets up (Communication.cpp
    376-386, ParallelMatrixOperations.cpp 41).  The name of the participant is
    not used. *)
Definition ringName : text := [73; 81; 78; 73; 77; 86; 74; 67; 121; 99; 108; 105; 99; 67; 111; 109; 109].
Definition ringConnection (participant : text) (rank size : nat) : connection :=
  Connection (ringName ++ showNat ((rank + size - 1) mod size)) (ringName ++ showNat rank) [] (-1).
