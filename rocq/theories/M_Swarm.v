(** The primary ranks of all coupled participants: configured connections,
    connecting, the remeshing handshake and shutting down.

    Modelled code: M2NConfiguration::checkDuplicates (src/m2n/config/
    M2NConfiguration.cpp 207-218), Configuration::getBoundM2NsFor
    (src/precice/config/Configuration.cpp 131-168), M2N::checkRemoteInfo and the
    primary connections (src/m2n/M2N.cpp 43-129), BoundM2N::connectPrimaryRanks
    (src/m2n/BoundM2N.cpp 22-31), and of src/precice/impl/ParticipantImpl.cpp
    setupCommunication 336-349, closeCommunicationChannels 1828-1866 and
    reinitHandshake 1924-1956.

    Simplifications.  Participants are numbered in the order of their names, so
    that a std::map keyed by names is traversed in increasing order of numbers.
    Only primary ranks are modelled; the broadcasts to the secondary ranks are
    those of M_Comm.  Events and log messages are left out. *)
From Coq Require Import ZArith List Arith String Ascii Bool.
From Verif Require Import M_Net M_Ring.
Import ListNotations.
Open Scope nat_scope.
Open Scope proc_scope.

(** * Configuration *)

(** one <m2n acceptor connector/> tag *)
Record m2nTag := mkTag { acceptor : nat; connector : nat }.

(** M2NConfiguration.cpp 207-218, called by xmlTagCallback 131-136 for every tag *)
Definition checkDuplicates (m2ns : list m2nTag) (t : m2nTag) : bool :=
  negb (existsb (fun c => ((acceptor c =? acceptor t) && (connector c =? connector t)) ||
                          ((connector c =? acceptor t) && (acceptor c =? connector t))) m2ns).
(** [None]: PRECICE_CHECK *)
Fixpoint readTags (m2ns tags : list m2nTag) : option (list m2nTag) :=
  match tags with
  | [] => Some m2ns
  | t :: r => if checkDuplicates m2ns t then readTags (m2ns ++ [t]) r else None
  end.
Definition configuredM2Ns (tags : list m2nTag) : option (list m2nTag) := readTags [] tags.

(** m2n::BoundM2N (src/m2n/BoundM2N.hpp) with the state of its M2N: are the
    primary and the secondary ranks connected *)
Record bm2n := mkB { remote : nat; isRequesting : bool; primaryConn : bool; secondaryConn : bool }.

(** std::map<std::string, BoundM2N>: [None] if the key is taken *)
Fixpoint insertM2N (b : bm2n) (m : list bm2n) : option (list bm2n) :=
  match m with
  | [] => Some [b]
  | c :: r => if remote b =? remote c then None
              else if remote b <? remote c then Some (b :: c :: r)
              else match insertM2N b r with Some r' => Some (c :: r') | None => None end
  end.

(** Configuration.cpp 131-168 for [n] configured participants; [None]: the
    assertion of line 153 *)
Fixpoint boundM2Ns (n me : nat) (tags : list m2nTag) (result : list bm2n) : option (list bm2n) :=
  match tags with
  | [] => Some result
  | t :: r =>
      if negb (acceptor t =? me) && negb (connector t =? me) then boundM2Ns n me r result
      else
        let '(partner, req) := if acceptor t =? me then (connector t, true) else (acceptor t, false) in
        if partner <? n then
          match insertM2N (mkB partner req false false) result with
          | Some result' => boundM2Ns n me r result'
          | None => None
          end
        else boundM2Ns n me r result
  end.
Definition getBoundM2NsFor (n me : nat) (tags : list m2nTag) : option (list bm2n) := boundM2Ns n me tags [].

(** * Messages between primary ranks *)
Inductive smsg :=
| SConn (m : rmsg)      (* establishing a connection, see M_Ring *)
| SStr (s : string)
| SBool (b : bool).

(** the programs of M_Ring over this wire *)
Fixpoint wire {A} (p : proc rmsg A) : proc smsg A :=
  match p with
  | PRet a => PRet a
  | PErr e => PErr e
  | PSend d m k => PSend d (SConn m) (wire k)
  | PRecv s k => PRecv s (fun m => match m with SConn r => wire (k r) | _ => PErr (EAssert 170) end)
  end.
Definition recvStr (src : nat) : proc smsg string :=
  m <- recv src ;; match m with SStr s => PRet s | _ => PErr (EAssert 171) end.
Definition recvBool (src : nat) : proc smsg bool :=
  m <- recv src ;; match m with SBool b => PRet b | _ => PErr (EAssert 172) end.

(** the loops over [_m2ns] *)
Fixpoint visit {S} (f : bm2n -> S -> proc smsg S) (m2ns : list bm2n) (s : S) : proc smsg S :=
  match m2ns with
  | [] => PRet s
  | b :: r => s' <- f b s ;; visit f r s'
  end.

(** * Connecting *)

(** M2N.cpp 43-49 *)
Definition makeLocalInfo (version configHash : string) : string := (version ++ ";" ++ configHash)%string.

(** std::string::find(";"), split into the parts before and after *)
Fixpoint splitInfo (s : string) : option (string * string) :=
  match s with
  | EmptyString => None
  | String c r => if Ascii.eqb c ";"%char then Some (EmptyString, r)
                  else match splitInfo r with Some (a, b) => Some (String c a, b) | None => None end
  end.

Definition eDamaged := ECheck 180.
Definition eVersion := ECheck 181.
Definition eConfig := ECheck 182.

(** M2N.cpp 53-71 *)
Definition checkRemoteInfo (version configHash remoteInfo : string) : proc smsg unit :=
  match splitInfo remoteInfo with
  | None => PErr eDamaged
  | Some (remoteVersion, remoteHash) =>
      check (String.eqb remoteVersion version) eVersion ;;;
      check (String.eqb remoteHash configHash) eConfig
  end.

Section Participant.
(** the participant's number, its version of preCICE, the hash of its configuration *)
Variables (me : nat) (version configHash : string).

(** M2N.cpp 73-100: the connection, then the versions and configurations *)
Definition acceptPrimaryRankConnection (from : nat) : proc smsg unit :=
  _ <- wire (acceptConnection from me me from 0) ;;
  send from (SStr (makeLocalInfo version configHash)) ;;;
  remoteInfo <- recvStr from ;;
  checkRemoteInfo version configHash remoteInfo.

(** M2N.cpp 102-129 *)
Definition requestPrimaryRankConnection (to : nat) : proc smsg unit :=
  _ <- wire (requestConnection to me to me 0 1) ;;
  remoteInfo <- recvStr to ;;
  send to (SStr (makeLocalInfo version configHash)) ;;;
  checkRemoteInfo version configHash remoteInfo.

(** ParticipantImpl.cpp 338-348 and BoundM2N.cpp 22-31 *)
Definition connectPrimary (b : bm2n) (done : list bm2n) : proc smsg (list bm2n) :=
  if primaryConn b then PRet (done ++ [b]) else
  (if isRequesting b then requestPrimaryRankConnection (remote b)
   else acceptPrimaryRankConnection (remote b)) ;;;
  PRet (done ++ [mkB (remote b) (isRequesting b) true (secondaryConn b)]).
Definition connectPrimaries (m2ns : list bm2n) : proc smsg (list bm2n) := visit connectPrimary m2ns [].
End Participant.

(** * Remeshing handshake: ParticipantImpl.cpp 1924-1956 *)
Definition coordinate (requestReinit : bool) (b : bm2n) (swarm : bool) : proc smsg bool :=
  received <- (if isRequesting b then send (remote b) (SBool requestReinit) ;;; recvBool (remote b)
               else r <- recvBool (remote b) ;; send (remote b) (SBool requestReinit) ;;; PRet r) ;;
  PRet (swarm || received).
Definition reinitHandshake (requestReinit : bool) (m2ns : list bm2n) : proc smsg bool :=
  visit (coordinate requestReinit) m2ns requestReinit.

(** * Closing: ParticipantImpl.cpp 1828-1866 *)
Inductive closeChannels := CloseAll | CloseDistributed.

(** M2N::closeConnection, closeDistributedConnections (M2N.cpp 215-249) *)
Definition closeM2N (close : closeChannels) (b : bm2n) : bm2n :=
  match close with
  | CloseAll => mkB (remote b) (isRequesting b) false false
  | CloseDistributed => mkB (remote b) (isRequesting b) (primaryConn b) false
  end.

Definition pingPong (b : bm2n) : proc smsg unit :=
  if isRequesting b then
    send (remote b) (SStr "ping"%string) ;;;
    receive <- recvStr (remote b) ;;
    check (String.eqb receive "pong"%string) (EAssert 173)
  else
    receive <- recvStr (remote b) ;;
    check (String.eqb receive "ping"%string) (EAssert 174) ;;;
    send (remote b) (SStr "pong"%string).

Definition closeChannel (waitInFinalize : bool) (close : closeChannels) (b : bm2n) (done : list bm2n)
  : proc smsg (list bm2n) :=
  if negb (primaryConn b) then PRet (done ++ [b]) else
  (if waitInFinalize then pingPong b else PRet tt) ;;;
  PRet (done ++ [closeM2N close b]).
Definition closeCommunicationChannels (waitInFinalize : bool) (close : closeChannels) (m2ns : list bm2n)
  : proc smsg (list bm2n) := visit (closeChannel waitInFinalize close) m2ns [].
