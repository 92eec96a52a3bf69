(** Data between the ranks of two participants.

    Modelled code: src/m2n/GatherScatterCommunication.cpp 64-207,
    src/m2n/PointToPointCommunication.cpp 32-98 (exchange of vertex
    distributions), 261-310 (buildCommunicationMap), 327-421 and 454-554
    (connecting), 610-655 (send, receive), src/utils/algorithm.hpp 32-47
    (set_intersection_indices) and 189-193 (add_n).

    Simplifications.  Rank [r] of a participant is process [b + r], where [b]
    numbers its primary rank.  Values are rational numbers.  The sockets or MPI
    connections of the point-to-point scheme exist from the start (matching of
    both sides is a theorem).  aSend and aReceive are blocking operations in
    the order of the code (see M_Comm).  Timing events are left out.  The
    two-level initialization (acceptPreConnection ...) is not modelled here. *)
From Coq Require Import ZArith QArith List Arith Bool.
From Verif Require Import M_Net M_Comm.
Import ListNotations.
Open Scope nat_scope.
Open Scope proc_scope.

(** mesh::Mesh::VertexDistribution (src/mesh/Mesh.hpp 48): a std::map from ranks
    to the global vertex indices of that rank, as a list ordered by rank *)
Definition distribution := list (nat * list nat).
(** std::map::find *)
Fixpoint vfind (r : nat) (vd : distribution) : option (list nat) :=
  match vd with [] => None | (k, l) :: t => if k =? r then Some l else vfind r t end.
(** std::map::operator[] = l *)
Fixpoint vset (r : nat) (l : list nat) (vd : distribution) : distribution :=
  match vd with
  | [] => [(r, l)]
  | (k, x) :: t => if r =? k then (k, l) :: t else if r <? k then (r, l) :: (k, x) :: t else (k, x) :: vset r l t
  end.
Definition isEmpty {A} (l : list A) : bool := match l with [] => true | _ => false end.
Definition orErr {M A} (o : option A) (e : err) : proc M A := match o with Some a => PRet a | None => PErr e end.

(** * Blocks of values *)

(** utils::add_n(&src[srcfirst], blockSize, &dst[dstfirst]) *)
Definition add_n (src : list Q) (srcfirst blockSize : nat) (dst : list Q) (dstfirst : nat) : list Q :=
  fold_left (fun acc d => upd (dstfirst + d) (nth (dstfirst + d) acc 0 + nth (srcfirst + d) src 0)%Q acc) (seq 0 blockSize) dst.
(** std::copy_n(&src[srcfirst], blockSize, &dst[dstfirst]) *)
Definition copy_n (src : list Q) (srcfirst blockSize : nat) (dst : list Q) (dstfirst : nat) : list Q :=
  fold_left (fun acc d => upd (dstfirst + d) (nth (srcfirst + d) src 0%Q) acc) (seq 0 blockSize) dst.
(** GatherScatterCommunication.cpp 66-79 from index [i] on; [None]: the assertions *)
Fixpoint addBlocks (i : nat) (src : list Q) (indices : list nat) (blockSize : nat) (dst : list Q) : option (list Q) :=
  match indices with
  | [] => Some dst
  | v :: r =>
      let srcfirst := blockSize * i in
      let dstfirst := blockSize * v in
      if (srcfirst + blockSize <=? length src) && (dstfirst + blockSize <=? length dst)
      then addBlocks (S i) src r blockSize (add_n src srcfirst blockSize dst dstfirst) else None
  end.
(** 81-95 *)
Fixpoint copyBlocks (i : nat) (src : list Q) (indices : list nat) (blockSize : nat) (dst : list Q) : option (list Q) :=
  match indices with
  | [] => Some dst
  | v :: r =>
      let srcfirst := blockSize * v in
      let dstfirst := blockSize * i in
      if (srcfirst + blockSize <=? length src) && (dstfirst + blockSize <=? length dst)
      then copyBlocks (S i) src r blockSize (copy_n src srcfirst blockSize dst dstfirst) else None
  end.

(** * Gather-scatter *)

(** 99-151 by rank [r] of the [n] ranks of a participant with primary process
    [b]; [peer] is the primary process of the other participant, [N] the global
    number of vertices of the mesh *)
Definition gsSend (b n peer r N : nat) (vd : distribution) (items : list Q) (dim : nat) : proc packet unit :=
  if isSecondary r then
    if negb (isEmpty items) then sendDbls b items else PRet tt
  else
    let globalItemsToSend := repeat 0%Q (N * dim) in
    own <- orErr (vfind 0 vd) (EAssert 240) ;;
    global <- orErr (addBlocks 0 items own dim globalItemsToSend) (EAssert 241) ;;
    global' <- foldRanks (secondaries n) (fun secondaryRank global =>
      match vfind secondaryRank vd with
      | None => PRet global
      | Some secondaryDistribution =>
          if isEmpty secondaryDistribution then PRet global else
          vals <- recvDbls (b + secondaryRank) (length secondaryDistribution * dim) ;;
          orErr (addBlocks 0 vals secondaryDistribution dim global) (EAssert 241)
      end) global ;;
    sendRangeDbl peer global'.

(** std::copy of [received] to the begin of [items]; [None]: beyond its end *)
Definition copyTo (received items : list Q) : option (list Q) :=
  if length received <=? length items then Some (received ++ skipn (length received) items) else None.

(** 153-207; returns the content of itemsToReceive *)
Definition gsReceive (b n peer r N : nat) (vd : distribution) (items : list Q) (dim : nat) : proc packet (list Q) :=
  if isSecondary r then
    if negb (isEmpty items) then
      received <- receiveRangeDbl b ;;
      check (negb (isEmpty received)) (EAssert 242) ;;;
      orErr (copyTo received items) (EAssert 243)
    else PRet items
  else
    global <- receiveRangeDbl peer ;;
    check (length global =? N * dim) (EAssert 244) ;;;
    own <- orErr (vfind 0 vd) (EAssert 240) ;;
    items' <- orErr (copyBlocks 0 global own dim items) (EAssert 245) ;;
    forRanks (secondaries n) (fun secondaryRank =>
      match vfind secondaryRank vd with
      | None => PRet tt
      | Some secondaryDistribution =>
          if isEmpty secondaryDistribution then PRet tt else
          vals <- orErr (copyBlocks 0 global secondaryDistribution dim (repeat 0%Q (length secondaryDistribution * dim))) (EAssert 245) ;;
          sendRangeDbl (b + secondaryRank) vals
      end) ;;;
    PRet items'.

(** * Point-to-point: vertex distributions *)

Definition toInts (l : list nat) : list Z := map Z.of_nat l.
Definition ofInts (l : list Z) : list nat := map Z.to_nat l.
Fixpoint forEntries {M} (vd : distribution) (f : nat -> list nat -> proc M unit) : proc M unit :=
  match vd with [] => PRet tt | (r, l) :: t => f r l ;;; forEntries t f end.
Fixpoint times {M A} (k : nat) (f : A -> proc M A) (s : A) : proc M A :=
  match k with O => PRet s | S k' => s' <- f s ;; times k' f s' end.

(** PointToPointCommunication.cpp 32-44 *)
Definition sendDistribution (vd : distribution) (dst : nat) : proc packet unit :=
  sendInt dst (sizeOf vd) ;;;
  forEntries vd (fun rank indices => sendInt dst (Z.of_nat rank) ;;; sendRangeInt dst (toInts indices)).
(** 46-59 *)
Definition receiveDistribution (src : nat) : proc packet distribution :=
  size <- recvInt src ;;
  times (Z.to_nat size) (fun m =>
    rank <- recvInt src ;; l <- receiveRangeInt src ;; PRet (vset (Z.to_nat rank) (ofInts l) m)) [].
(** 61-72 *)
Definition bcastDistribution (rs : list nat) (vd : distribution) : proc packet unit :=
  bcastInt rs (sizeOf vd) ;;;
  forEntries vd (fun rank indices => bcastInt rs (Z.of_nat rank) ;;; bcastVecInt rs (toInts indices)).
(** 74-87 *)
Definition bcastReceiveDistribution (src : nat) : proc packet distribution :=
  size <- recvInt src ;;
  times (Z.to_nat size) (fun m =>
    rank <- recvInt src ;; l <- bcastVecIntRecv src ;; PRet (vset (Z.to_nat rank) (ofInts l) m)) [].
(** 89-98; returns the content of [m] *)
Definition broadcastDistribution (b n r : nat) (m : distribution) : proc packet distribution :=
  if isPrimary n r then bcastDistribution (map (Nat.add b) (secondaries n)) m ;;; PRet m
  else if isSecondary r then bcastReceiveDistribution b
  else PRet m.

(** * Point-to-point: communication maps *)

(** algorithm.hpp 32-47, where the first range starts at distance [i] *)
Fixpoint set_intersection_indices (i : nat) (l1 : list nat) : list nat -> list nat :=
  fix aux (l2 : list nat) : list nat :=
    match l1, l2 with
    | x :: r1, y :: r2 =>
        if x <? y then set_intersection_indices (S i) r1 l2
        else if negb (y <? x) then i :: set_intersection_indices (S i) r1 r2
        else aux r2
    | _, _ => []
    end.
(** std::is_sorted *)
Fixpoint is_sorted (l : list nat) : bool :=
  match l with
  | x :: r => (match r with y :: _ => x <=? y | [] => true end) && is_sorted r
  | [] => true
  end.
Definition back (l : list nat) : nat := last l 0.
Definition front (l : list nat) : nat := hd 0 l.

(** a std::map from remote ranks to local indices *)
Definition commMap := list (nat * list nat).
(** 275-308 for one remote rank; [None]: the assertion of line 282 *)
Definition commEntry (mine : list nat) (rank : nat) (vertices : list nat) : option commMap :=
  if is_sorted vertices then
    if isEmpty mine || isEmpty vertices || (back vertices <? front mine) || (back mine <? front vertices) then Some []
    else
      let inters := set_intersection_indices 0 mine vertices in
      Some (if isEmpty inters then [] else [(rank, inters)])
  else None.
Fixpoint commEntries (mine : list nat) (others : distribution) : option commMap :=
  match others with
  | [] => Some []
  | (rank, vertices) :: t =>
      match commEntry mine rank vertices, commEntries mine t with Some a, Some c => Some (a ++ c) | _, _ => None end
  end.
(** 261-310; [None]: an assertion *)
Definition buildCommunicationMap (this other : distribution) (thisRank : nat) : option commMap :=
  match vfind thisRank this with
  | None => Some []
  | Some mine => if is_sorted mine then commEntries mine other else None
  end.

(** 327-421 (acceptor) and 454-554 (requester); returns [_mappings] *)
Definition p2pConnect (acceptor : bool) (b n peer r : nat) (vd : distribution) : proc packet commMap :=
  other <- (if isSecondary r then PRet []
            else if acceptor then sendDistribution vd peer ;;; receiveDistribution peer
            else other <- receiveDistribution peer ;; sendDistribution vd peer ;;; PRet other) ;;
  vd' <- broadcastDistribution b n r vd ;;
  other' <- broadcastDistribution b n r other ;;
  orErr (buildCommunicationMap vd' other' r) (EAssert 246).

(** * Point-to-point: data *)

(** lines 617-623; [None]: beyond the end of [items] *)
Definition packBlock (items : list Q) (dim index : nat) : option (list Q) :=
  if index * dim + dim <=? length items then Some (firstn dim (skipn (index * dim) items)) else None.
Fixpoint pack (items : list Q) (dim : nat) (indices : list nat) : option (list Q) :=
  match indices with
  | [] => Some []
  | i :: r => match packBlock items dim i, pack items dim r with Some x, Some y => Some (x ++ y) | _, _ => None end
  end.
(** 645-652 from position [i] on; [None]: beyond the end of a buffer *)
Fixpoint unpack (i : nat) (recvBuffer : list Q) (dim : nat) (indices : list nat) (items : list Q) : option (list Q) :=
  match indices with
  | [] => Some items
  | index :: r =>
      if (i * dim + dim <=? length recvBuffer) && (index * dim + dim <=? length items)
      then unpack (S i) recvBuffer dim r (add_n recvBuffer (i * dim) dim items (index * dim)) else None
  end.

Fixpoint sendMappings (rb : nat) (mappings : commMap) (items : list Q) (dim : nat) : proc packet unit :=
  match mappings with
  | [] => PRet tt
  | (remoteRank, indices) :: t =>
      buffer <- orErr (pack items dim indices) (EAssert 247) ;;
      sendDbls (rb + remoteRank) buffer ;;;
      sendMappings rb t items dim
  end.
(** 610-629; rank [q] of the other participant is process [rb + q] *)
Definition p2pSend (rb : nat) (mappings : commMap) (items : list Q) (dim : nat) : proc packet unit :=
  if isEmpty mappings || isEmpty items then PRet tt else sendMappings rb mappings items dim.

Fixpoint receiveMappings (rb : nat) (mappings : commMap) (items : list Q) (dim : nat) : proc packet (list Q) :=
  match mappings with
  | [] => PRet items
  | (remoteRank, indices) :: t =>
      recvBuffer <- recvDbls (rb + remoteRank) (length indices * dim) ;;
      items' <- orErr (unpack 0 recvBuffer dim indices items) (EAssert 248) ;;
      receiveMappings rb t items' dim
  end.
(** 631-655; returns the content of itemsToReceive *)
Definition p2pReceive (rb : nat) (mappings : commMap) (items : list Q) (dim : nat) : proc packet (list Q) :=
  if isEmpty mappings || isEmpty items then PRet items
  else receiveMappings rb mappings (repeat 0%Q (length items)) dim.
