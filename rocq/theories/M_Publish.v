(** Connections through address files: an acceptor publishes its address in a
    file, any number of requesters wait for the file, read it and connect.

    Models src/com/ConnectionInfoPublisher.cpp and the callers in
    src/com/SocketCommunication.cpp (acceptConnection 55-134,
    acceptConnectionAsServer 136-195, requestConnection 197-251,
    requestConnectionAsClient 253-312).

    Processes run concurrently; one step is one access to the file system or
    to a socket.  Every process may crash before every step.

    Simplifications:
    - one connection, i.e. one file and one temporary file (M_Names.v models the
      file names); a requester of several servers is one requester of each;
    - rename is atomic; text is written in pieces of any length;
    - opening and creating files does not fail because of the operating system;
    - an open file is read as a whole: nobody writes to the published file;
    - a connection attempt waits until someone listens (the loops 217-237,
      279-297 poll);
    - splitting the address at ':' (209-212) is left out;
    - writing to a socket never blocks and never fails; reading from a socket
      fails if the other end crashed or stopped with an error. *)
From Coq Require Import List Arith Bool.
Import ListNotations.

(** characters are numbers *)
Definition text := list nat.
Definition newline : nat := 10.
(** std::isspace *)
Definition isSpace (c : nat) : bool := (c =? 32) || ((9 <=? c) && (c <=? 13)).

(** ConnectionInfoPublisher.cpp 127-129: the address, then a description *)
Definition content (address description : text) : text := address ++ newline :: description.
(** std::getline, ConnectionInfoPublisher.cpp 79 *)
Fixpoint getline (t : text) : text :=
  match t with
  | [] => []
  | c :: r => if c =? newline then [] else c :: getline r
  end.
(** boost::algorithm::trim_right, ConnectionInfoPublisher.cpp 84 *)
Fixpoint trimRight (t : text) : text :=
  match t with
  | [] => []
  | c :: r => match trimRight r with [] => if isSpace c then [] else [c] | r' => c :: r' end
  end.

(** where the acceptor is *)
Inductive apc : Type :=
| AListen                   (* bind and listen, SocketCommunication.cpp 73-83, 159-169 *)
| ACheck                    (* ConnectionInfoPublisher.cpp 112 *)
| ACheckTmp                 (* 113 *)
| ACreate                   (* 119 *)
| AWrite (rest : text)      (* 127-130 *)
| AExists                   (* 131-134 *)
| ARename                   (* 137 *)
| ACheckPub                 (* 143-146 *)
| AAccept (k : nat)         (* SocketCommunication.cpp 94, 177; k peers are connected *)
| ARead (k i : nat)         (* 103, 184: read the rank of requester i *)
| AAck (k i : nat)          (* 112 *)
| ASize (k i : nat)         (* 113-124 *)
| AClose                    (* 126, 188 *)
| AEnd (e : option nat)     (* destructor, ConnectionInfoPublisher.cpp 88-95; e: the error that is thrown *)
| ARemove (e : option nat)  (* 98 *)
| AOver (e : option nat)    (* returned, or thrown e *)
| AAbort                    (* assertion failed *)
| ADead.                    (* crashed *)
(** where a requester is *)
Inductive rpc : Type :=
| RWait                     (* ConnectionInfoPublisher.cpp 58-60 *)
| ROpen                     (* 64 *)
| RReopen                   (* 66-75 *)
| RRead (t : text)          (* 76-84; t: what the open file contains *)
| RConnect (a : text)       (* SocketCommunication.cpp 214-237, 276-297 *)
| RSendRank                 (* 244, 303 *)
| RWaitAck                  (* 246-247 *)
| RSendSize                 (* 250 *)
| RDone
| RWrong (a : text)         (* connected to something else *)
| RFail (e : nat)
| RDead.

Record st := St {
  s_pub : option text;          (* the published file *)
  s_tmp : option text;          (* the temporary file *)
  s_acc : apc;
  s_up : bool;                  (* the acceptor is listening *)
  s_backlog : list nat;         (* connected requesters that are not accepted yet *)
  s_table : list (nat * nat);   (* _sockets of the acceptor: rank, the requester at the other end *)
  s_ack : list nat;             (* requesters that were sent the rank of the acceptor *)
  s_req : list rpc
}.
Definition setPub x s := St x (s_tmp s) (s_acc s) (s_up s) (s_backlog s) (s_table s) (s_ack s) (s_req s).
Definition setTmp x s := St (s_pub s) x (s_acc s) (s_up s) (s_backlog s) (s_table s) (s_ack s) (s_req s).
Definition setAcc x s := St (s_pub s) (s_tmp s) x (s_up s) (s_backlog s) (s_table s) (s_ack s) (s_req s).
Definition setUp x s := St (s_pub s) (s_tmp s) (s_acc s) x (s_backlog s) (s_table s) (s_ack s) (s_req s).
Definition setBacklog x s := St (s_pub s) (s_tmp s) (s_acc s) (s_up s) x (s_table s) (s_ack s) (s_req s).
Definition setTable x s := St (s_pub s) (s_tmp s) (s_acc s) (s_up s) (s_backlog s) x (s_ack s) (s_req s).
Definition setAck x s := St (s_pub s) (s_tmp s) (s_acc s) (s_up s) (s_backlog s) (s_table s) x (s_req s).
Definition setReq x s := St (s_pub s) (s_tmp s) (s_acc s) (s_up s) (s_backlog s) (s_table s) (s_ack s) x.

Fixpoint put {A} (i : nat) (x : A) (l : list A) : list A :=
  match l, i with
  | [], _ => []
  | _ :: r, 0 => x :: r
  | y :: r, S j => y :: put j x r
  end.

Definition text_eqb (a b : text) : bool := if list_eq_dec Nat.eq_dec a b then true else false.

Section Publish.
Variable server : bool.           (* acceptConnectionAsServer / requestConnectionAsClient *)
Variable address : text.          (* where the acceptor listens *)
Variable description : text.
Variable rank : nat -> nat.       (* rank of requester i *)
Variable size : nat.              (* requesterCommunicatorSize *)
Variable foreign : text -> bool.  (* addresses at which somebody else listens *)

(** the requester has written its rank, sent its size, is gone *)
Definition wroteRank (p : rpc) : bool := match p with RWaitAck | RSendSize | RDone => true | _ => false end.
Definition sentSize (p : rpc) : bool := match p with RDone => true | _ => false end.
Definition goneR (p : rpc) : bool := match p with RFail _ | RDead => true | _ => false end.
Definition goneA (p : apc) : bool := match p with AOver (Some _) | AAbort | ADead => true | _ => false end.

(** while (++peerCurrent < requesterCommunicatorSize), 124, 175 *)
Definition next (k : nat) : apc := if S k <? size then AAccept (S k) else AClose.
(** an exception leaves the scope of conInfo *)
Definition throw (e : nat) (s : st) : st := setAcc (AEnd (Some e)) s.

(** a step of the acceptor; [m] characters more than one are written at once.
    [None]: it waits or is finished *)
Definition stepA (m : nat) (s : st) : option st :=
  match s_acc s with
  | AListen => Some (setAcc ACheck (setUp true s))
  | ACheck => Some (match s_pub s with None => setAcc ACheckTmp s | Some _ => throw 1 s end)
  | ACheckTmp => Some (match s_tmp s with None => setAcc ACreate s | Some _ => throw 2 s end)
  | ACreate => Some (setAcc (AWrite (content address description)) (setTmp (Some []) s))
  | AWrite [] => Some (setAcc AExists s)
  | AWrite rest => Some (setAcc (AWrite (skipn (S m) rest))
                          (setTmp (match s_tmp s with Some t => Some (t ++ firstn (S m) rest) | None => None end) s))
  | AExists => Some (match s_tmp s with Some _ => setAcc ARename s | None => throw 3 s end)
  | ARename => Some (match s_tmp s with Some t => setAcc ACheckPub (setTmp None (setPub (Some t) s)) | None => throw 4 s end)
  | ACheckPub => Some (match s_pub s with Some _ => setAcc (AAccept 0) s | None => throw 5 s end)
  | AAccept k => match s_backlog s with [] => None | i :: r => Some (setAcc (ARead k i) (setBacklog r s)) end
  | ARead k i =>
      match nth_error (s_req s) i with
      | None => None
      | Some p => if goneR p then Some (throw 6 s) else
          if wroteRank p then
            if negb server && existsb (fun e => fst e =? rank i) (s_table s) then Some (setAcc AAbort s) else
            Some (setAcc (if server then next k else AAck k i)
                   (setTable (filter (fun e => negb (fst e =? rank i)) (s_table s) ++ [(rank i, i)]) s))
          else None
      end
  | AAck k i => Some (setAcc (ASize k i) (setAck (i :: s_ack s) s))
  | ASize k i =>
      match nth_error (s_req s) i with
      | None => None
      | Some p => if goneR p then Some (throw 6 s) else if sentSize p then Some (setAcc (next k) s) else None
      end
  | AClose => Some (setAcc (AEnd None) (setUp false s))
  | AEnd e => Some (setAcc (match s_pub s with Some _ => ARemove e | None => AOver e end) (setUp (s_up s && match s_pub s with Some _ => true | None => false end) s))
  | ARemove e => Some (setAcc (AOver e) (setUp false (setPub None s)))
  | AOver _ | AAbort | ADead => None
  end.

(** a step of requester [i] *)
Definition stepR (i : nat) (s : st) : option st :=
  match nth_error (s_req s) i with
  | None => None
  | Some p =>
      let go p' s' := Some (setReq (put i p' (s_req s')) s') in
      match p with
      | RWait => match s_pub s with None => None | Some _ => go ROpen s end
      | ROpen => match s_pub s with Some t => go (RRead t) s | None => go RReopen s end
      | RReopen => match s_pub s with Some t => go (RRead t) s | None => go (RFail 1) s end
      | RRead t => match getline t with [] => go (RFail 2) s | l => go (RConnect (trimRight l)) s end
      | RConnect a =>
          if text_eqb a address then if s_up s then go RSendRank (setBacklog (s_backlog s ++ [i]) s) else None
          else if foreign a then go (RWrong a) s else None
      | RSendRank => go (if server then RDone else RWaitAck) s
      | RWaitAck => if existsb (Nat.eqb i) (s_ack s) then go RSendSize s else if goneA (s_acc s) then go (RFail 3) s else None
      | RSendSize => go RDone s
      | RDone | RWrong _ | RFail _ | RDead => None
      end
  end.

(** crashes *)
Definition crashA (s : st) : option st := Some (setAcc ADead (setUp false s)).
Definition crashR (i : nat) (s : st) : option st :=
  match nth_error (s_req s) i with None => None | Some _ => Some (setReq (put i RDead (s_req s)) s) end.

Inductive label : Type := LA (m : nat) | LR (i : nat) | LCrashA | LCrashR (i : nat).
Definition exec (l : label) (s : st) : option st :=
  match l with LA m => stepA m s | LR i => stepR i s | LCrashA => crashA s | LCrashR i => crashR i s end.
Inductive runs : list label -> st -> st -> Prop :=
| runs_nil s : runs [] s s
| runs_cons l ls s s1 s2 : exec l s = Some s1 -> runs ls s1 s2 -> runs (l :: ls) s s2.

(** before the connection is set up, with the given files on disk *)
Definition before (pub tmp : option text) : st := St pub tmp AListen false [] [] [] (repeat RWait size).
End Publish.
