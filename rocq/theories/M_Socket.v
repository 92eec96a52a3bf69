(** Asynchronous and blocking sends on sockets.

    [SocketSendQueue] (src/com/SocketSendQueue.cpp) is used by the threads of the
    application and by the one thread that runs the handlers of [_ioContext]
    (SocketCommunication.cpp:322).  The model interleaves the single accesses of
    all threads; thread 0 is the thread of the io context.

    Simplification: a message is a list of bytes and a socket is the list of the
    bytes written to it; an operation of Boost.Asio is the bytes it still has to
    write.  The buffers the application hands over stay unchanged until the
    request is complete.  [handed] is a log that no program reads. *)
From Coq Require Import ZArith List Arith Bool.
From Verif Require Import M_Net.
Import ListNotations.

(** calls of the application: SocketCommunication.cpp 412-429, 447-464, 524-541
    ([aSend]; [id] is the request that is returned), 370-384, 431-445, 508-522
    ([send]), SocketRequest.cpp 24-30 ([wait]), SocketCommunication.cpp 325-350
    ([closeConnection]) *)
Inductive call :=
| ASend (id sock : nat) (data : list Z)
| Send (sock : nat) (data : list Z)
| Wait (id : nat)
| Close.

(** a message and the thread that sends it; [SendItem] of SocketSendQueue.hpp 36-40 *)
Definition item := (nat * call)%type.
Definition sockOf (x : item) : nat := match snd x with ASend _ s _ => s | Send s _ => s | _ => 0 end.
Definition dataOf (x : item) : list Z := match snd x with ASend _ _ d => d | Send _ d => d | _ => [] end.
(** the request of an asynchronous send *)
Definition requestOf (x : item) : option (nat * nat) := match snd x with ASend id _ _ => Some (fst x, id) | _ => None end.

(** what a thread does next *)
Inductive pc :=
| Idle
| DLock (x : item)     (* SocketSendQueue.cpp:25, dispatch: take the lock *)
| DPush (x : item)     (* :26 *)
| PTest                (* :39, process *)
| PTake                (* :43-44 *)
| PClear (x : item)    (* :45 *)
| PWrite (x : item)    (* :46 *)
| PUnlock              (* :28, 36: the lock is released *)
| HComplete (x : item) (* :49, the handler: the callback completes the request *)
| HLock                (* :32, sendCompleted: take the lock *)
| HReady               (* :34 *)
| SBlock (x : item) (rest : list Z) (* SocketCommunication.cpp:380, asio::write *)
| WaitFor (r : nat * nat).          (* SocketRequest.cpp 24-30 *)
Record thread := { at_ : pc; todo : list call }.

Record st := {
  queue : list item;              (* SocketSendQueue.hpp:43 *)
  ready : bool;                   (* :47 *)
  mutex : option nat;             (* :45, the thread that holds it *)
  writes : list (item * list Z);  (* operations in progress and the bytes they still have to write *)
  handlers : list item;           (* finished operations whose handler did not run yet *)
  wire : nat -> list Z;           (* the bytes written to each socket *)
  completed : list (nat * nat);   (* the calls of SocketRequest::complete, in their order *)
  handed : list item;             (* the messages in the order in which they were handed over *)
  threads : list thread;
  stopped : bool;                 (* _ioContext->stop() *)
  broken : bool                   (* undefined behaviour: access to an empty queue *)
}.

(** bytes appended to a socket *)
Definition put (s : nat) (d : list Z) (w : nat -> list Z) : nat -> list Z :=
  fun s' => if s' =? s then w s' ++ d else w s'.

(** updates of a thread and of the shared state *)
Definition moveTo (t : nat) (p : pc) (c : st) : st :=
  {| queue := queue c; ready := ready c; mutex := mutex c; writes := writes c; handlers := handlers c; wire := wire c;
     completed := completed c; handed := handed c; stopped := stopped c; broken := broken c;
     threads := match nth_error (threads c) t with Some th => upd t {| at_ := p; todo := todo th |} (threads c) | None => threads c end |}.
Definition setQueue q c := {| queue := q; ready := ready c; mutex := mutex c; writes := writes c; handlers := handlers c; wire := wire c; completed := completed c; handed := handed c; threads := threads c; stopped := stopped c; broken := broken c |}.
Definition setReady b c := {| queue := queue c; ready := b; mutex := mutex c; writes := writes c; handlers := handlers c; wire := wire c; completed := completed c; handed := handed c; threads := threads c; stopped := stopped c; broken := broken c |}.
Definition setMutex m c := {| queue := queue c; ready := ready c; mutex := m; writes := writes c; handlers := handlers c; wire := wire c; completed := completed c; handed := handed c; threads := threads c; stopped := stopped c; broken := broken c |}.
Definition setWrites l c := {| queue := queue c; ready := ready c; mutex := mutex c; writes := l; handlers := handlers c; wire := wire c; completed := completed c; handed := handed c; threads := threads c; stopped := stopped c; broken := broken c |}.
Definition setHandlers l c := {| queue := queue c; ready := ready c; mutex := mutex c; writes := writes c; handlers := l; wire := wire c; completed := completed c; handed := handed c; threads := threads c; stopped := stopped c; broken := broken c |}.
Definition setWire w c := {| queue := queue c; ready := ready c; mutex := mutex c; writes := writes c; handlers := handlers c; wire := w; completed := completed c; handed := handed c; threads := threads c; stopped := stopped c; broken := broken c |}.
Definition setCompleted l c := {| queue := queue c; ready := ready c; mutex := mutex c; writes := writes c; handlers := handlers c; wire := wire c; completed := l; handed := handed c; threads := threads c; stopped := stopped c; broken := broken c |}.
Definition setHanded l c := {| queue := queue c; ready := ready c; mutex := mutex c; writes := writes c; handlers := handlers c; wire := wire c; completed := completed c; handed := l; threads := threads c; stopped := stopped c; broken := broken c |}.
Definition setThreads l c := {| queue := queue c; ready := ready c; mutex := mutex c; writes := writes c; handlers := handlers c; wire := wire c; completed := completed c; handed := handed c; threads := l; stopped := stopped c; broken := broken c |}.
Definition setStopped b c := {| queue := queue c; ready := ready c; mutex := mutex c; writes := writes c; handlers := handlers c; wire := wire c; completed := completed c; handed := handed c; threads := threads c; stopped := b; broken := broken c |}.
Definition setBroken b c := {| queue := queue c; ready := ready c; mutex := mutex c; writes := writes c; handlers := handlers c; wire := wire c; completed := completed c; handed := handed c; threads := threads c; stopped := stopped c; broken := b |}.

Definition reqEqb (a b : nat * nat) : bool := (fst a =? fst b) && (snd a =? snd b).

(** a thread without current work: the next handler for the io context (:48), the
    next call for the others *)
Definition fetch (t : nat) (th : thread) (c : st) : option st :=
  match t with
  | 0 => match handlers c with
         | x :: l => if stopped c then None else Some (moveTo 0 (HComplete x) (setHandlers l c))
         | [] => None
         end
  | S _ =>
    match todo th with
    | [] => None
    | k :: l =>
      let c := setThreads (upd t {| at_ := at_ th; todo := l |} (threads c)) c in
      match k with
      | ASend _ _ _ => Some (moveTo t (DLock (t, k)) c)
      | Send s d => Some (moveTo t (SBlock (t, k) d) (setHanded (handed c ++ [(t, k)]) c))
      | Wait id => Some (moveTo t (WaitFor (t, id)) c)
      | Close => match nth_error (threads c) 0 with
                 | Some io => match at_ io with Idle => Some (setStopped true c) | _ => None end
                 | None => None
                 end
      end
    end
  end.

(** one step of thread [t]; [k] is the number of bytes that a blocking write
    writes at once *)
Definition run (t k : nat) (c : st) : option st :=
  match nth_error (threads c) t with
  | None => None
  | Some th =>
    match at_ th with
    | Idle => fetch t th c
    (* SocketSendQueue.cpp 21-28 *)
    | DLock x => match mutex c with None => Some (moveTo t (DPush x) (setMutex (Some t) c)) | Some _ => None end
    | DPush x => Some (moveTo t PTest (setHanded (handed c ++ [x]) (setQueue (queue c ++ [x]) c)))
    (* :37-52 *)
    | PTest => Some (moveTo t (if negb (ready c) || match queue c with [] => true | _ => false end then PUnlock else PTake) c)
    | PTake => match queue c with
               | x :: l => Some (moveTo t (PClear x) (setQueue l c))
               | [] => Some (setBroken true (moveTo t PUnlock c))
               end
    | PClear x => Some (moveTo t (PWrite x) (setReady false c))
    | PWrite x => Some (moveTo t PUnlock (setWrites (writes c ++ [(x, dataOf x)]) c))
    | PUnlock => Some (moveTo t Idle (setMutex None c))
    (* :48-51, 30-36 *)
    | HComplete x => Some (moveTo t HLock (setCompleted (completed c ++ match requestOf x with Some r => [r] | None => [] end) c))
    | HLock => match mutex c with None => Some (moveTo t HReady (setMutex (Some t) c)) | Some _ => None end
    | HReady => Some (moveTo t PTest (setReady true c))
    (* SocketCommunication.cpp:380 *)
    | SBlock x rest => match rest with
                       | [] => Some (moveTo t Idle c)
                       | _ => if (0 <? k) && (k <=? length rest)
                              then Some (moveTo t (SBlock x (skipn k rest)) (setWire (put (sockOf x) (firstn k rest) (wire c)) c))
                              else None
                       end
    (* SocketRequest.cpp 24-30 *)
    | WaitFor r => if existsb (reqEqb r) (completed c) then Some (moveTo t Idle c) else None
    end
  end.

Inductive label :=
| Run (t k : nat)      (* thread [t] makes a step *)
| Bytes (i k : nat)    (* operation [i] writes [k] bytes *)
| Done (i : nat)       (* operation [i] has written everything, its handler may run *)
| Fail_ (i : nat).     (* operation [i] ends with an error, its handler may run *)

Definition drop {A} (i : nat) (l : list A) : list A := firstn i l ++ skipn (S i) l.

Definition next (l : label) (c : st) : option st :=
  match l with
  | Run t k => run t k c
  | Bytes i k =>
    if stopped c then None else
    match nth_error (writes c) i with
    | Some (x, rest) => if (0 <? k) && (k <=? length rest)
                        then Some (setWrites (upd i (x, skipn k rest) (writes c)) (setWire (put (sockOf x) (firstn k rest) (wire c)) c))
                        else None
    | None => None
    end
  | Done i =>
    if stopped c then None else
    match nth_error (writes c) i with
    | Some (x, []) => Some (setWrites (drop i (writes c)) (setHandlers (handlers c ++ [x]) c))
    | _ => None
    end
  | Fail_ i =>
    if stopped c then None else
    match nth_error (writes c) i with
    | Some (x, _) => Some (setWrites (drop i (writes c)) (setHandlers (handlers c ++ [x]) c))
    | None => None
    end
  end.

(** the beginning: the io context is idle, thread [1 + i] of the application makes
    the calls [nth i progs] *)
Definition start (progs : list (list call)) : st :=
  {| queue := []; ready := true; mutex := None; writes := []; handlers := []; wire := fun _ => []; completed := []; handed := [];
     threads := {| at_ := Idle; todo := [] |} :: map (fun p => {| at_ := Idle; todo := p |}) progs; stopped := false; broken := false |}.

Fixpoint steps (ls : list label) (c : st) : option st :=
  match ls with
  | [] => Some c
  | l :: ls' => match next l c with Some c' => steps ls' c' | None => None end
  end.
