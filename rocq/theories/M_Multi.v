(** Multi coupling: one controller and any number of other participants.

    Models src/cplscheme/MultiCouplingScheme.cpp, on top of the participant
    model of M_Cpl.v (BaseCouplingScheme.cpp and the callers in
    ParticipantImpl.cpp).

    Simplifications (besides those of M_Cpl.v):
    - participants are numbers; [_m2ns], [_sendDataVector] and
      [_receiveDataVector] are maps sorted by participant name: here lists in
      any order, so that every choice of names is covered;
    - the same data may be sent to several partners (BaseCouplingScheme.cpp
      240-255): the entries of [_sendDataVector] name positions in the list of
      send data.  Data is received from one partner only (247-249): the receive
      data is the concatenation of the data received from each partner;
    - the ghost logs of sent and received blocks carry the partner. *)
From Coq Require Import ZArith Bool List Lia.
From Verif Require Import M_Net M_Time M_Wave M_Cpl.
Import ListNotations.
Open Scope Z_scope.
Open Scope proc_scope.

(** constructor arguments and members of MultiCouplingScheme
    (MultiCouplingScheme.cpp 22-38, MultiCouplingScheme.hpp) *)
Record mconf := MConf {
  m_base : conf;                        (* what BaseCouplingScheme keeps *)
  m_self : nat;                         (* localParticipant *)
  m_controller : nat;                   (* _controller *)
  m_m2ns : list nat;                    (* keys of _m2ns *)
  m_send : list (nat * list nat);       (* _sendDataVector: partner, positions in c_send *)
  m_recv : list (nat * list dspec)      (* _receiveDataVector: partner, data *)
}.
Definition isController (m : mconf) : bool := (m_self m =? m_controller m)%nat.

(** the data of an entry of _sendDataVector *)
Definition pick {A} (ix : list nat) (l : list A) : list A :=
  flat_map (fun k => match nth_error l k with Some x => [x] | None => [] end) ix.

Section Multi.
Context {V : Type}.
Variable gnone : V.
Variable vzero : V.
Notation st := (st (V:=V)).
Notation env := (env (V:=V)).
Notation prog := (proc (msg V)).

(** ghost: a log entry with its partner *)
Definition tag (j : nat) (v : list (view V)) : list (view V) := ([Z.of_nat j], []) :: v.

(** sendData(_m2ns[to], data), BaseCouplingScheme.cpp 112-150 *)
Definition sendTo (m : mconf) (p : nat * list nat) (s : st) : prog st :=
  let ds := pick (snd p) (c_send (m_base m)) in
  let ws := pick (snd p) (s_send s) in
  sendAll (fst p) ds ws ;;;
  PRet (set_s_sent (s_sent s ++ [tag (fst p) (viewsOf gnone ds ws)]) s).

(** the part [off, off + len) of the receive data *)
Definition part (off len : nat) (s : st) : list (wave (smp V)) := firstn len (skipn off (s_recv s)).
Definition setPart (off len : nat) (r : list (wave (smp V))) (s : st) : st :=
  set_s_recv (firstn off (s_recv s) ++ r ++ skipn (off + len) (s_recv s)) s.

(** receiveData(_m2ns[from], data), BaseCouplingScheme.cpp 167-204 *)
Definition recvFrom (m : mconf) (off : nat) (p : nat * list dspec) (s : st) : prog st :=
  let len := length (snd p) in
  r <- recvAll gnone (c_eps (m_base m)) (th_time (s_time s)) (fst p) (snd p) (part off len s) ;;
  PRet (set_s_rcvd (s_rcvd s ++ [tag (fst p) (viewsOf gnone (snd p) r)]) (setPart off len r s)).
(** initializeWithZeroInitialData(data), BaseCouplingScheme.cpp 219-226 *)
Definition zeroFrom (m : mconf) (off : nat) (p : nat * list dspec) (s : st) : prog st :=
  let len := length (snd p) in
  r <- zeroAll gnone vzero (c_eps (m_base m)) (th_time (s_time s)) (snd p) (part off len s) ;;
  PRet (setPart off len r s).

(** for (auto &[to, data] : _sendDataVector) *)
Fixpoint eachTo (f : nat * list nat -> st -> prog st) (l : list (nat * list nat)) (s : st) : prog st :=
  match l with
  | [] => PRet s
  | p :: r => s1 <- f p s ;; eachTo f r s1
  end.
(** for (auto &[from, data] : _receiveDataVector) *)
Fixpoint eachFrom (f : nat -> nat * list dspec -> st -> prog st) (off : nat) (l : list (nat * list dspec)) (s : st) : prog st :=
  match l with
  | [] => PRet s
  | p :: r => s1 <- f off p s ;; eachFrom f (off + length (snd p)) r s1
  end.

(** MultiCouplingScheme.cpp 117-125 with 176-204 *)
Definition sendsInitializedDataTo (m : mconf) (p : nat * list nat) : bool := existsb d_init (pick (snd p) (c_send (m_base m))).
Definition receivesInitializedDataFrom (p : nat * list dspec) : bool := existsb d_init (snd p).

(** MultiCouplingScheme.cpp 80-115 *)
Definition mu_initial (m : mconf) (s : st) : prog st :=
  assert_ (equals (c_eps (m_base m)) (th_time (s_time s)) (th_start (s_time s))) 60 ;;;
  let rcv := fun s0 =>
    s1 <- eachFrom (fun off p => if receivesInitializedDataFrom p then recvFrom m off p else zeroFrom m off p) 0 (m_recv m) s0 ;;
    notifyDataHasBeenReceived s1 in
  let snd_ := eachTo (fun p s0 => if sendsInitializedDataTo m p then sendTo m p s0 else PRet s0) (m_send m) in
  if isController m then s1 <- rcv s ;; snd_ s1
  else s1 <- snd_ s ;; rcv s1.

(** MultiCouplingScheme.cpp 127-145 *)
Definition mu_first (m : mconf) (s : st) : prog st :=
  assert_ (atWindowEnd (m_base m) s) 26 ;;;
  if isController m then
    s1 <- eachFrom (recvFrom m) 0 (m_recv m) s ;;
    notifyDataHasBeenReceived s1
  else eachTo (sendTo m) (m_send m) s.

(** sendConvergence to every M2N, MultiCouplingScheme.cpp 161-163 with
    BaseCouplingScheme.cpp 867-872 *)
Fixpoint sendConvergenceTo (l : list nat) (s : st) : prog unit :=
  match l with
  | [] => PRet tt
  | j :: r => send j (MBool (s_conv s)) ;;; sendConvergenceTo r s
  end.

(** MultiCouplingScheme.cpp 147-174 *)
Definition mu_second (E : env) (m : mconf) (s : st) : prog st :=
  assert_ (atWindowEnd (m_base m) s) 26 ;;;
  s1 <- (if negb (isController m) then
           b <- recvBool (m_controller m) ;;
           sa <- eachFrom (recvFrom m) 0 (m_recv m) (set_s_conv b s) ;;
           notifyDataHasBeenReceived sa
         else
           sa <- doImplicitStep E true (m_base m) s ;;
           sendConvergenceTo (m_m2ns m) sa ;;;
           eachTo (sendTo m) (m_send m) sa) ;;
  storeIteration (if s_conv s1 then moveToNextWindow s1 else s1).

(** a participant of a multi coupling: its solver calls initialize() and then
    advance() as long as the coupling is ongoing *)
Definition multiLoop (E : env) (m : mconf) (s : st) : option (prog st) :=
  if isCouplingOngoing (m_base m) s then
    Some (advance E (mu_first m) (mu_second E m) (m_base m) (e_dt E s) (answerWrite (answerRead s)))
  else None.
Definition multiStart (E : env) (m : mconf) : prog st :=
  initialize gnone vzero E (mu_initial m) (m_base m) (answerInit (st0 (m_base m))).

End Multi.
