(** Specification vocabulary for sends on sockets. *)
From Coq Require Import ZArith List Arith Bool.
From Verif Require Import M_Net M_Socket.
Import ListNotations.

(** the connection works *)
Definition works (l : label) : Prop := match l with Fail_ _ => False | _ => True end.
(** [c] is reached by the calls [progs] on working connections *)
Definition reached (progs : list (list call)) (c : st) : Prop :=
  exists ls, Forall works ls /\ steps ls (start progs) = Some c.

(** the messages of thread [t] in a program *)
Definition isMessage (k : call) : bool := match k with ASend _ _ _ | Send _ _ => true | _ => false end.
Definition messages (p : list call) : list call := filter isMessage p.
Definition from (t : nat) (l : list item) : list call := map snd (filter (fun x => fst x =? t) l).
(** the bytes of the messages [l] that go to socket [s] *)
Definition bytes (s : nat) (l : list item) : list Z := flat_map (fun x => if sockOf x =? s then dataOf x else []) l.
(** the requests of the messages [l] *)
Definition requests (l : list item) : list (nat * nat) :=
  flat_map (fun x => match requestOf x with Some r => [r] | None => [] end) l.

(** requests of a program *)
Definition ids (p : list call) : list nat := flat_map (fun k => match k with ASend id _ _ => [id] | _ => [] end) p.
(** every send makes a new request, [wait] is called for requests that were made, and
    the connection is not closed *)
Fixpoint proper (seen : list nat) (p : list call) : Prop :=
  match p with
  | [] => True
  | ASend id _ _ :: r => ~ In id seen /\ proper (id :: seen) r
  | Send _ _ :: r => proper seen r
  | Wait id :: r => In id seen /\ proper seen r
  | Close :: _ => False
  end.
Definition only_asynchronous (p : list call) : Prop := forall s d, ~ In (Send s d) p.
(** before a blocking send the program waits for all its asynchronous sends *)
Fixpoint waits (open : list nat) (p : list call) : Prop :=
  match p with
  | [] => True
  | ASend id _ _ :: r => waits (id :: open) r
  | Send _ _ :: r => open = [] /\ waits open r
  | Wait id :: r => waits (filter (fun i => negb (i =? id)) open) r
  | Close :: _ => False
  end.
(** any number of threads that send asynchronously, or a single thread that waits *)
Definition disciplined (progs : list (list call)) : Prop :=
  (forall p, In p progs -> proper [] p) /\
  ((forall p, In p progs -> only_asynchronous p) \/ exists p, progs = [p] /\ waits [] p).

(** nothing can happen any more *)
Definition still (c : st) : Prop := forall l, works l -> next l c = None.
