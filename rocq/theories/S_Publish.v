(** Specification of connections through address files. *)
From Coq Require Import List Arith Bool.
From Verif Require Import M_Publish.
Import ListNotations.

(** an address as it is published: not empty, one line, without blank at its end *)
Definition proper_address (a : text) : Prop :=
  a <> [] /\ ~ In newline a /\ isSpace (last a newline) = false.

Definition is_crash (l : label) : Prop := match l with LCrashA | LCrashR _ => True | _ => False end.
Definition crash_free (ls : list label) : Prop := forall l, In l ls -> ~ is_crash l.

(** requester [i] knows the address [a] *)
Definition has_address (p : rpc) (a : text) : Prop := p = RConnect a \/ p = RWrong a.
Definition is_connected (p : rpc) : Prop := match p with RSendRank | RWaitAck | RSendSize | RDone => True | _ => False end.

(** no process stopped with an error *)
Definition no_failure (s : st) : Prop :=
  (forall e, s_acc s <> AEnd (Some e)) /\ (forall e, s_acc s <> ARemove (Some e)) /\ (forall e, s_acc s <> AOver (Some e)) /\ s_acc s <> AAbort /\
  (forall i e, nth_error (s_req s) i <> Some (RFail e)).

(** all are connected: the acceptor finds under each rank the requester with that
    rank, and no file is left *)
Definition all_connected (rank : nat -> nat) (size : nat) (s : st) : Prop :=
  s_acc s = AOver None /\ s_req s = repeat RDone size /\
  (forall i, i < size -> In (rank i, i) (s_table s)) /\ (forall r i, In (r, i) (s_table s) -> i < size /\ r = rank i) /\
  NoDup (map fst (s_table s)) /\ s_pub s = None /\ s_tmp s = None.
