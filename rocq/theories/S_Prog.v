(** Specification vocabulary: what a single program can do when its partners
    send arbitrary messages. *)
From Verif Require Import M_Net.

(** [returns p a]: for some received messages, [p] ends normally with [a] *)
Fixpoint returns {M A} (p : proc M A) (a : A) : Prop :=
  match p with
  | PRet x => x = a
  | PErr _ => False
  | PSend _ _ k => returns k a
  | PRecv _ k => exists m, returns (k m) a
  end.

(** [fails p e]: for some received messages, [p] ends with error [e] *)
Fixpoint fails {M A} (p : proc M A) (e : err) : Prop :=
  match p with
  | PRet _ => False
  | PErr e' => e' = e
  | PSend _ _ k => fails k e
  | PRecv _ k => exists m, fails (k m) e
  end.

(** [rejected p]: [p] stops with an error reported to the user before it
    exchanged any message *)
Definition rejected {M A} (p : proc M A) : Prop := exists n, p = PErr (ECheck n).
