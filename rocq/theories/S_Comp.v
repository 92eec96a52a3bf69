(** Specification vocabulary for several coupling schemes of one participant. *)
From Coq Require Import ZArith Bool List.
From Verif Require Import M_Net M_Time M_Cpl M_Comp S_Prog S_Cpl.
Import ListNotations.
Open Scope Z_scope.

(** a message to or from a partner *)
Inductive io (M : Type) := Sent (j : nat) (m : M) | Got (j : nat) (m : M).
Arguments Sent {M}. Arguments Got {M}.
Definition partnerOf {M} (e : io M) : nat := match e with Sent j _ => j | Got j _ => j end.

(** [starts p tr]: if partners send some messages, [p] exchanges the messages [tr]
    one after the other, and may go on *)
Fixpoint starts {M A} (p : proc M A) (tr : list (io M)) : Prop :=
  match tr with
  | [] => True
  | e :: tr' =>
      match p with
      | PSend j m k => e = Sent j m /\ starts k tr'
      | PRecv j k => exists m, e = Got j m /\ starts (k m) tr'
      | _ => False
      end
  end.
(** [does p tr a]: [p] exchanges the messages [tr] and then returns [a] *)
Fixpoint does {M A} (p : proc M A) (tr : list (io M)) (a : A) : Prop :=
  match p with
  | PRet x => tr = [] /\ x = a
  | PErr _ => False
  | PSend j m k => match tr with e :: tr' => e = Sent j m /\ does k tr' a | [] => False end
  | PRecv j k => match tr with e :: tr' => exists m, e = Got j m /\ does (k m) tr' a | [] => False end
  end.

(** A composition of one implicit scheme with window size [w] and explicit schemes
    whose window sizes are multiples of it.  All schemes end at the same time, and no
    explicit partner is the implicit partner. *)
Record compatible (eps w : Z) (T : option Z) (cc : cconf) : Prop := {
  co_eps : 0 <= eps < w;
  co_max : forall t, T = Some t -> eps < t;
  co_impl : exists ki ci, cc_impl cc = Some (ki, ci) /\
    c_implicit ci = true /\ fixed ki ci w /\ c_eps ci = eps /\ c_maxTime ci = T /\
    (forall k c, In (k, c) (cc_expl cc) -> c_partner c <> c_partner ci);
  co_some : cc_expl cc <> [];
  co_expl : forall k c, In (k, c) (cc_expl cc) ->
    c_implicit c = false /\ c_eps c = eps /\ c_maxTime c = T /\ exists n, 0 < n /\ fixed k c (n * w)
}.

Section Comp.
Context {V : Type}.
Variables (gnone vzero : V).
Notation cst := (cst (V:=V)).

(** the step is the largest one allowed or shorter by more than the tolerance *)
Definition exact_step (eps : Z) (cc : cconf) (s : cst) (dt : Z) : Prop :=
  match cMaxTimeStepSize cc s with None => True | Some m => dt = m \/ dt < m - eps end.

(** All states between the calls of a participant with several schemes, after any
    sequence of calls without error, if every step satisfies [ok].  Partners may send
    anything, and the environment may differ from call to call. *)
Inductive crun (ok : cst -> Z -> Prop) (cc : cconf) : cst -> Prop :=
| cr_init Es s : returns (cInitialize gnone vzero Es cc) s -> crun ok cc s
| cr_ask s : crun ok cc s -> crun ok cc (cAnswer s)
| cr_advance Es dt s s' : crun ok cc s -> ok s dt -> returns (cAdvance gnone Es cc dt s) s' -> crun ok cc s'.
End Comp.
