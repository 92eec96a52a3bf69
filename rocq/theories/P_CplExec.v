(** Executable histories, used to exhibit concrete runs. *)
From Coq Require Import ZArith Bool List.
From Verif Require Import M_Net M_Time M_Wave M_Cpl S_Prog S_Cpl P_Prog.
Import ListNotations.
Open Scope Z_scope.

Section X.
Context {V : Type}.
Variables (gnone vzero : V).

Inductive op :=
| OInit (E : env (V:=V)) (l : list (msg V))
| ORead | OWrite
| OAdv (E : env (V:=V)) (dt : Z) (l : list (msg V)).

(** operations, latest first *)
Fixpoint exec (k : kind) (c : conf) (ops : list op) : option (history * st (V:=V)) :=
  match ops with
  | [] => None
  | [OInit E l] =>
      match feed (p_initialize gnone vzero k E c (answerInit (st0 c))) l with
      | Some s => Some ([Initialized (observe c s)], s)
      | None => None
      end
  | OInit _ _ :: _ => None
  | ORead :: r => match exec k c r with Some (h, s) => Some (AskedRead :: h, answerRead s) | None => None end
  | OWrite :: r => match exec k c r with Some (h, s) => Some (AskedWrite :: h, answerWrite s) | None => None end
  | OAdv E dt l :: r =>
      match exec k c r with
      | Some (h, s) =>
          match feed (p_advance gnone k E c dt s) l with
          | Some s' => Some (Advanced dt (observe c s') :: h, s')
          | None => None
          end
      | None => None
      end
  end.

Lemma exec_run k c ops : forall h s, exec k c ops = Some (h, s) -> run gnone vzero k c h s.
Proof.
  induction ops as [|o r IH]; intros h s H; [discriminate H|].
  destruct o as [E l| | |E dt l]; cbn [exec] in H.
  - destruct r; [|discriminate H]. destruct (feed _ _) eqn:F; [|discriminate H]. injection H as <- <-.
    eapply run_init_asked, feed_returns, F.
  - destruct (exec k c r) as [(h', s')|]; [|discriminate H]. injection H as <- <-. apply run_ask_read, IH. reflexivity.
  - destruct (exec k c r) as [(h', s')|]; [|discriminate H]. injection H as <- <-. apply run_ask_write, IH. reflexivity.
  - destruct (exec k c r) as [(h', s')|]; [|discriminate H]. destruct (feed _ _) eqn:F; [|discriminate H]. injection H as <- <-.
    eapply run_adv; [apply IH; reflexivity|eapply feed_returns, F].
Qed.
End X.
