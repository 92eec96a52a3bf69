(** Multi coupling: one controller and any number of participants (C17). *)
From Coq Require Import ZArith Bool List Lia.
From Verif Require Import M_Net M_Time M_Wave M_Cpl M_Multi S_Prog S_Cpl S_Net S_Term S_Multi P_NetExecN P_MultiRun.
Import ListNotations.
Open Scope Z_scope.

Section T.
Context {V : Type}.
Variables (gnone vzero : V).
Notation env := (env (V:=V)).

(** C17 with sends that need not wait for the receiver: any exchange tags *)
Theorem C17_multi_buffered : forall n z w cf (Es : nat -> env),
  multi n z w cf -> (forall i, (i < n)%nat -> exact_solver (m_base (cf i)) (Es i)) -> measures_ok (m_base (cf z)) (Es z) ->
  multi_correct_buffered gnone vzero n cf Es.
Proof. intros n z w cf Es. exact (multi_buffered gnone vzero n z w cf Es). Qed.

(** C17 with sends that wait for the receiver: all data from or to the controller *)
Theorem C17_multi_blocking : forall n z w cf (Es : nat -> env),
  multi n z w cf -> star n z cf -> (forall i, (i < n)%nat -> exact_solver (m_base (cf i)) (Es i)) -> measures_ok (m_base (cf z)) (Es z) ->
  multi_correct_blocking gnone vzero n cf Es.
Proof. intros n z w cf Es A B C D. exact (multi_blocking gnone vzero n z w cf Es A C D B). Qed.
End T.
Print Assumptions C17_multi_buffered.
Print Assumptions C17_multi_blocking.

(** ** The hypotheses are met *)
(** Four participants, controller 2.  With [mutual], participants 0 and 1 also
    exchange data with each other.  The controller sends the same data to
    several participants. *)
Definition dA := DSpec true true false.
Definition dB := DSpec false false false.
Definition dC := DSpec false true true.
Definition exBase (i : nat) (send recv : list dspec) : conf :=
  Conf 1 true (match i with 2%nat => false | _ => true end) false false (Some 250) (Some 7) (Some 100) 1 (Some 4)
    (match i with 2%nat => [(true, false); (false, true)] | _ => [] end) 0 send recv.
Definition exCf (mutual : bool) (i : nat) : mconf :=
  match i with
  | 0%nat => MConf (exBase 0 [dA; dB] ((if mutual then [dB] else []) ++ [dC])) 0 2 [2%nat; 1%nat]
               ((2%nat, [0; 1]%nat) :: if mutual then [(1%nat, [0%nat])] else [])
               ((if mutual then [(1%nat, [dB])] else []) ++ [(2%nat, [dC])])
  | 1%nat => MConf (exBase 1 [dB; dC] ((if mutual then [dA] else []) ++ [dA])) 1 2 [0%nat; 2%nat]
               ((if mutual then [(0%nat, [0%nat])] else []) ++ [(2%nat, [0; 1]%nat)])
               ((if mutual then [(0%nat, [dA])] else []) ++ [(2%nat, [dA])])
  | 2%nat => MConf (exBase 2 [dA; dC] [dB; dC; dB; dA; dB]) 2 2 [3; 0; 1]%nat
               [(0%nat, [1%nat]); (1%nat, [0%nat]); (3%nat, [1; 0]%nat)]
               [(1%nat, [dB; dC]); (3%nat, [dB]); (0%nat, [dA; dB])]
  | _ => MConf (exBase 3 [dB] [dC; dA]) 3 2 [2%nat] [(2%nat, [0%nat])] [(2%nat, [dC; dA])]
  end.
(** half steps if enough time is left, else the maximal step; converges in the
    third iteration *)
Definition exEs (mutual : bool) (i : nat) : env (V:=Z) :=
  Env (fun s => match getMaxTimeStepSize (m_base (exCf mutual i)) s with None => 30 | Some m => if 60 <? m then 50 else m end)
      (fun s n => (th_time (s_time s) + 7 * Z.of_nat n, 0)) (fun n => (3, 0)) (fun s => [2 <? s_it s; 2 <? s_it s])
      (fun _ _ _ _ x => (fst x + 1, snd x)).

Ltac below4 i := destruct i as [|[|[|[|i]]]]; [| | | |exfalso; lia].
Example ex_multi : forall mutual, multi 4 2 100 (exCf mutual).
Proof.
  intros mutual. constructor.
  - lia.
  - intros i Hi. below4 i; split; reflexivity.
  - intros i Hi. below4 i; repeat split; reflexivity.
  - cbn. lia.
  - cbn. intros T H; injection H as <-. lia.
  - cbn. intros N H; injection H as <-. lia.
  - split; [cbn; repeat constructor; cbn; lia|]. intros j. cbn. lia.
  - intros i Hi. below4 i; destruct mutual; (split; [cbn; repeat constructor; cbn; lia|]);
      intros j ix H; cbn in H; repeat (destruct H as [H|H]; [injection H as <- <-; cbn; repeat split; repeat constructor; lia|]); destruct H.
  - intros i Hi. below4 i; destruct mutual; (split; [cbn; repeat constructor; cbn; lia|]); (split; [|reflexivity]);
      intros j ix H; cbn in H; repeat (destruct H as [H|H]; [injection H as <- <-; cbn; lia|]); destruct H.
  - intros i j Hi Hj. below4 i; below4 j; destruct mutual; reflexivity.
Qed.
Example ex_star : star 4 2 (exCf false).
Proof.
  intros i Hi Ni. below4 i; try congruence; (split; intros j x H; cbn in H; repeat (destruct H as [H|H]; [injection H as <- <-; reflexivity|]); destruct H).
Qed.
Example ex_solvers : forall mutual i, exact_solver (m_base (exCf mutual i)) (exEs mutual i).
Proof.
  intros mutual i s O _ _. assert (Hc : c_eps (m_base (exCf mutual i)) = 1) by (destruct i as [|[|[|i]]]; reflexivity).
  unfold exEs. cbn [e_dt]. rewrite Hc. destruct (getMaxTimeStepSize (m_base (exCf mutual i)) s) as [m|]; [|lia].
  intros L. destruct (Z.ltb_spec 60 m); lia.
Qed.
Example ex_measures : forall mutual, measures_ok (m_base (exCf mutual 2)) (exEs mutual 2).
Proof.
  intros mutual s. split; [reflexivity|]. intros (m & H & S & F). exists 4. split; [reflexivity|].
  cbn in H. destruct H as [<-|[<-|[]]]; cbn in S, F; [discriminate S|]. apply Z.ltb_ge in F. lia.
Qed.

(** both run to completion: three windows of three iterations *)
Definition all_done (cf : nat -> mconf) (c : net (M:=msg Z) (S:=st (V:=Z))) : bool :=
  forallb (fun ip => match snd ip with
                     | PRet s => negb (isCouplingOngoing (m_base (cf (fst ip))) s) && (length (s_hist s) =? 9)%nat
                     | _ => false
                     end) (combine (seq 0 4) c).
Example ex_run_blocking :
  all_done (exCf false) (runN (multiBody 0 4 (exCf false) (exEs false)) 2000 (multiNet 0 0 4 (exCf false) (exEs false))) = true.
Proof. vm_compute. reflexivity. Qed.
Example ex_run_buffered :
  all_done (exCf true) (fst (arunN (multiBody 0 4 (exCf true) (exEs true)) 1000 [3; 1; 0; 2]%nat (multiNet 0 0 4 (exCf true) (exEs true), emptych 4))) = true.
Proof. vm_compute. reflexivity. Qed.

(** ** What the hypotheses exclude *)
(** C17: participants 0 and 1, both not the controller, exchange data in both
    directions.  Both send before they receive: if sends wait for the receiver
    they deadlock. *)
Theorem C17_blocking_mutual_refuted : exists n z w cf (Es : nat -> env (V:=Z)),
  multi n z w cf /\ (forall i, (i < n)%nat -> exact_solver (m_base (cf i)) (Es i)) /\ measures_ok (m_base (cf z)) (Es z) /\
  exists c, reaches (sstep (multiBody 0 n cf Es)) (multiNet 0 0 n cf Es) c /\
    ~ all_finished (multiBody 0 n cf Es) c /\ forall l c', ~ sstep (multiBody 0 n cf Es) l c c'.
Proof.
  exists 4%nat, 2%nat, 100, (exCf true), (exEs true). split; [apply ex_multi|]. split; [intros i _; apply ex_solvers|]. split; [apply ex_measures|].
  apply (runN_stuck _ 500). vm_compute. reflexivity.
Qed.
Print Assumptions C17_blocking_mutual_refuted.
