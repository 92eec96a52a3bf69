(** Two programs exchanging messages with each other. *)
From Coq Require Import List Arith Lia.
From Verif Require Import M_Net P_Net.
Import ListNotations.

Section Pair.
Context {M : Type}.

Inductive pair {A B} (i j : nat) : proc M A -> proc M B -> proc M A -> proc M B -> Prop :=
| pair_nil p q : pair i j p q p q
| pair_ab m k f p' q' : pair i j k (f m) p' q' -> pair i j (PSend j m k) (PRecv i f) p' q'
| pair_ba m k f p' q' : pair i j (f m) k p' q' -> pair i j (PRecv j f) (PSend i m k) p' q'.

Lemma pair_trans {A B} i j (p : proc M A) (q : proc M B) p1 q1 p2 q2 :
  pair i j p q p1 q1 -> pair i j p1 q1 p2 q2 -> pair i j p q p2 q2.
Proof. induction 1; auto; intros; constructor; auto. Qed.

Lemma pair_bindl {A B C} i j (p : proc M A) (q : proc M B) p1 q1 (f : A -> proc M C) :
  pair i j p q p1 q1 -> pair i j (bind p f) q (bind p1 f) q1.
Proof. induction 1; cbn; constructor; auto. Qed.

Lemma pair_bindr {A B C} i j (p : proc M A) (q : proc M B) p1 q1 (f : B -> proc M C) :
  pair i j p q p1 q1 -> pair i j p (bind q f) p1 (bind q1 f).
Proof. induction 1; cbn; constructor; auto. Qed.

Lemma pair_bind {A B C D} i j (p : proc M A) (q : proc M B) p1 q1 (f : A -> proc M C) (g : B -> proc M D) :
  pair i j p q p1 q1 -> pair i j (bind p f) (bind q g) (bind p1 f) (bind q1 g).
Proof. intros. apply pair_bindl, pair_bindr; auto. Qed.

Lemma pair_swap {A B} i j (p : proc M A) (q : proc M B) p1 q1 :
  pair i j p q p1 q1 -> pair j i q p q1 p1.
Proof. induction 1; constructor; auto. Qed.

Section Run.
Context {S : Type}.
Variable body : nat -> S -> option (proc M S).

Lemma pair_run (p q p1 q1 : proc M S) : pair 0 1 p q p1 q1 ->
  exists w, lrun (sstep body) w [p; q] [p1; q1].
Proof.
  induction 1 as [p q|m k f p' q' H (w & IH)|m k f p' q' H (w & IH)].
  - exists []. constructor.
  - exists ((0, 1) :: w). econstructor; [|exact IH].
    apply (ss_comm body 0 1 m k f [PSend 1 m k; PRecv 0 f]); auto.
  - exists ((1, 0) :: w). econstructor; [|exact IH].
    apply (ss_comm body 1 0 m k f [PRecv 1 f; PSend 0 m k]); auto.
Qed.

(** local API calls of a process that need no communication *)
Inductive local (i : nat) : S -> S -> Prop :=
| loc_nil s : local i s s
| loc_cons s s1 s2 : body i s = Some (PRet s1) -> local i s1 s2 -> local i s s2.

Lemma local0 s s1 q : local 0 s s1 -> exists w, lrun (sstep body) w [PRet s; q] [PRet s1; q].
Proof.
  induction 1 as [s|s s1 s2 H _ (w & IH)].
  - exists []. constructor.
  - exists ((0, 0) :: w). econstructor; [|exact IH].
    apply (ss_loop body 0 s (PRet s1) [PRet s; q]); auto.
Qed.
Lemma local1 s s1 p : local 1 s s1 -> exists w, lrun (sstep body) w [p; PRet s] [p; PRet s1].
Proof.
  induction 1 as [s|s s1 s2 H _ (w & IH)].
  - exists []. constructor.
  - exists ((1, 1) :: w). econstructor; [|exact IH].
    apply (ss_loop body 1 s (PRet s1) [p; PRet s]); auto.
Qed.

Lemma step0 s p q : body 0 s = Some p -> lrun (sstep body) [(0, 0)] [PRet s; q] [p; q].
Proof. intros H. econstructor; [|constructor]. apply (ss_loop body 0 s p [PRet s; q]); auto. Qed.
Lemma step1 s p q : body 1 s = Some q -> lrun (sstep body) [(1, 1)] [p; PRet s] [p; q].
Proof. intros H. econstructor; [|constructor]. apply (ss_loop body 1 s q [p; PRet s]); auto. Qed.

End Run.
End Pair.
