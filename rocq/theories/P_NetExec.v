(** Running a network of two processes by computation. *)
From Coq Require Import List Arith Lia.
From Verif Require Import M_Net P_Net.
Import ListNotations.

Section Exec.
Context {M S : Type}.
Variable body : nat -> S -> option (proc M S).

Definition comm2 (p q : proc M S) : option (proc M S * proc M S) :=
  match p, q with
  | PSend 1 m k, PRecv 0 g => Some (k, g m)
  | PRecv 1 g, PSend 0 m k => Some (g m, k)
  | _, _ => None
  end.
Definition loop2 (p q : proc M S) : option (proc M S * proc M S) :=
  match p with
  | PRet s => match body 0 s with
              | Some p' => Some (p', q)
              | None => match q with
                        | PRet t => match body 1 t with Some q' => Some (p, q') | None => None end
                        | _ => None
                        end
              end
  | _ => match q with
         | PRet t => match body 1 t with Some q' => Some (p, q') | None => None end
         | _ => None
         end
  end.
Definition step2 (p q : proc M S) : option (proc M S * proc M S) :=
  match comm2 p q with Some r => Some r | None => loop2 p q end.
Fixpoint run2 (fuel : nat) (p q : proc M S) : proc M S * proc M S :=
  match fuel with
  | 0 => (p, q)
  | Datatypes.S n => match step2 p q with None => (p, q) | Some (p', q') => run2 n p' q' end
  end.

Lemma loop1_sound p q p' q' :
  match q with PRet t => match body 1 t with Some q1 => Some (p, q1) | None => None end | _ => None end = Some (p', q') ->
  exists l, sstep body l [p; q] [p'; q'].
Proof.
  destruct q as [t| | |]; try discriminate. destruct (body 1 t) as [q1|] eqn:E; [|discriminate].
  intros H; injection H as <- <-. exists (1, 1). apply (ss_loop body 1 t q1 [p; PRet t]); auto.
Qed.
Lemma step2_sound p q p' q' : step2 p q = Some (p', q') -> exists l, sstep body l [p; q] [p'; q'].
Proof.
  unfold step2. destruct (comm2 p q) as [(a, b)|] eqn:C.
  - intros H; injection H as <- <-. unfold comm2 in C.
    destruct p as [s|e|[|[|d]] m k|[|[|d]] g]; try discriminate C; destruct q as [s'|e'|[|d'] m' k'|[|d'] g']; try discriminate C;
      injection C as <- <-.
    + exists (0, 1). apply (ss_comm body 0 1 m k g' [PSend 1 m k; PRecv 0 g']); auto.
    + exists (1, 0). apply (ss_comm body 1 0 m' k' g [PRecv 1 g; PSend 0 m' k']); auto.
  - unfold loop2. destruct p as [s| | |]; try apply loop1_sound.
    destruct (body 0 s) as [p1|] eqn:E; [|apply loop1_sound].
    intros H; injection H as <- <-. exists (0, 0). apply (ss_loop body 0 s p1 [PRet s; q]); auto.
Qed.
Lemma run2_sound fuel : forall p q p' q', run2 fuel p q = (p', q') -> reaches (sstep body) [p; q] [p'; q'].
Proof.
  induction fuel as [|n IH]; intros p q p' q' H; cbn in H.
  - injection H as <- <-. exists []. constructor.
  - destruct (step2 p q) as [(p1, q1)|] eqn:E.
    + destruct (step2_sound _ _ _ _ E) as (l & Hl). destruct (IH _ _ _ _ H) as (w & Hw). exists (l :: w). econstructor; eauto.
    + injection H as <- <-. exists []. constructor.
Qed.
Lemma step2_complete p q l c' : step2 p q = None -> ~ sstep body l [p; q] c'.
Proof.
  unfold step2. destruct (comm2 p q) eqn:C; [discriminate|]. intros L H.
  inversion H as [i j m ki kj c Ne Hi Hj|i s p1 c Hi Hb]; subst.
  - destruct i as [|[|i]]; destruct j as [|[|j]]; cbn in Hi, Hj; try congruence;
      try (destruct i; discriminate Hi); try (destruct j; discriminate Hj);
      injection Hi as ->; injection Hj as ->; cbn in C; discriminate C.
  - destruct i as [|[|i]]; cbn in Hi; [| |destruct i; discriminate Hi]; injection Hi as ->; cbn in L.
    + cbn in L. rewrite Hb in L. discriminate L.
    + destruct p as [t| | |]; cbn in L; try (rewrite Hb in L; discriminate L).
      destruct (body 0 t); [discriminate L|rewrite Hb in L; discriminate L].
Qed.

Definition isRet (p : proc M S) : bool := match p with PRet _ => true | _ => false end.
Definition isErr (p : proc M S) : bool := match p with PErr _ => true | _ => false end.
Definition stuck2 (x : proc M S * proc M S) : bool :=
  match step2 (fst x) (snd x) with None => negb (isRet (fst x) && isRet (snd x)) | Some _ => false end.
Lemma run2_stuck fuel p q : stuck2 (run2 fuel p q) = true ->
  exists c, reaches (sstep body) [p; q] c /\ ~ all_finished body c /\ forall l c', ~ sstep body l c c'.
Proof.
  destruct (run2 fuel p q) as (p', q') eqn:R. unfold stuck2. cbn [fst snd]. intros H.
  exists [p'; q']. split; [eapply run2_sound, R|]. destruct (step2 p' q') eqn:St; [discriminate H|]. split.
  - intros F. destruct (F 0 p' eq_refl) as (s & E & _). destruct (F 1 q' eq_refl) as (t & E' & _). subst. discriminate H.
  - intros l c'. apply step2_complete, St.
Qed.
Lemma run2_error fuel p q : (isErr (fst (run2 fuel p q)) || isErr (snd (run2 fuel p q)))%bool = true ->
  exists c, reaches (sstep body) [p; q] c /\ some_error c.
Proof.
  destruct (run2 fuel p q) as (p', q') eqn:R. cbn [fst snd]. intros H.
  exists [p'; q']. split; [eapply run2_sound, R|].
  destruct p' as [| e| |]; [|exists 0, e; reflexivity| |]; destruct q' as [| e| |]; try discriminate H; exists 1, e; reflexivity.
Qed.
End Exec.
