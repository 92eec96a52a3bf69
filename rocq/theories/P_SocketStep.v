(** Every step keeps the invariants of the sends on sockets. *)
From Coq Require Import ZArith List Arith Lia Bool.
From Verif Require Import M_Net M_Socket S_Socket P_Net P_Socket.
Import ListNotations.
Open Scope nat_scope.

Section Steps.
Variable progs : list (list call).
Hypothesis Disc : disciplined progs.
Notation invP := (invP progs). Notation inv := (inv progs).

Ltac setup c t new :=
  match goal with |- P_Socket.inv _ ?C _ =>
    let c' := fresh "c'" in
    set (c' := C);
    assert (PC : forall t', pcOf c' t' = if t' =? t then new else pcOf c t')
      by (intros t'; unfold c'; rewrite pc_moveTo by (cbn; assumption); reflexivity);
    assert (TD : forall t', todoOf c' t' = todoOf c t') by (intros t'; unfold c'; rewrite todo_moveTo; reflexivity);
    assert (LE : length (threads c') = length (threads c)) by (unfold c'; rewrite len_moveTo; reflexivity)
  end.
Ltac frame c t new :=
  match goal with PC : forall t', pcOf ?c' t' = _ |- _ => 
    eapply (frameP progs c c' t new); auto; try (intros; discriminate); try (apply incl_refl)
  end.

Lemma io_of : forall c t, invP c -> appPc (pcOf c t) = false -> t = 0.
Proof. intros c [|t] I H; auto. destruct (i_app _ _ I t). congruence. Qed.
Lemma app_of : forall c t, invP c -> ioPc (pcOf c t) = false -> exists u, t = S u.
Proof. intros c [|t] I H; [|eauto]. pose proof (i_io _ _ I). congruence. Qed.

(** the steps of [process] and of the handler *)
Lemma step_PTest : forall c dn t, inv c dn -> pcOf c t = PTest ->
  inv (moveTo t (if negb (ready c) || match queue c with [] => true | _ => false end then PUnlock else PTake) c) dn.
Proof.
  intros c dn t (I & J) Hp. assert (R : t < length (threads c)) by (apply in_range; congruence).
  set (new := if negb (ready c) || match queue c with [] => true | _ => false end then PUnlock else PTake).
  setup c t new.
  assert (M : mutex c = Some t) by (apply (i_mutex _ _ J); rewrite Hp; reflexivity).
  assert (H : holder c = PTest) by (unfold holder; rewrite M; exact Hp).
  assert (H' : holder c' = new) by (apply (holder_in c c' t new PC); exact M).
  assert (S1 : inside new = true /\ pend new = [] /\ blk new = [] /\ regs new = [] /\ isWrite new = 0 /\ ioBusy new = 0 /\ ioItem new = [] /\
    ioPc new = true /\ appPc new = true /\ own t new /\ forall r, new <> WaitFor r).
  { unfold new. destruct (_ || _); cbn; intuition discriminate. }
  destruct S1 as (N1 & N2 & N3 & N4 & N5 & N6 & N7 & N8 & N9 & N10 & N11).
  split.
  - frame c t new; try (rewrite Hp; cbn; intros; discriminate). rewrite Hp, N2. reflexivity.
  - pose proof (same c c' t new PC blk) as EB. rewrite Hp, N3 in EB. specialize (EB eq_refl).
    pose proof (same c c' t new PC ioItem) as EI. rewrite Hp, N7 in EI. specialize (EI eq_refl).
    pose proof (same c c' t new PC ioBusy) as EU. rewrite Hp, N6 in EU. specialize (EU eq_refl).
    assert (RG : regs (holder c') = regs (holder c)) by (rewrite H, H'; exact N4).
    constructor.
    + apply (mutex_keep c c' t new PC); [apply J|rewrite Hp, N1; reflexivity].
    + rewrite EU. pose proof (i_tok _ _ J) as K. rewrite H in K. rewrite H', N5. exact K.
    + rewrite H'. unfold new. cbn [ready queue moveTo c']. destruct (ready c), (queue c); cbn; try discriminate. split; [auto|discriminate].
    + rewrite H'. unfold new. destruct (_ || _); discriminate.
    + rewrite H'. unfold new. change (ready c') with (ready c). change (queue c') with (queue c). intros -> Q.
      change (mutex c') with (mutex c). rewrite M. split; [discriminate|]. destruct (queue c); [contradiction|]. discriminate.
    + rewrite EB, RG. apply (i_handed _ _ J).
    + intros u x r E. rewrite PC in E. destruct (Nat.eqb_spec u t) as [_|_].
      * unfold new in E. destruct (_ || _); discriminate.
      * rewrite RG. apply (i_block _ _ J _ _ _ E).
    + rewrite RG, EI. apply (i_items _ _ J).
    + rewrite EB. apply (i_rest _ _ J).
    + rewrite EB. apply (i_wire _ _ J).
    + rewrite EI. apply (i_done _ _ J).
Qed.

Ltac sames c t new Hp :=
  match goal with PC : forall t', pcOf ?c' t' = _ |- _ =>
    assert (EB : forall t', blk (pcOf c' t') = blk (pcOf c t')) by (apply (same c c' t new PC blk); rewrite Hp; reflexivity);
    assert (EI : forall t', ioItem (pcOf c' t') = ioItem (pcOf c t')) by (apply (same c c' t new PC ioItem); rewrite Hp; reflexivity)
  end.
Ltac busy c t new Hp :=
  match goal with PC : forall t', pcOf ?c' t' = _ |- _ =>
    assert (EU : forall t', ioBusy (pcOf c' t') = ioBusy (pcOf c t')) by (apply (same c c' t new PC ioBusy); rewrite Hp; reflexivity)
  end.

Lemma step_PTake : forall c dn t x l, inv c dn -> pcOf c t = PTake -> queue c = x :: l ->
  inv (moveTo t (PClear x) (setQueue l c)) dn.
Proof.
  intros c dn t x l (I & J) Hp Hq. assert (R : t < length (threads c)) by (apply in_range; congruence).
  setup c t (PClear x).
  assert (M : mutex c = Some t) by (apply (i_mutex _ _ J); rewrite Hp; reflexivity).
  assert (H : holder c = PTake) by (unfold holder; rewrite M; exact Hp).
  assert (H' : holder c' = PClear x) by (apply (holder_in c c' t (PClear x) PC); exact M).
  destruct (i_take _ _ J H) as (Re & _).
  sames c t (PClear x) Hp. busy c t (PClear x) Hp.
  split; [frame c t (PClear x); try (rewrite Hp; cbn; auto; intros; discriminate); intros _; cbn; auto|]. constructor.
  - apply (mutex_keep c c' t (PClear x) PC); [apply J|rewrite Hp; reflexivity].
  - rewrite EU. pose proof (i_tok _ _ J) as K. rewrite H in K. rewrite H'. exact K.
  - rewrite H'. discriminate.
  - intros y _. exact Re.
  - rewrite H'. intros _ _. change (mutex c') with (mutex c). rewrite M. split; discriminate.
  - rewrite EB, H'. pose proof (i_handed _ _ J) as K. rewrite H, Hq in K. exact K.
  - intros u y r E. rewrite PC in E. destruct (Nat.eqb_spec u t) as [_|_]; [discriminate|].
    destruct (i_block _ _ J _ _ _ E) as (_ & _ & _ & K). congruence.
  - rewrite EI, H'. pose proof (i_items _ _ J) as K. rewrite H, Hq in K. exact K.
  - rewrite EB. apply (i_rest _ _ J).
  - rewrite EB. apply (i_wire _ _ J).
  - rewrite EI. apply (i_done _ _ J).
Qed.

Lemma step_PClear : forall c dn t x, inv c dn -> pcOf c t = PClear x ->
  inv (moveTo t (PWrite x) (setReady false c)) dn.
Proof.
  intros c dn t x (I & J) Hp. assert (R : t < length (threads c)) by (apply in_range; congruence).
  setup c t (PWrite x).
  assert (M : mutex c = Some t) by (apply (i_mutex _ _ J); rewrite Hp; reflexivity).
  assert (H : holder c = PClear x) by (unfold holder; rewrite M; exact Hp).
  assert (H' : holder c' = PWrite x) by (apply (holder_in c c' t (PWrite x) PC); exact M).
  pose proof (i_clear _ _ J x H) as Re.
  sames c t (PWrite x) Hp. busy c t (PWrite x) Hp.
  assert (RG : regs (holder c') = regs (holder c)) by (rewrite H, H'; reflexivity).
  split; [frame c t (PWrite x); try (rewrite Hp; cbn; auto; intros; discriminate); intros _; cbn; auto|]. constructor.
  - apply (mutex_keep c c' t (PWrite x) PC); [apply J|rewrite Hp; reflexivity].
  - rewrite EU. pose proof (i_tok _ _ J) as K. rewrite H, Re in K. rewrite H'. cbn [isWrite] in *. cbn [writes handlers ready c' moveTo setReady]. lia.
  - rewrite H'. discriminate.
  - rewrite H'. discriminate.
  - cbn. discriminate.
  - rewrite EB, RG. apply (i_handed _ _ J).
  - intros u y r E. rewrite PC in E. destruct (Nat.eqb_spec u t) as [_|_]; [discriminate|]. rewrite RG. apply (i_block _ _ J _ _ _ E).
  - rewrite EI, RG. apply (i_items _ _ J).
  - rewrite EB. apply (i_rest _ _ J).
  - rewrite EB. apply (i_wire _ _ J).
  - rewrite EI. apply (i_done _ _ J).
Qed.

Lemma step_PWrite : forall c dn t x, inv c dn -> pcOf c t = PWrite x ->
  inv (moveTo t PUnlock (setWrites (writes c ++ [(x, dataOf x)]) c)) dn.
Proof.
  intros c dn t x (I & J) Hp. assert (R : t < length (threads c)) by (apply in_range; congruence).
  setup c t PUnlock.
  assert (M : mutex c = Some t) by (apply (i_mutex _ _ J); rewrite Hp; reflexivity).
  assert (H : holder c = PWrite x) by (unfold holder; rewrite M; exact Hp).
  assert (H' : holder c' = PUnlock) by (apply (holder_in c c' t PUnlock PC); exact M).
  pose proof (i_tok _ _ J) as K. rewrite H in K. cbn [isWrite] in K.
  assert (Re : ready c = false) by (destruct (ready c); [lia|reflexivity]). rewrite Re in K.
  sames c t PUnlock Hp. busy c t PUnlock Hp.
  split; [frame c t PUnlock; try (rewrite Hp; cbn; auto; intros; discriminate); intros _; cbn; auto|]. constructor.
  - apply (mutex_keep c c' t PUnlock PC); [apply J|rewrite Hp; reflexivity].
  - rewrite EU, H'. cbn [writes handlers ready c' moveTo setWrites isWrite]. rewrite Re, app_length. cbn [length]. lia.
  - rewrite H'. discriminate.
  - rewrite H'. discriminate.
  - change (ready c') with (ready c). rewrite Re. discriminate.
  - rewrite EB, H'. pose proof (i_handed _ _ J) as Q. rewrite H in Q. cbn [writes handed queue c' moveTo setWrites regs] in *.
    rewrite Q, map_app. cbn [map fst app]. rewrite <- !app_assoc. reflexivity.
  - intros u y r E. rewrite PC in E. destruct (Nat.eqb_spec u t) as [_|_]; [discriminate|].
    destruct (i_block _ _ J _ _ _ E) as (_ & _ & Q & _). rewrite H in Q. discriminate.
  - rewrite EI, H'. pose proof (i_items _ _ J) as Q. rewrite H in Q. cbn [writes queue handlers c' moveTo setWrites regs] in *.
    rewrite map_app. cbn [map fst app] in *. rewrite <- app_assoc. exact Q.
  - rewrite EB. cbn [writes c' moveTo setWrites]. intros y r. rewrite app_assoc, in_app_iff. intros [E|[E|[]]]; [apply (i_rest _ _ J _ _ E)|].
    injection E as <- <-. exists []. reflexivity.
  - intros s. rewrite EB. cbn [writes wire c' moveTo setWrites]. set (B := blk (pcOf c 1)).
    rewrite (app_assoc B), rems_app, map_app, (app_assoc (wire c s)), (app_assoc dn), bytes_app.
    pose proof (i_wire _ _ J s) as Q. fold B in Q. rewrite <- Q. reflexivity.
  - rewrite EI. apply (i_done _ _ J).
Qed.

Lemma step_PUnlock : forall c dn t, inv c dn -> pcOf c t = PUnlock -> inv (moveTo t Idle (setMutex None c)) dn.
Proof.
  intros c dn t (I & J) Hp. assert (R : t < length (threads c)) by (apply in_range; congruence).
  setup c t Idle.
  assert (M : mutex c = Some t) by (apply (i_mutex _ _ J); rewrite Hp; reflexivity).
  assert (H : holder c = PUnlock) by (unfold holder; rewrite M; exact Hp).
  assert (H' : holder c' = Idle) by reflexivity.
  assert (RG : regs (holder c') = regs (holder c)) by (rewrite H, H'; reflexivity).
  sames c t Idle Hp. busy c t Idle Hp.
  split; [frame c t Idle; try (rewrite Hp; cbn; auto; intros; discriminate); intros _; cbn; auto|]. constructor.
  - apply (mutex_drop c c' t Idle PC); [|reflexivity]. pose proof (i_mutex _ _ J) as K. rewrite M in K. exact K.
  - rewrite EU. pose proof (i_tok _ _ J) as K. rewrite H in K. rewrite H'. exact K.
  - rewrite H'. discriminate.
  - rewrite H'. discriminate.
  - intros A B. destruct (i_queue _ _ J A B) as (_ & K). congruence.
  - rewrite EB, RG. apply (i_handed _ _ J).
  - intros u y r E. rewrite PC in E. destruct (Nat.eqb_spec u t) as [_|_]; [discriminate|]. rewrite RG. apply (i_block _ _ J _ _ _ E).
  - rewrite EI, RG. apply (i_items _ _ J).
  - rewrite EB. apply (i_rest _ _ J).
  - rewrite EB. apply (i_wire _ _ J).
  - rewrite EI. apply (i_done _ _ J).
Qed.

(** taking the lock, for both places *)
Lemma step_lock : forall c dn t new, inv c dn -> mutex c = None ->
  (exists x, pcOf c t = DLock x /\ new = DPush x) \/ (pcOf c t = HLock /\ new = HReady) -> inv (moveTo t new (setMutex (Some t) c)) dn.
Proof.
  intros c dn t new (I & J) M Hp.
  assert (R : t < length (threads c)) by (apply in_range; destruct Hp as [(x & E & _)|(E & _)]; congruence).
  setup c t new.
  assert (H : holder c = Idle) by (unfold holder; rewrite M; reflexivity).
  assert (H' : holder c' = new) by (apply (holder_in c c' t new PC); reflexivity).
  assert (N : inside new = true /\ regs new = [] /\ isWrite new = 0 /\ new <> PTake /\ (forall x, new <> PClear x) /\ new <> PUnlock /\ (forall x r, new <> SBlock x r))
    by (destruct Hp as [(x & E & ->)|(E & ->)]; cbn; repeat split; discriminate).
  destruct N as (N1 & N2 & N3 & N4 & N5 & N6 & N7).
  assert (RG : regs (holder c') = regs (holder c)) by (rewrite H, H'; exact N2).
  assert (EB : forall t', blk (pcOf c' t') = blk (pcOf c t')).
  { apply (same c c' t new PC blk). destruct Hp as [(x & -> & ->)|(-> & ->)]; reflexivity. }
  assert (EI : forall t', ioItem (pcOf c' t') = ioItem (pcOf c t')).
  { apply (same c c' t new PC ioItem). destruct Hp as [(x & -> & ->)|(-> & ->)]; reflexivity. }
  assert (EU : forall t', ioBusy (pcOf c' t') = ioBusy (pcOf c t')).
  { apply (same c c' t new PC ioBusy). destruct Hp as [(x & -> & ->)|(-> & ->)]; reflexivity. }
  split.
  - eapply (frameP progs c c' t new); auto.
    + destruct Hp as [(x & -> & ->)|(-> & ->)]; reflexivity.
    + left. destruct Hp as [(x & _ & ->)|(_ & ->)]; reflexivity.
    + intros r. destruct Hp as [(x & _ & ->)|(_ & ->)]; discriminate.
    + intros ->. destruct Hp as [(x & E & _)|(_ & ->)]; [|reflexivity]. pose proof (i_io _ _ I) as K. rewrite E in K. discriminate.
    + intros T0. destruct t as [|u]; [lia|]. destruct (i_app _ _ I u) as (K1 & K2).
      destruct Hp as [(x & E & ->)|(E & ->)]; rewrite E in K1, K2; [auto|discriminate].
    + apply incl_refl.
    + intros r E. destruct Hp as [(x & E' & _)|(E' & _)]; congruence.
  - constructor.
    + apply (mutex_take c c' t new PC); [|exact N1]. pose proof (i_mutex _ _ J) as K. rewrite M in K. exact K.
    + rewrite EU. pose proof (i_tok _ _ J) as K. rewrite H in K. rewrite H', N3. exact K.
    + rewrite H'. intros E. destruct (N4 E).
    + rewrite H'. intros x E. destruct (N5 x E).
    + intros _ _. rewrite H'. split; [discriminate|exact N6].
    + rewrite EB, RG. apply (i_handed _ _ J).
    + intros u y r E. rewrite PC in E. destruct (Nat.eqb_spec u t) as [_|_]; [destruct (N7 y r E)|]. rewrite RG. apply (i_block _ _ J _ _ _ E).
    + rewrite EI, RG. apply (i_items _ _ J).
    + rewrite EB. apply (i_rest _ _ J).
    + rewrite EB. apply (i_wire _ _ J).
    + rewrite EI. apply (i_done _ _ J).
Qed.

Lemma step_HReady : forall c dn t, inv c dn -> pcOf c t = HReady -> inv (moveTo t PTest (setReady true c)) dn.
Proof.
  intros c dn t (I & J) Hp. assert (R : t < length (threads c)) by (apply in_range; congruence).
  assert (T0 : t = 0) by (apply (io_of c); [exact I|rewrite Hp; reflexivity]). subst t.
  setup c 0 PTest.
  assert (M : mutex c = Some 0) by (apply (i_mutex _ _ J); rewrite Hp; reflexivity).
  assert (H : holder c = HReady) by (unfold holder; rewrite M; exact Hp).
  assert (H' : holder c' = PTest) by (apply (holder_in c c' 0 PTest PC); exact M).
  assert (RG : regs (holder c') = regs (holder c)) by (rewrite H, H'; reflexivity).
  pose proof (i_tok _ _ J) as K. rewrite H, Hp in K. cbn [ioBusy isWrite] in K.
  assert (Re : ready c = false) by (destruct (ready c); [lia|reflexivity]). rewrite Re in K.
  sames c 0 PTest Hp.
  split; [frame c 0 PTest; try (rewrite Hp; cbn; auto; intros; discriminate); intros Z; destruct (Z eq_refl)|]. constructor.
  - apply (mutex_keep c c' 0 PTest PC); [apply J|rewrite Hp; reflexivity].
  - rewrite PC, H'. cbn [Nat.eqb ioBusy isWrite writes handlers ready c' moveTo setReady]. lia.
  - rewrite H'. discriminate.
  - rewrite H'. discriminate.
  - intros _ _. change (mutex c') with (mutex c). rewrite M, H'. split; discriminate.
  - rewrite EB, RG. apply (i_handed _ _ J).
  - intros u y r E. rewrite PC in E. destruct (Nat.eqb_spec u 0) as [_|_]; [discriminate|]. rewrite RG. apply (i_block _ _ J _ _ _ E).
  - rewrite EI, RG. apply (i_items _ _ J).
  - rewrite EB. apply (i_rest _ _ J).
  - rewrite EB. apply (i_wire _ _ J).
  - rewrite EI. apply (i_done _ _ J).
Qed.

Lemma step_HComplete : forall c dn t x, inv c dn -> pcOf c t = HComplete x ->
  inv (moveTo t HLock (setCompleted (completed c ++ match requestOf x with Some r => [r] | None => [] end) c)) dn.
Proof.
  intros c dn t x (I & J) Hp. assert (R : t < length (threads c)) by (apply in_range; congruence).
  assert (T0 : t = 0) by (apply (io_of c); [exact I|rewrite Hp; reflexivity]). subst t.
  setup c 0 HLock.
  assert (H : holder c' = holder c) by (apply (holder_out c c' 0 HLock PC); [apply J|rewrite Hp; reflexivity|reflexivity]).
  assert (EB : forall t', blk (pcOf c' t') = blk (pcOf c t')) by (apply (same c c' 0 HLock PC blk); rewrite Hp; reflexivity).
  busy c 0 HLock Hp.
  split.
  - frame c 0 HLock; try (rewrite Hp; cbn; auto; intros; discriminate); try (intros Z; destruct (Z eq_refl)).
    cbn [completed c' moveTo setCompleted]. apply incl_appl, incl_refl.
  - constructor.
    + apply (mutex_keep c c' 0 HLock PC); [apply J|rewrite Hp; reflexivity].
    + rewrite EU, H. apply (i_tok _ _ J).
    + rewrite H. apply (i_take _ _ J).
    + rewrite H. apply (i_clear _ _ J).
    + rewrite H. apply (i_queue _ _ J).
    + rewrite EB, H. apply (i_handed _ _ J).
    + intros u y r E. rewrite PC in E. destruct (Nat.eqb_spec u 0) as [_|_]; [discriminate|]. rewrite H. apply (i_block _ _ J _ _ _ E).
    + rewrite PC, H. cbn [Nat.eqb ioItem]. pose proof (i_items _ _ J) as K. rewrite Hp in K.
      rewrite !Forall_app in K |- *. destruct K as (K1 & K2 & K3 & K4 & _).
      split; [exact K1|]. split; [exact K2|]. split; [exact K3|]. split; [exact K4|constructor].
    + rewrite EB. apply (i_rest _ _ J).
    + rewrite EB. apply (i_wire _ _ J).
    + rewrite PC. cbn [Nat.eqb ioItem completed handlers c' moveTo setCompleted app]. pose proof (i_done _ _ J) as K. rewrite Hp in K.
      cbn [ioItem] in K. rewrite K, requests_app, app_assoc. cbn. rewrite app_nil_r. reflexivity.
Qed.

(** asynchronous sends *)
Lemma step_DPush : forall c dn t x, inv c dn -> pcOf c t = DPush x ->
  inv (moveTo t PTest (setHanded (handed c ++ [x]) (setQueue (queue c ++ [x]) c))) dn.
Proof.
  intros c dn t x (I & J) Hp. assert (R : t < length (threads c)) by (apply in_range; congruence).
  destruct (app_of c t I) as (u & ->); [rewrite Hp; reflexivity|].
  destruct (i_app _ _ I u) as (_ & O). rewrite Hp in O. destruct O as (O1 & O2).
  setup c (S u) PTest.
  assert (M : mutex c = Some (S u)) by (apply (i_mutex _ _ J); rewrite Hp; reflexivity).
  assert (H : holder c = DPush x) by (unfold holder; rewrite M; exact Hp).
  assert (H' : holder c' = PTest) by (apply (holder_in c c' (S u) PTest PC); exact M).
  assert (RG : regs (holder c') = regs (holder c)) by (rewrite H, H'; reflexivity).
  sames c (S u) PTest Hp. busy c (S u) PTest Hp.
  rewrite (i_len _ _ I) in R.
  (* the messages of each thread together with the one it is about to hand over *)
  assert (FP : forall v, from (S v) (handed c') ++ pend (pcOf c' (S v)) = from (S v) (handed c) ++ pend (pcOf c (S v))).
  { intros v. cbn [handed c' moveTo setHanded]. rewrite PC, from_app, from_one, O1. destruct (Nat.eqb_spec (S v) (S u)) as [E|N].
    - rewrite E, Nat.eqb_refl, Hp. cbn [pend]. rewrite app_nil_r. reflexivity.
    - destruct (Nat.eqb_spec (S u) (S v)) as [E|_]; [congruence|]. rewrite app_nil_r. reflexivity. }
  assert (FM : forall v id, In id (ids (from v (handed c))) -> In id (ids (from v (handed c')))).
  { intros v id K. cbn [handed c' moveTo setHanded]. rewrite from_app, ids_app. apply in_or_app. auto. }
  split.
  - constructor.
    + rewrite LE. apply I.
    + rewrite PC. apply I.
    + intros v. rewrite PC. destruct (S v =? S u); [cbn; auto|apply I].
    + intros v p E. rewrite app_assoc, FP, TD, <- app_assoc. apply (i_prog _ _ I), E.
    + cbn [handed c' moveTo setHanded]. intros y Hy. apply in_app_or in Hy as [Hy|[<-|[]]]; [apply (i_from _ _ I y Hy)|]. lia.
    + intros v id E. rewrite PC in E. destruct (Nat.eqb_spec v (S u)); [discriminate|]. apply FM, (i_wait _ _ I), E.
    + intros v L. rewrite FP, TD. apply (i_seen _ _ I), L.
    + destruct (i_disc _ _ I) as [D|(L & op & W & D)].
      * left. intros v. rewrite TD, EB. apply D.
      * right. split; [exact L|]. exists op. split; [rewrite TD; exact W|]. intros id. rewrite FP. intros K.
        destruct (D id K) as [A|[A|A]]; auto. rewrite PC. destruct (Nat.eqb_spec 1 (S u)) as [E|_]; auto.
        rewrite <- E, A in Hp. discriminate.
    + apply I.
  - constructor.
    + apply (mutex_keep c c' (S u) PTest PC); [apply J|rewrite Hp; reflexivity].
    + rewrite EU, H'. pose proof (i_tok _ _ J) as K. rewrite H in K. exact K.
    + rewrite H'. discriminate.
    + rewrite H'. discriminate.
    + intros _ _. change (mutex c') with (mutex c). rewrite M, H'. split; discriminate.
    + rewrite EB, RG. cbn [handed queue writes c' moveTo setHanded setQueue]. rewrite (i_handed _ _ J), <- !app_assoc. reflexivity.
    + intros v y r E. rewrite PC in E. destruct (Nat.eqb_spec v (S u)) as [_|N]; [discriminate|]. exfalso.
      destruct (i_block _ _ J _ _ _ E) as (-> & _). destruct (i_disc _ _ I) as [D|(L & _)].
      * destruct (D 0) as (_ & B). rewrite E in B. discriminate.
      * lia.
    + rewrite EI, RG. cbn [handed queue writes handlers c' moveTo setHanded setQueue]. pose proof (i_items _ _ J) as K.
      rewrite !Forall_app in K |- *. destruct K as (K1 & K2 & K3 & K4).
      split; [exact K1|]. split; [exact K2|]. split; [|apply Forall_app; exact K4].
      split; [exact K3|constructor; [exact O2|constructor]].
    + rewrite EB. apply (i_rest _ _ J).
    + rewrite EB. apply (i_wire _ _ J).
    + rewrite EI. apply (i_done _ _ J).
Qed.

(** waiting *)
Lemma step_WaitFor : forall c dn t r, inv c dn -> pcOf c t = WaitFor r -> existsb (reqEqb r) (completed c) = true -> inv (moveTo t Idle c) dn.
Proof.
  intros c dn t r (I & J) Hp X. assert (R : t < length (threads c)) by (apply in_range; congruence).
  assert (C : In r (completed c)).
  { apply existsb_exists in X as ((a & b) & X1 & X2). unfold reqEqb in X2. cbn [fst snd] in X2. apply andb_true_iff in X2 as (X2 & X3).
    apply Nat.eqb_eq in X2, X3. destruct r as (r1, r2). cbn [fst snd] in *. subst. exact X1. }
  setup c t Idle.
  assert (H : holder c' = holder c) by (apply (holder_out c c' t Idle PC); [apply J|rewrite Hp; reflexivity|reflexivity]).
  sames c t Idle Hp. busy c t Idle Hp.
  split; [frame c t Idle; try (rewrite Hp; cbn; auto; intros; discriminate); try (intros Z; cbn; auto)|].
  - intros E. rewrite Hp in E. injection E as <-. exact C.
  - constructor.
    + apply (mutex_keep c c' t Idle PC); [apply J|rewrite Hp; reflexivity].
    + rewrite EU, H. apply (i_tok _ _ J).
    + rewrite H. apply (i_take _ _ J).
    + rewrite H. apply (i_clear _ _ J).
    + rewrite H. apply (i_queue _ _ J).
    + rewrite EB, H. apply (i_handed _ _ J).
    + intros u y q E. rewrite PC in E. destruct (Nat.eqb_spec u t) as [_|_]; [discriminate|]. rewrite H. apply (i_block _ _ J _ _ _ E).
    + rewrite EI, H. apply (i_items _ _ J).
    + rewrite EB. apply (i_rest _ _ J).
    + rewrite EB. apply (i_wire _ _ J).
    + rewrite EI. apply (i_done _ _ J).
Qed.

(** blocking sends *)
Lemma put_nil : forall s k d w, put k d w s = if s =? k then w s ++ d else w s.
Proof. reflexivity. Qed.
Lemma step_SBlock : forall c dn t x rest k, inv c dn -> pcOf c t = SBlock x rest ->
  inv (moveTo t (SBlock x (skipn k rest)) (setWire (put (sockOf x) (firstn k rest) (wire c)) c)) dn.
Proof.
  intros c dn t x rest k (I & J) Hp. assert (R : t < length (threads c)) by (apply in_range; congruence).
  destruct (i_block _ _ J _ _ _ Hp) as (-> & W0 & R0 & Q0).
  destruct (i_app _ _ I 0) as (_ & O). rewrite Hp in O.
  setup c 1 (SBlock x (skipn k rest)).
  assert (H : holder c' = holder c) by (apply (holder_out c c' 1 (SBlock x (skipn k rest)) PC); [apply J|rewrite Hp; reflexivity|reflexivity]).
  busy c 1 (SBlock x (skipn k rest)) Hp.
  assert (EI : forall t', ioItem (pcOf c' t') = ioItem (pcOf c t')) by (apply (same c c' 1 (SBlock x (skipn k rest)) PC ioItem); rewrite Hp; reflexivity).
  assert (B' : blk (pcOf c' 1) = [(x, skipn k rest)]) by (rewrite PC; reflexivity).
  split.
  - frame c 1 (SBlock x (skipn k rest)); try (rewrite Hp; cbn; auto; intros; discriminate). right. rewrite Hp. discriminate.
  - constructor.
    + apply (mutex_keep c c' 1 (SBlock x (skipn k rest)) PC); [apply J|rewrite Hp; reflexivity].
    + rewrite EU, H. apply (i_tok _ _ J).
    + rewrite H. apply (i_take _ _ J).
    + rewrite H. apply (i_clear _ _ J).
    + rewrite H. apply (i_queue _ _ J).
    + rewrite B', H. pose proof (i_handed _ _ J) as K. rewrite Hp in K. exact K.
    + intros u y q E. rewrite PC in E. destruct (Nat.eqb_spec u 1) as [->|_]; rewrite H; [auto|apply (i_block _ _ J _ _ _ E)].
    + rewrite EI, H. apply (i_items _ _ J).
    + rewrite B'. cbn [writes c' moveTo setWire]. rewrite W0. intros y q [E|[]]. injection E as <- <-.
      destruct (i_rest _ _ J x rest) as (pre & E); [rewrite Hp; left; reflexivity|]. exists (pre ++ firstn k rest).
      rewrite E, <- app_assoc, firstn_skipn. reflexivity.
    + intros s. rewrite B'. cbn [writes wire c' moveTo setWire]. pose proof (i_wire _ _ J s) as K. rewrite Hp in K. rewrite W0 in *.
      cbn in K |- *. rewrite <- K. unfold put. rewrite (Nat.eqb_sym s). destruct (sockOf x =? s); auto.
      rewrite !app_nil_r, <- app_assoc, firstn_skipn. reflexivity.
    + rewrite EI. apply (i_done _ _ J).
Qed.
Lemma step_SBlock_end : forall c dn t x, inv c dn -> pcOf c t = SBlock x [] -> inv (moveTo t Idle c) (dn ++ [x]).
Proof.
  intros c dn t x (I & J) Hp. assert (R : t < length (threads c)) by (apply in_range; congruence).
  destruct (i_block _ _ J _ _ _ Hp) as (-> & W0 & R0 & Q0).
  destruct (i_app _ _ I 0) as (_ & O). rewrite Hp in O. destruct O as (_ & O).
  setup c 1 Idle.
  assert (H : holder c' = holder c) by (apply (holder_out c c' 1 Idle PC); [apply J|rewrite Hp; reflexivity|reflexivity]).
  busy c 1 Idle Hp.
  assert (EI : forall t', ioItem (pcOf c' t') = ioItem (pcOf c t')) by (apply (same c c' 1 Idle PC ioItem); rewrite Hp; reflexivity).
  assert (B' : blk (pcOf c' 1) = []) by (rewrite PC; reflexivity).
  split.
  - frame c 1 Idle; try (rewrite Hp; cbn; auto; intros; discriminate). intros _. cbn. auto.
  - constructor.
    + apply (mutex_keep c c' 1 Idle PC); [apply J|rewrite Hp; reflexivity].
    + rewrite EU, H. apply (i_tok _ _ J).
    + rewrite H. apply (i_take _ _ J).
    + rewrite H. apply (i_clear _ _ J).
    + rewrite H. apply (i_queue _ _ J).
    + rewrite B', H. pose proof (i_handed _ _ J) as K. rewrite Hp in K. cbn [blk map fst app] in *. rewrite <- app_assoc. exact K.
    + intros u y q E. rewrite PC in E. destruct (Nat.eqb_spec u 1) as [->|_]; rewrite H; [discriminate|apply (i_block _ _ J _ _ _ E)].
    + rewrite EI, H. apply (i_items _ _ J).
    + rewrite B'. cbn [writes c' moveTo]. rewrite W0. intros y q [].
    + intros s. rewrite B'. cbn [writes wire c' moveTo]. pose proof (i_wire _ _ J s) as K. rewrite Hp in K. rewrite W0 in *.
      cbn in K |- *. rewrite !app_nil_r. rewrite <- K. destruct (sockOf x =? s); cbn; rewrite ?app_nil_r; reflexivity.
    + rewrite EI, requests_app. cbn. rewrite O, app_nil_r. apply (i_done _ _ J).
Qed.

(** the next call of a thread *)
Definition popped (t : nat) (th : thread) (l : list call) (c : st) : st :=
  setThreads (upd t {| at_ := at_ th; todo := l |} (threads c)) c.
Lemma popped_pc : forall t th l c t', nth_error (threads c) t = Some th -> pcOf (popped t th l c) t' = pcOf c t'.
Proof.
  intros t th l c t' E. unfold pcOf, popped. cbn [threads setThreads].
  destruct (Nat.eq_dec t t') as [<-|N]; [|rewrite nth_upd_ne by auto; reflexivity].
  rewrite nth_upd_eq by (apply nth_error_Some; congruence). rewrite E. reflexivity.
Qed.
Lemma popped_todo : forall t th l c t', nth_error (threads c) t = Some th -> todoOf (popped t th l c) t' = if t' =? t then l else todoOf c t'.
Proof.
  intros t th l c t' E. unfold todoOf, popped. cbn [threads setThreads]. destruct (Nat.eqb_spec t' t) as [->|N].
  - rewrite nth_upd_eq by (apply nth_error_Some; congruence). reflexivity.
  - rewrite nth_upd_ne by auto. reflexivity.
Qed.

Ltac setup2 c t new l th E :=
  match goal with |- P_Socket.inv _ ?C _ =>
    let c' := fresh "c'" in
    set (c' := C);
    assert (PC : forall t', pcOf c' t' = if t' =? t then new else pcOf c t')
      by (intros t'; unfold c'; rewrite pc_moveTo by (unfold popped; cbn [threads setThreads setHanded]; rewrite upd_length; assumption); destruct (t' =? t); [reflexivity|];
          exact (popped_pc t th l c t' E));
    assert (TD : forall t', todoOf c' t' = if t' =? t then l else todoOf c t')
      by (intros t'; unfold c'; rewrite todo_moveTo; exact (popped_todo t th l c t' E));
    assert (LE : length (threads c') = length (threads c)) by (unfold c'; rewrite len_moveTo; unfold popped; cbn [threads setThreads setHanded]; apply upd_length)
  end.

Lemma fetch_ASend : forall c dn u th l id s d, inv c dn -> nth_error (threads c) (S u) = Some th -> at_ th = Idle ->
  todo th = ASend id s d :: l -> inv (moveTo (S u) (DLock (S u, ASend id s d)) (popped (S u) th l c)) dn.
Proof.
  intros c dn u th l id s d (I & J) E A T. assert (R : S u < length (threads c)) by (apply nth_error_Some; congruence).
  assert (Hp : pcOf c (S u) = Idle) by (unfold pcOf; rewrite E; exact A).
  assert (Ht : todoOf c (S u) = ASend id s d :: l) by (unfold todoOf; rewrite E; exact T).
  set (k := ASend id s d). setup2 c (S u) (DLock (S u, k)) l th E.
  assert (H : holder c' = holder c) by (apply (holder_out c c' (S u) (DLock (S u, k)) PC); [apply J|rewrite Hp; reflexivity|reflexivity]).
  sames c (S u) (DLock (S u, k)) Hp. busy c (S u) (DLock (S u, k)) Hp.
  rewrite (i_len _ _ I) in R.
  split.
  - constructor.
    + rewrite LE. apply I.
    + rewrite PC. apply I.
    + intros v. rewrite PC. destruct (Nat.eqb_spec (S v) (S u)) as [->|_]; [cbn; auto|apply I].
    + intros v p Ep. pose proof (i_prog _ _ I v p Ep) as K. rewrite PC, TD. destruct (Nat.eqb_spec (S v) (S u)) as [Q|_]; [|exact K].
      rewrite Q, Hp, Ht in K. rewrite Q. exact K.
    + apply (i_from _ _ I).
    + intros v i X. rewrite PC in X. destruct (Nat.eqb_spec v (S u)); [discriminate|]. apply (i_wait _ _ I), X.
    + intros v L. destruct (i_seen _ _ I v L) as (seen & S1 & S2). rewrite PC, TD. destruct (Nat.eqb_spec (S v) (S u)) as [Q|_]; [|eauto].
      rewrite Q, Hp, Ht in *. cbn [pend snd proper] in *. exists (id :: seen). split; [apply S1|]. intros i.
      cbn [In]. rewrite (S2 i), !ids_app. cbn. rewrite app_nil_r, in_app_iff. cbn. tauto.
    + destruct (i_disc _ _ I) as [D|(L & op & W & D)].
      * left. intros v. rewrite EB. destruct (D v) as (D1 & D2). split; [|exact D2]. rewrite TD.
        destruct (Nat.eqb_spec (S v) (S u)) as [Q|_]; [|exact D1]. rewrite Q, Ht in D1. intros s' d' X. apply (D1 s' d'). right. exact X.
      * right. split; [exact L|]. assert (u = 0) as -> by lia. exists (id :: op). rewrite TD, PC. cbn [Nat.eqb].
        rewrite Ht in W. split; [exact W|]. intros i. rewrite ids_app. cbn [pend snd k ids flat_map app]. rewrite in_app_iff. intros [X|[X|[]]].
        -- destruct (D i) as [Y|[Y|Y]]; [|left; right; auto|auto|rewrite Hp in Y; discriminate]. rewrite ids_app. apply in_or_app. auto.
        -- left. left. exact X.
    + apply I.
  - constructor.
    + apply (mutex_keep c c' (S u) (DLock (S u, k)) PC); [apply J|rewrite Hp; reflexivity].
    + rewrite EU, H. apply (i_tok _ _ J).
    + rewrite H. apply (i_take _ _ J).
    + rewrite H. apply (i_clear _ _ J).
    + rewrite H. apply (i_queue _ _ J).
    + rewrite EB, H. apply (i_handed _ _ J).
    + intros v y q X. rewrite PC in X. destruct (Nat.eqb_spec v (S u)) as [_|_]; [discriminate|]. rewrite H. apply (i_block _ _ J _ _ _ X).
    + rewrite EI, H. apply (i_items _ _ J).
    + rewrite EB. apply (i_rest _ _ J).
    + rewrite EB. apply (i_wire _ _ J).
    + rewrite EI. apply (i_done _ _ J).
Qed.

Lemma fetch_Wait : forall c dn u th l id, inv c dn -> nth_error (threads c) (S u) = Some th -> at_ th = Idle ->
  todo th = Wait id :: l -> inv (moveTo (S u) (WaitFor (S u, id)) (popped (S u) th l c)) dn.
Proof.
  intros c dn u th l id (I & J) E A T. assert (R : S u < length (threads c)) by (apply nth_error_Some; congruence).
  assert (Hp : pcOf c (S u) = Idle) by (unfold pcOf; rewrite E; exact A).
  assert (Ht : todoOf c (S u) = Wait id :: l) by (unfold todoOf; rewrite E; exact T).
  set (n := WaitFor (S u, id)). setup2 c (S u) n l th E.
  assert (H : holder c' = holder c) by (apply (holder_out c c' (S u) n PC); [apply J|rewrite Hp; reflexivity|reflexivity]).
  sames c (S u) n Hp. busy c (S u) n Hp.
  assert (EP : forall t', pend (pcOf c' t') = pend (pcOf c t')) by (apply (same c c' (S u) n PC pend); rewrite Hp; reflexivity).
  rewrite (i_len _ _ I) in R.
  split.
  - constructor.
    + rewrite LE. apply I.
    + rewrite PC. apply I.
    + intros v. rewrite PC. destruct (Nat.eqb_spec (S v) (S u)) as [->|_]; [cbn; auto|apply I].
    + intros v p Ep. pose proof (i_prog _ _ I v p Ep) as K. rewrite EP, TD. destruct (Nat.eqb_spec (S v) (S u)) as [Q|_]; [|exact K].
      rewrite Q, Ht in K. rewrite Q. exact K.
    + apply (i_from _ _ I).
    + intros v i X. rewrite PC in X. destruct (Nat.eqb_spec v (S u)) as [->|_]; [|apply (i_wait _ _ I), X].
      injection X as <-. destruct (i_seen _ _ I u) as (seen & S1 & S2); [lia|]. rewrite Ht, Hp in *. destruct S1 as (S1 & _).
      apply S2 in S1. cbn [pend] in S1. rewrite app_nil_r in S1. exact S1.
    + intros v L. destruct (i_seen _ _ I v L) as (seen & S1 & S2). rewrite EP, TD. destruct (Nat.eqb_spec (S v) (S u)) as [Q|_]; [|eauto].
      rewrite Q, Ht in *. exists seen. split; [apply S1|exact S2].
    + destruct (i_disc _ _ I) as [D|(L & op & W & D)].
      * left. intros v. rewrite EB. destruct (D v) as (D1 & D2). split; [|exact D2]. rewrite TD.
        destruct (Nat.eqb_spec (S v) (S u)) as [Q|_]; [|exact D1]. rewrite Q, Ht in D1. intros s' d' X. apply (D1 s' d'). right. exact X.
      * right. split; [exact L|]. assert (u = 0) as -> by lia. exists (filter (fun i => negb (i =? id)) op). rewrite TD, EP, PC. cbn [Nat.eqb].
        rewrite Ht in W. split; [exact W|]. intros i X. destruct (D i X) as [Y|[Y|Y]]; [|auto|rewrite Hp in Y; discriminate].
        destruct (Nat.eqb_spec i id) as [->|N]; [right; right; reflexivity|]. left. apply filter_In. split; [exact Y|].
        destruct (Nat.eqb_spec i id); [contradiction|reflexivity].
    + apply I.
  - constructor.
    + apply (mutex_keep c c' (S u) n PC); [apply J|rewrite Hp; reflexivity].
    + rewrite EU, H. apply (i_tok _ _ J).
    + rewrite H. apply (i_take _ _ J).
    + rewrite H. apply (i_clear _ _ J).
    + rewrite H. apply (i_queue _ _ J).
    + rewrite EB, H. apply (i_handed _ _ J).
    + intros v y q X. rewrite PC in X. destruct (Nat.eqb_spec v (S u)) as [_|_]; [discriminate|]. rewrite H. apply (i_block _ _ J _ _ _ X).
    + rewrite EI, H. apply (i_items _ _ J).
    + rewrite EB. apply (i_rest _ _ J).
    + rewrite EB. apply (i_wire _ _ J).
    + rewrite EI. apply (i_done _ _ J).
Qed.

(** all requests of the messages that were handed over are complete *)
Lemma nothing_open : forall c dn, inv c dn -> (forall t id, In (t, id) (requests (handed c)) -> In (t, id) (completed c)) ->
  writes c = [] /\ regs (holder c) = [] /\ queue c = [].
Proof.
  intros c dn (I & J) Al. pose proof (handed_nodup progs Disc c I) as ND.
  pose proof (i_handed _ _ J) as Ha. pose proof (i_items _ _ J) as It.
  assert (K : forall x, In x (map fst (writes c) ++ regs (holder c) ++ queue c) -> False).
  { intros x Hx.
    assert (Ax : isA x).
    { rewrite Forall_forall in It. apply It. rewrite !in_app_iff in *. tauto. }
    destruct x as (t, k). unfold isA in Ax. cbn [snd] in Ax. destruct k as [id s d| | |]; try contradiction.
    assert (R1 : In (t, id) (requests (map fst (writes c) ++ regs (holder c) ++ queue c))).
    { apply in_requests. exists (t, ASend id s d). split; [exact Hx|reflexivity]. }
    assert (R2 : In (t, id) (completed c)).
    { apply Al. rewrite Ha, (app_assoc dn), requests_app. apply in_or_app. right. exact R1. }
    assert (R3 : In (t, id) (requests dn)) by (rewrite (i_done _ _ J); apply in_or_app; auto).
    rewrite Ha, requests_app in ND. apply (nodup_disj _ _ _ ND R3). rewrite requests_app. apply in_or_app. auto. }
  assert (N : forall {A} (l : list A), (forall x, In x l -> False) -> l = []).
  { intros B [|y l] F; auto. destruct (F y). left. auto. }
  assert (W : map fst (writes c) = []) by (apply N; intros x Hx; apply (K x), in_or_app; auto).
  split; [destruct (writes c); [reflexivity|discriminate]|].
  split; apply N; intros x Hx; apply (K x); rewrite !in_app_iff; auto.
Qed.

Lemma fetch_Send : forall c dn u th l s d, inv c dn -> nth_error (threads c) (S u) = Some th -> at_ th = Idle ->
  todo th = Send s d :: l ->
  inv (moveTo (S u) (SBlock (S u, Send s d) d) (setHanded (handed c ++ [(S u, Send s d)]) (popped (S u) th l c))) dn.
Proof.
  intros c dn u th l s d IJ E A T. pose proof IJ as (I & J). assert (R : S u < length (threads c)) by (apply nth_error_Some; congruence).
  assert (Hp : pcOf c (S u) = Idle) by (unfold pcOf; rewrite E; exact A).
  assert (Ht : todoOf c (S u) = Send s d :: l) by (unfold todoOf; rewrite E; exact T).
  destruct (i_disc _ _ I) as [D|(L & op & W & D)].
  { exfalso. destruct (D u) as (D1 & _). rewrite Ht in D1. apply (D1 s d). left. auto. }
  pose proof R as R'. rewrite (i_len _ _ I) in R'. assert (u = 0) as -> by lia.
  rewrite Ht in W. destruct W as (-> & W).
  assert (AL : forall t id, In (t, id) (requests (handed c)) -> In (t, id) (completed c)).
  { intros t id X. pose proof X as X'. apply in_requests in X' as (x & X1 & X2). pose proof (i_from _ _ I x X1) as X3.
    assert (t = 1) as ->. { unfold requestOf in X2. destruct (snd x); try discriminate. injection X2 as <- <-. lia. }
    destruct (D id) as [[]|[Y|Y]]; [|exact Y|rewrite Hp in Y; discriminate].
    rewrite ids_app. apply in_or_app. left. apply in_ids_from. exact X. }
  destruct (nothing_open c dn IJ AL) as (W0 & R0 & Q0).
  set (x := (1, Send s d)). setup2 c 1 (SBlock x d) l th E.
  assert (H : holder c' = holder c) by (apply (holder_out c c' 1 (SBlock x d) PC); [apply J|rewrite Hp; reflexivity|reflexivity]).
  busy c 1 (SBlock x d) Hp.
  assert (EI : forall t', ioItem (pcOf c' t') = ioItem (pcOf c t')) by (apply (same c c' 1 (SBlock x d) PC ioItem); rewrite Hp; reflexivity).
  assert (B' : blk (pcOf c' 1) = [(x, d)]) by (rewrite PC; reflexivity).
  assert (HA : handed c' = handed c ++ [x]) by reflexivity.
  assert (ID : ids (from 1 (handed c')) = ids (from 1 (handed c))).
  { rewrite HA, from_app, ids_app. cbn. rewrite app_nil_r. reflexivity. }
  split.
  - constructor.
    + rewrite LE. apply I.
    + rewrite PC. apply I.
    + intros v. rewrite PC. destruct (Nat.eqb_spec (S v) 1) as [->|_]; [cbn; auto|apply I].
    + intros v p Ep. pose proof (i_prog _ _ I v p Ep) as K. assert (v = 0) as -> by (assert (v < length progs) by (apply nth_error_Some; congruence); lia).
      rewrite Hp, Ht in K. rewrite HA, PC, TD, from_app. cbn [Nat.eqb pend from_one]. rewrite from_one. cbn [x fst snd Nat.eqb app].
      rewrite <- app_assoc. exact K.
    + rewrite HA. intros y Y. apply in_app_or in Y as [Y|[<-|[]]]; [apply (i_from _ _ I y Y)|]. cbn. lia.
    + intros v i X. rewrite PC in X. destruct (Nat.eqb_spec v 1) as [_|_]; [discriminate|]. rewrite HA, from_app, ids_app. apply in_or_app. left. apply (i_wait _ _ I), X.
    + intros v Lv. assert (v = 0) as -> by lia. destruct (i_seen _ _ I 0 Lv) as (seen & S1 & S2). rewrite PC, TD. cbn [Nat.eqb pend].
      rewrite Ht, Hp in *. exists seen. split; [exact S1|]. intros i. rewrite S2, !ids_app, ID. reflexivity.
    + right. split; [exact L|]. exists []. rewrite TD, PC. cbn [Nat.eqb pend]. split; [exact W|]. intros i. rewrite app_nil_r, ID. intros X.
      right. left. apply AL, in_ids_from, X.
    + apply I.
  - constructor.
    + apply (mutex_keep c c' 1 (SBlock x d) PC); [apply J|rewrite Hp; reflexivity].
    + rewrite EU, H. apply (i_tok _ _ J).
    + rewrite H. apply (i_take _ _ J).
    + rewrite H. apply (i_clear _ _ J).
    + rewrite H. apply (i_queue _ _ J).
    + rewrite B', H, HA. change (writes c') with (writes c). change (queue c') with (queue c).
      rewrite (i_handed _ _ J), Hp, W0, R0, Q0. cbn. rewrite app_nil_r. reflexivity.
    + intros v y q X. rewrite PC in X. rewrite H. destruct (Nat.eqb_spec v 1) as [->|_]; [auto|apply (i_block _ _ J _ _ _ X)].
    + rewrite EI, H. apply (i_items _ _ J).
    + rewrite B'. change (writes c') with (writes c). rewrite W0. intros y q [X|[]]. injection X as <- <-. exists []. reflexivity.
    + intros s0. rewrite B'. change (writes c') with (writes c). change (wire c') with (wire c).
      pose proof (i_wire _ _ J s0) as K. rewrite Hp, W0 in K. rewrite W0. cbn in K |- *. rewrite !app_nil_r in K.
      rewrite K, bytes_app. cbn. reflexivity.
    + rewrite EI. apply (i_done _ _ J).
Qed.

Lemma fetch_handler : forall c dn x l, inv c dn -> pcOf c 0 = Idle -> handlers c = x :: l ->
  inv (moveTo 0 (HComplete x) (setHandlers l c)) dn.
Proof.
  intros c dn x l (I & J) Hp Hh. assert (R : 0 < length (threads c)) by (rewrite (i_len _ _ I); lia).
  setup c 0 (HComplete x).
  assert (H : holder c' = holder c) by (apply (holder_out c c' 0 (HComplete x) PC); [apply J|rewrite Hp; reflexivity|reflexivity]).
  assert (EB : forall t', blk (pcOf c' t') = blk (pcOf c t')) by (apply (same c c' 0 (HComplete x) PC blk); rewrite Hp; reflexivity).
  split.
  - frame c 0 (HComplete x); try (rewrite Hp; cbn; auto; intros; discriminate). intros Z. destruct (Z eq_refl).
  - constructor.
    + apply (mutex_keep c c' 0 (HComplete x) PC); [apply J|rewrite Hp; reflexivity].
    + rewrite PC, H. pose proof (i_tok _ _ J) as K. rewrite Hp, Hh in K. cbn [Nat.eqb ioBusy length writes handlers ready c' moveTo setHandlers] in *. lia.
    + rewrite H. apply (i_take _ _ J).
    + rewrite H. apply (i_clear _ _ J).
    + rewrite H. apply (i_queue _ _ J).
    + rewrite EB, H. apply (i_handed _ _ J).
    + intros v y q X. rewrite PC in X. destruct (Nat.eqb_spec v 0) as [_|_]; [discriminate|]. rewrite H. apply (i_block _ _ J _ _ _ X).
    + rewrite PC, H. pose proof (i_items _ _ J) as K. rewrite Hp, Hh in K. cbn [Nat.eqb ioItem writes queue handlers c' moveTo setHandlers] in *.
      rewrite !Forall_app in K |- *. destruct K as (K1 & K2 & K3 & K4 & _). inversion K4; subst. repeat (split; auto).
    + rewrite EB. apply (i_rest _ _ J).
    + rewrite EB. apply (i_wire _ _ J).
    + rewrite PC. pose proof (i_done _ _ J) as K. rewrite Hp, Hh in K. exact K.
Qed.

(** * Operations *)
Lemma one_write : forall c dn i x r, inv c dn -> nth_error (writes c) i = Some (x, r) ->
  i = 0 /\ writes c = [(x, r)] /\ handlers c = [] /\ ioBusy (pcOf c 0) = 0 /\ isWrite (holder c) = 0 /\ ready c = false /\ blk (pcOf c 1) = [].
Proof.
  intros c dn i x r (I & J) E. pose proof (i_tok _ _ J) as K.
  assert (B : blk (pcOf c 1) = []).
  { destruct (pcOf c 1) as [| | | | | | | | | | |y q|] eqn:P; try reflexivity. destruct (i_block _ _ J 1 y q P) as (_ & W & _).
    rewrite W in E. destruct i; discriminate. }
  destruct (writes c) as [|w ws] eqn:W; [destruct i; discriminate|]. cbn [length] in K.
  destruct (ready c); [lia|]. destruct ws; [|cbn [length] in K; lia]. destruct (handlers c); [|cbn [length] in K; lia].
  cbn [length] in K. destruct i as [|i]; [|destruct i; discriminate]. injection E as ->.
  repeat (split; [first [reflexivity|lia]|]). exact B.
Qed.

Lemma step_Bytes : forall c dn i k x rest, inv c dn -> nth_error (writes c) i = Some (x, rest) ->
  inv (setWrites (upd i (x, skipn k rest) (writes c)) (setWire (put (sockOf x) (firstn k rest) (wire c)) c)) dn.
Proof.
  intros c dn i k x rest IJ E. destruct (one_write c dn i x rest IJ E) as (-> & W & _ & _ & _ & _ & B). destruct IJ as (I & J).
  rewrite W. cbn [upd]. split; [destruct I; constructor; assumption|]. constructor.
  - apply J.
  - pose proof (i_tok _ _ J) as K. rewrite W in K. exact K.
  - apply J.
  - apply (i_clear _ _ J).
  - apply J.
  - pose proof (i_handed _ _ J) as K. rewrite W in K. exact K.
  - intros t y q P. destruct (i_block _ _ J t y q P) as (_ & K & _). congruence.
  - pose proof (i_items _ _ J) as K. rewrite W in K. exact K.
  - change (pcOf _ 1) with (pcOf c 1). rewrite B. cbn [app writes setWrites]. intros y q [X|[]]. injection X as <- <-.
    destruct (i_rest _ _ J x rest) as (pre & P); [rewrite B, W; left; reflexivity|]. exists (pre ++ firstn k rest).
    rewrite P, <- app_assoc, firstn_skipn. reflexivity.
  - intros s. change (pcOf _ 1) with (pcOf c 1). pose proof (i_wire _ _ J s) as K. rewrite B, W in *.
    cbn in K |- *. rewrite <- K. unfold put. rewrite (Nat.eqb_sym s). destruct (sockOf x =? s); auto.
    rewrite !app_nil_r, <- app_assoc, firstn_skipn. reflexivity.
  - apply (i_done _ _ J).
Qed.

Lemma step_Done : forall c dn i x, inv c dn -> nth_error (writes c) i = Some (x, []) ->
  inv (setWrites (drop i (writes c)) (setHandlers (handlers c ++ [x]) c)) (dn ++ [x]).
Proof.
  intros c dn i x IJ E. destruct (one_write c dn i x [] IJ E) as (-> & W & H0 & U & V & Re & B). destruct IJ as (I & J).
  assert (IA : isA x). { pose proof (i_items _ _ J) as K. rewrite W in K. inversion K; auto. }
  rewrite W, H0. cbn [drop firstn skipn app]. split; [destruct I; constructor; assumption|]. constructor.
  - apply J.
  - pose proof (i_tok _ _ J) as K. rewrite W, H0 in K. exact K.
  - apply J.
  - apply (i_clear _ _ J).
  - apply J.
  - pose proof (i_handed _ _ J) as K. rewrite W in K. change (pcOf _ 1) with (pcOf c 1). rewrite B in *. cbn in K |- *.
    change (holder _) with (holder c). rewrite <- app_assoc. exact K.
  - intros t y q P. destruct (i_block _ _ J t y q P) as (_ & K & _). congruence.
  - pose proof (i_items _ _ J) as K. rewrite W, H0 in K. change (holder _) with (holder c). change (pcOf _ 0) with (pcOf c 0).
    cbn [writes queue handlers setWrites setHandlers map fst app] in *. inversion K; subst. rewrite !Forall_app in *. cbn. intuition.
  - change (pcOf _ 1) with (pcOf c 1). rewrite B. intros y q [].
  - intros s. change (pcOf _ 1) with (pcOf c 1). pose proof (i_wire _ _ J s) as K. rewrite B, W in *. cbn in K |- *.
    rewrite !app_nil_r. rewrite <- K. destruct (sockOf x =? s); cbn; rewrite ?app_nil_r; reflexivity.
  - change (pcOf _ 0) with (pcOf c 0). pose proof (i_done _ _ J) as K. rewrite H0 in K.
    assert (P0 : ioItem (pcOf c 0) = []) by (destruct (pcOf c 0); cbn in *; congruence).
    rewrite P0 in *. cbn in K |- *. rewrite requests_app, K. cbn. rewrite !app_nil_r. reflexivity.
Qed.

(** * Together *)
Theorem next_inv : forall l c c' dn, works l -> inv c dn -> next l c = Some c' -> exists dn', inv c' dn'.
Proof.
  intros l c c' dn Wk IJ N. pose proof IJ as (I & J). destruct (i_run _ _ I) as (St & Br).
  destruct l as [t k|i k|i|i]; cbn [next] in N; rewrite ?St in N; [| | |destruct Wk].
  - unfold run in N. destruct (nth_error (threads c) t) as [th|] eqn:E; [|discriminate].
    assert (Hp : pcOf c t = at_ th) by (unfold pcOf; rewrite E; reflexivity).
    destruct (at_ th) as [|x|x| | |x|x| |x| | |x rest|r] eqn:A.
    + destruct t as [|u]; cbn [fetch] in N.
      * destruct (handlers c) as [|x l] eqn:H; [discriminate|]. rewrite St in N. injection N as <-. exists dn. apply fetch_handler; auto.
      * destruct (todo th) as [|k0 l] eqn:T; [discriminate|]. destruct k0 as [id s d|s d|id|].
        -- injection N as <-. exists dn. apply (fetch_ASend c dn u th l id s d); auto.
        -- injection N as <-. exists dn. apply (fetch_Send c dn u th l s d); auto.
        -- injection N as <-. exists dn. apply (fetch_Wait c dn u th l id); auto.
        -- exfalso. assert (R : S u < length (threads c)) by (apply nth_error_Some; congruence). rewrite (i_len _ _ I) in R.
           destruct (i_seen _ _ I u) as (seen & S1 & _); [lia|]. unfold todoOf in S1. rewrite E, T in S1. destruct S1.
    + destruct (mutex c) eqn:M; [discriminate|]. injection N as <-. exists dn. apply step_lock; eauto.
    + injection N as <-. exists dn. apply step_DPush; auto.
    + injection N as <-. exists dn. apply step_PTest; auto.
    + assert (M : mutex c = Some t) by (apply (i_mutex _ _ J); rewrite Hp; reflexivity).
      destruct (i_take _ _ J) as (_ & Q); [unfold holder; rewrite M; exact Hp|].
      destruct (queue c) as [|x l] eqn:Q'; [contradiction|]. injection N as <-. exists dn. apply step_PTake; auto.
    + injection N as <-. exists dn. apply step_PClear; auto.
    + injection N as <-. exists dn. apply step_PWrite; auto.
    + injection N as <-. exists dn. apply step_PUnlock; auto.
    + injection N as <-. exists dn. apply step_HComplete; auto.
    + destruct (mutex c) eqn:M; [discriminate|]. injection N as <-. exists dn. apply step_lock; eauto.
    + injection N as <-. exists dn. apply step_HReady; auto.
    + destruct rest as [|b rest].
      * injection N as <-. exists (dn ++ [x]). apply step_SBlock_end; auto.
      * destruct (_ && _); [|discriminate]. injection N as <-. exists dn. apply step_SBlock; auto.
    + destruct (existsb _ _) eqn:X; [|discriminate]. injection N as <-. exists dn. apply (step_WaitFor c dn t r); auto.
  - destruct (nth_error (writes c) i) as [(x, rest)|] eqn:E; [|discriminate].
    destruct (_ && _); [|discriminate]. injection N as <-. exists dn. apply step_Bytes; auto.
  - destruct (nth_error (writes c) i) as [(x, rest)|] eqn:E; [|discriminate]. destruct rest; [|discriminate].
    injection N as <-. exists (dn ++ [x]). apply step_Done; auto.
Qed.
Theorem steps_inv : forall ls c c' dn, Forall works ls -> inv c dn -> steps ls c = Some c' -> exists dn', inv c' dn'.
Proof.
  induction ls as [|l ls IH]; intros c c' dn W I E; cbn [steps] in E; [injection E as <-; eauto|].
  inversion W; subst. destruct (next l c) as [c1|] eqn:N; [|discriminate].
  destruct (next_inv l c c1 dn) as (dn1 & I1); auto. eapply IH; eauto.
Qed.
Theorem reached_inv : forall c, reached progs c -> exists dn, inv c dn.
Proof. intros c (ls & W & E). eapply steps_inv; eauto. apply start_inv, Disc. Qed.

End Steps.
