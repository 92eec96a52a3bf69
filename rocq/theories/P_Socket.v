(** Invariants of the sends on sockets. *)
From Coq Require Import ZArith List Arith Lia Bool.
From Verif Require Import M_Net M_Socket S_Socket P_Net.
Import ListNotations.
Open Scope nat_scope.

Definition pcOf (c : st) (t : nat) : pc := match nth_error (threads c) t with Some th => at_ th | None => Idle end.
Definition todoOf (c : st) (t : nat) : list call := match nth_error (threads c) t with Some th => todo th | None => [] end.
Definition inside (p : pc) : bool :=
  match p with DPush _ | PTest | PTake | PClear _ | PWrite _ | PUnlock | HReady => true | _ => false end.
Definition holder (c : st) : pc := match mutex c with Some t => pcOf c t | None => Idle end.
Definition regs (p : pc) : list item := match p with PClear x | PWrite x => [x] | _ => [] end.
Definition isWrite (p : pc) : nat := match p with PWrite _ => 1 | _ => 0 end.
Definition ioBusy (p : pc) : nat := match p with HComplete _ | HLock | HReady => 1 | _ => 0 end.
Definition ioItem (p : pc) : list item := match p with HComplete x => [x] | _ => [] end.
Definition blk (p : pc) : list (item * list Z) := match p with SBlock x r => [(x, r)] | _ => [] end.
Definition pend (p : pc) : list call := match p with DLock x | DPush x => [snd x] | _ => [] end.
Definition rems (s : nat) (l : list (item * list Z)) : list Z := flat_map (fun w => if sockOf (fst w) =? s then snd w else []) l.
Definition isA (x : item) : Prop := match snd x with ASend _ _ _ => True | _ => False end.
Definition ioPc (p : pc) : bool := match p with DLock _ | DPush _ | SBlock _ _ | WaitFor _ => false | _ => true end.
Definition appPc (p : pc) : bool := match p with HComplete _ | HLock | HReady => false | _ => true end.
Definition own (t : nat) (p : pc) : Prop :=
  match p with DLock x | DPush x => fst x = t /\ isA x | SBlock x _ => fst x = t /\ requestOf x = None | WaitFor r => fst r = t | _ => True end.

Section Inv.
Variable progs : list (list call).

(** the programs of the threads *)
Record invP (c : st) : Prop := {
  i_len : length (threads c) = S (length progs);
  i_io : ioPc (pcOf c 0) = true;
  i_app : forall t, appPc (pcOf c (S t)) = true /\ own (S t) (pcOf c (S t));
  i_prog : forall t p, nth_error progs t = Some p ->
           from (S t) (handed c) ++ pend (pcOf c (S t)) ++ messages (todoOf c (S t)) = messages p;
  i_from : forall x, In x (handed c) -> 1 <= fst x <= length progs;
  i_wait : forall t id, pcOf c t = WaitFor (t, id) -> In id (ids (from t (handed c)));
  i_seen : forall t, t < length progs -> exists seen, proper seen (todoOf c (S t)) /\
           forall id, In id seen <-> In id (ids (from (S t) (handed c) ++ pend (pcOf c (S t))));
  i_disc : (forall t, only_asynchronous (todoOf c (S t)) /\ blk (pcOf c (S t)) = []) \/
           (length progs = 1 /\ exists open, waits open (todoOf c 1) /\
             forall id, In id (ids (from 1 (handed c) ++ pend (pcOf c 1))) ->
                        In id open \/ In (1, id) (completed c) \/ pcOf c 1 = WaitFor (1, id));
  i_run : stopped c = false /\ broken c = false
}.
(** the queue and the sockets *)
Record invS (c : st) (dn : list item) : Prop := {
  i_mutex : forall t, inside (pcOf c t) = true <-> mutex c = Some t;
  i_tok : length (writes c) + length (handlers c) + ioBusy (pcOf c 0) + isWrite (holder c) = if ready c then 0 else 1;
  i_take : holder c = PTake -> ready c = true /\ queue c <> [];
  i_clear : forall x, holder c = PClear x -> ready c = true;
  i_queue : ready c = true -> queue c <> [] -> mutex c <> None /\ holder c <> PUnlock;
  i_handed : handed c = dn ++ map fst (blk (pcOf c 1)) ++ map fst (writes c) ++ regs (holder c) ++ queue c;
  i_block : forall t x r, pcOf c t = SBlock x r -> t = 1 /\ writes c = [] /\ regs (holder c) = [] /\ queue c = [];
  i_items : Forall isA (map fst (writes c) ++ regs (holder c) ++ queue c ++ handlers c ++ ioItem (pcOf c 0));
  i_rest : forall x r, In (x, r) (blk (pcOf c 1) ++ writes c) -> exists pre, dataOf x = pre ++ r;
  i_wire : forall s, wire c s ++ rems s (blk (pcOf c 1) ++ writes c) = bytes s (dn ++ map fst (blk (pcOf c 1) ++ writes c));
  i_done : requests dn = completed c ++ requests (ioItem (pcOf c 0) ++ handlers c)
}.
Definition inv (c : st) (dn : list item) : Prop := invP c /\ invS c dn.

(** * Lemmas about updates *)
Lemma pc_moveTo : forall t p c t', t < length (threads c) -> pcOf (moveTo t p c) t' = if t' =? t then p else pcOf c t'.
Proof.
  intros t p c t' H. unfold pcOf, moveTo. cbn [threads]. destruct (nth_error (threads c) t) as [th|] eqn:E.
  - destruct (Nat.eqb_spec t' t) as [->|N]; [rewrite nth_upd_eq by auto; reflexivity|rewrite nth_upd_ne by auto; reflexivity].
  - apply nth_error_None in E. lia.
Qed.
Lemma todo_moveTo : forall t p c t', todoOf (moveTo t p c) t' = todoOf c t'.
Proof.
  intros t p c t'. unfold todoOf, moveTo. cbn [threads]. destruct (nth_error (threads c) t) as [th|] eqn:E; auto.
  destruct (Nat.eq_dec t' t) as [->|N]; [|rewrite nth_upd_ne by auto; reflexivity].
  rewrite E, nth_upd_eq; auto. apply nth_error_Some. congruence.
Qed.
Lemma len_moveTo : forall t p c, length (threads (moveTo t p c)) = length (threads c).
Proof. intros t p c. unfold moveTo. cbn [threads]. destruct (nth_error (threads c) t); auto using upd_length. Qed.

Lemma bytes_app : forall s a b, bytes s (a ++ b) = bytes s a ++ bytes s b.
Proof. intros s a b. apply flat_map_app. Qed.
Lemma requests_app : forall a b, requests (a ++ b) = requests a ++ requests b.
Proof. intros a b. apply flat_map_app. Qed.
Lemma ids_app : forall a b, ids (a ++ b) = ids a ++ ids b.
Proof. intros a b. apply flat_map_app. Qed.
Lemma rems_app : forall s a b, rems s (a ++ b) = rems s a ++ rems s b.
Proof. intros s a b. apply flat_map_app. Qed.
Lemma from_app : forall t a b, from t (a ++ b) = from t a ++ from t b.
Proof. intros t a b. unfold from. rewrite filter_app, map_app. reflexivity. Qed.
Lemma from_one : forall t x, from t [x] = if fst x =? t then [snd x] else [].
Proof. intros t x. unfold from. cbn [filter]. destruct (fst x =? t); reflexivity. Qed.

Lemma nodup_r : forall {A} (a b : list A), NoDup (a ++ b) -> NoDup b.
Proof. induction a as [|x a IH]; intros b H; auto. apply IH. now inversion H. Qed.
Lemma nodup_l : forall {A} (a b : list A), NoDup (a ++ b) -> NoDup a.
Proof.
  induction a as [|x a IH]; intros b H; [constructor|]. inversion H; subst. constructor; [|eapply IH; eauto].
  intros N. match goal with K : ~ In _ _ |- _ => apply K end. apply in_or_app. auto.
Qed.
Lemma nodup_disj : forall {A} (a b : list A) x, NoDup (a ++ b) -> In x a -> ~ In x b.
Proof.
  induction a as [|y a IH]; intros b x H; [intros []|]. inversion H; subst. intros [<-|K].
  - intros N. match goal with K : ~ In _ _ |- _ => apply K end. apply in_or_app. auto.
  - apply IH; auto.
Qed.

(** requests of a thread *)
Lemma ids_messages : forall p, ids (messages p) = ids p.
Proof.
  unfold messages, ids. induction p as [|k p IH]; [reflexivity|].
  destruct k; cbn [filter isMessage flat_map]; rewrite IH; reflexivity.
Qed.
Lemma proper_nodup : forall p seen, proper seen p -> NoDup (ids p) /\ forall id, In id seen -> ~ In id (ids p).
Proof.
  induction p as [|[id s d|s d|id|] p IH]; intros seen H; cbn [proper ids flat_map] in *.
  - split; [constructor|intros id _ []].
  - destruct H as (N & H). destruct (IH _ H) as (A & B). cbn [app]. split.
    + constructor; [apply B; left; auto|exact A].
    + intros i Hi [<-|Hj]; [contradiction|]. apply (B i); [right; auto|exact Hj].
  - apply IH, H.
  - apply IH, H.
  - destruct H.
Qed.
Lemma in_requests : forall r l, In r (requests l) <-> exists x, In x l /\ requestOf x = Some r.
Proof.
  intros r l. unfold requests. rewrite in_flat_map. split; intros (x & H & E); exists x; split; auto.
  - destruct (requestOf x); [destruct E as [<-|[]]; auto|destruct E].
  - rewrite E. left. auto.
Qed.
Lemma in_ids_from : forall t id l, In id (ids (from t l)) <-> In (t, id) (requests l).
Proof.
  intros t id l. induction l as [|[u k] l IH]; [cbn; tauto|].
  change ((u, k) :: l) with ([(u, k)] ++ l). rewrite from_app, ids_app, requests_app, !in_app_iff, IH.
  rewrite from_one. cbn [fst snd]. destruct (Nat.eqb_spec u t) as [->|N]; destruct k; cbn; intuition congruence.
Qed.
Lemma requests_nodup : forall l, (forall t, NoDup (ids (from t l))) -> NoDup (requests l).
Proof.
  induction l as [|[u k] l IH]; intros H; [constructor|].
  assert (T : NoDup (requests l)).
  { apply IH. intros t. specialize (H t). change ((u, k) :: l) with ([(u, k)] ++ l) in H.
    rewrite from_app, ids_app in H. now apply nodup_r in H. }
  change ((u, k) :: l) with ([(u, k)] ++ l). rewrite requests_app.
  destruct k; cbn [requests flat_map requestOf snd fst app]; auto.
  constructor; auto. rewrite <- in_ids_from. specialize (H u). change ((u, ASend id sock data) :: l) with ([(u, ASend id sock data)] ++ l) in H.
  rewrite from_app, ids_app, from_one in H. cbn [fst snd] in H. rewrite Nat.eqb_refl in H. cbn in H.
  now inversion H.
Qed.

Hypothesis Disc : disciplined progs.

Lemma from_empty : forall t l, (forall x, In x l -> fst x <> t) -> from t l = [].
Proof.
  induction l as [|x l IH]; intros H; auto. unfold from. cbn [filter].
  destruct (Nat.eqb_spec (fst x) t) as [E|_]; [exfalso; apply (H x); [left|]; auto|]. apply IH. intros y Hy. apply H. now right.
Qed.
Lemma handed_nodup : forall c, invP c -> NoDup (requests (handed c)).
Proof.
  intros c I. apply requests_nodup. intros t. destruct t as [|t].
  - rewrite from_empty; [constructor|]. intros x Hx E. apply (i_from _ I) in Hx. lia.
  - destruct (nth_error progs t) as [p|] eqn:E.
    + destruct Disc as (P & _). assert (In p progs) by (eapply nth_error_In; eauto).
      destruct (proper_nodup p []) as (N & _); [apply P; auto|].
      rewrite <- ids_messages, <- (i_prog _ I t p E), ids_app in N. now apply nodup_l in N.
    + rewrite from_empty; [constructor|]. intros x Hx F. apply (i_from _ I) in Hx. apply nth_error_None in E. lia.
Qed.

Lemma start_inv : inv (start progs) [].
Proof.
  assert (P : forall t, pcOf (start progs) t = Idle).
  { intros [|t]; auto. unfold pcOf, start. cbn [threads nth_error]. rewrite nth_error_map. destruct (nth_error progs t); auto. }
  assert (D : forall t p, nth_error progs t = Some p -> todoOf (start progs) (S t) = p).
  { intros t p E. unfold todoOf, start. cbn [threads nth_error]. rewrite nth_error_map, E. reflexivity. }
  split; constructor; try (rewrite ?P; cbn; auto; fail); try (unfold holder; cbn; intros; discriminate).
  - cbn. rewrite map_length. reflexivity.
  - intros t. rewrite P. cbn. auto.
  - intros t p E. rewrite P, (D t p E). reflexivity.
  - intros x [].
  - intros t id. rewrite P. discriminate.
  - intros t L. destruct (nth_error progs t) as [p|] eqn:E; [|apply nth_error_None in E; lia].
    rewrite (D t p E), P. exists []. split; [|cbn; tauto]. apply Disc. eapply nth_error_In; eauto.
  - destruct Disc as (_ & [A|(p & -> & W)]).
    + left. intros t. rewrite P. split; auto. destruct (nth_error progs t) as [p|] eqn:E.
      * rewrite (D t p E). apply A. eapply nth_error_In; eauto.
      * unfold todoOf, start. cbn [threads nth_error]. rewrite nth_error_map, E. intros s d [].
    + right. split; auto. exists []. split; [exact W|]. rewrite P. cbn. tauto.
  - intros t. rewrite P. cbn. split; discriminate.
  - intros t x r. rewrite P. discriminate.
  - rewrite P. intros x r [].
Qed.

(** * Steps of threads *)
Lemma in_range : forall c t, pcOf c t <> Idle -> t < length (threads c).
Proof. intros c t H. apply nth_error_Some. unfold pcOf in H. destruct (nth_error (threads c) t); [discriminate|contradiction]. Qed.

Section Frame.
Variables (c c' : st) (t : nat) (new : pc).
Hypothesis PC : forall t', pcOf c' t' = if t' =? t then new else pcOf c t'.
Hypothesis TD : forall t', todoOf c' t' = todoOf c t'.
Hypothesis LE : length (threads c') = length (threads c).

Lemma same {A} (f : pc -> A) : f (pcOf c t) = f new -> forall t', f (pcOf c' t') = f (pcOf c t').
Proof. intros E t'. rewrite PC. destruct (Nat.eqb_spec t' t) as [->|_]; congruence. Qed.

Lemma frameP : invP c -> pend (pcOf c t) = pend new -> blk new = [] \/ blk (pcOf c t) <> [] -> (forall r, new <> WaitFor r) ->
  (t = 0 -> ioPc new = true) -> (t <> 0 -> appPc new = true /\ own t new) ->
  handed c' = handed c -> incl (completed c) (completed c') ->
  (forall r, pcOf c t = WaitFor r -> In r (completed c')) -> stopped c' = stopped c -> broken c' = broken c -> invP c'.
Proof.
  intros I Pe Bl NW Io Ap Ha Co Wf St Br. constructor.
  - rewrite LE. apply I.
  - rewrite PC. destruct (Nat.eqb_spec 0 t) as [<-|_]; [auto|apply I].
  - intros u. rewrite PC. destruct (Nat.eqb_spec (S u) t) as [E|_]; [rewrite <- E in *; apply Ap; lia|apply I].
  - intros u p E. rewrite Ha, TD, (same pend Pe). apply (i_prog _ I), E.
  - rewrite Ha. apply I.
  - intros u id. rewrite PC, Ha. destruct (Nat.eqb_spec u t) as [_|_]; [intros E; destruct (NW _ E)|apply (i_wait _ I)].
  - intros u L. rewrite Ha, TD, (same pend Pe). apply (i_seen _ I), L.
  - destruct (i_disc _ I) as [D|(L & op & W & D)].
    + left. intros u. rewrite TD. split; [apply D|]. rewrite PC. destruct (Nat.eqb_spec (S u) t) as [E|_]; [|apply D].
      rewrite <- E in *. destruct Bl as [Bl|Bl]; [exact Bl|]. destruct (D u) as (_ & X). contradiction.
    + right. split; [exact L|]. exists op. split; [rewrite TD; exact W|]. intros id. rewrite Ha, (same pend Pe). intros H.
      destruct (D id H) as [A|[A|A]]; [auto|auto|]. rewrite PC. destruct (Nat.eqb_spec 1 t) as [<-|_]; [|auto].
      right. left. apply Wf, A.
  - rewrite St, Br. apply I.
Qed.

Lemma mutex_keep m : (forall t', inside (pcOf c t') = true <-> m = Some t') -> inside (pcOf c t) = inside new ->
  forall t', inside (pcOf c' t') = true <-> m = Some t'.
Proof. intros H E t'. rewrite (same inside E). apply H. Qed.
Lemma mutex_take : (forall t', inside (pcOf c t') = true <-> @None nat = Some t') -> inside new = true ->
  forall t', inside (pcOf c' t') = true <-> Some t = Some t'.
Proof.
  intros H E t'. rewrite PC. destruct (Nat.eqb_spec t' t) as [->|N]; [tauto|]. rewrite H. split; congruence.
Qed.
Lemma mutex_drop : (forall t', inside (pcOf c t') = true <-> Some t = Some t') -> inside new = false ->
  forall t', inside (pcOf c' t') = true <-> @None nat = Some t'.
Proof.
  intros H E t'. rewrite PC. destruct (Nat.eqb_spec t' t) as [->|N]; [rewrite E; split; discriminate|].
  rewrite H. split; congruence.
Qed.
Lemma holder_out : (forall t', inside (pcOf c t') = true <-> mutex c = Some t') -> inside (pcOf c t) = false -> mutex c' = mutex c ->
  holder c' = holder c.
Proof.
  intros H O E. unfold holder. rewrite E. destruct (mutex c) as [i|] eqn:M; auto. rewrite PC.
  destruct (Nat.eqb_spec i t) as [->|_]; auto. exfalso. assert (inside (pcOf c t) = true) by (apply H; auto). congruence.
Qed.
Lemma holder_in : mutex c' = Some t -> holder c' = new.
Proof. intros E. unfold holder. rewrite E, PC, Nat.eqb_refl. reflexivity. Qed.
End Frame.

End Inv.
