(** Running networks of any number of processes by computation. *)
From Coq Require Import List Arith Lia.
From Verif Require Import M_Net P_Net.
Import ListNotations.

Section Exec.
Context {M S : Type}.
Variable body : nat -> S -> option (proc M S).

(** blocking sends: the step process [i] can start *)
Definition stepi (c : net (M:=M) (S:=S)) (i : nat) : option (net (M:=M) (S:=S)) :=
  match nth_error c i with
  | Some (PSend j m k) => if i =? j then None else
      match nth_error c j with
      | Some (PRecv i' g) => if i' =? i then Some (upd j (g m) (upd i k c)) else None
      | _ => None
      end
  | Some (PRet s) => match body i s with Some p => Some (upd i p c) | None => None end
  | _ => None
  end.
Fixpoint firstOf (f : nat -> option (net (M:=M) (S:=S))) (l : list nat) : option (net (M:=M) (S:=S)) :=
  match l with
  | [] => None
  | i :: r => match f i with Some c => Some c | None => firstOf f r end
  end.
Fixpoint runN (fuel : nat) (c : net (M:=M) (S:=S)) : net (M:=M) (S:=S) :=
  match fuel with
  | 0 => c
  | Datatypes.S n => match firstOf (stepi c) (seq 0 (length c)) with None => c | Some c' => runN n c' end
  end.

Lemma stepi_sound c i c' : stepi c i = Some c' -> exists l, sstep body l c c'.
Proof.
  unfold stepi. destruct (nth_error c i) as [[s|e|j m k|j k]|] eqn:Hi; try discriminate.
  - destruct (body i s) as [p|] eqn:B; [|discriminate]. intros H; injection H as <-. exists (i, i). eapply ss_loop; eassumption.
  - destruct (Nat.eqb_spec i j) as [|Ne]; [discriminate|]. destruct (nth_error c j) as [[s|e|j' m' k'|i' g]|] eqn:Hj; try discriminate.
    destruct (Nat.eqb_spec i' i) as [->|]; [|discriminate]. intros H; injection H as <-. exists (i, j). apply ss_comm; assumption.
Qed.
Lemma firstOf_some f l c : firstOf f l = Some c -> exists i, f i = Some c.
Proof. induction l as [|i l IH]; cbn; [discriminate|]. destruct (f i) eqn:E; [intros H; injection H as <-; eauto|auto]. Qed.
Lemma firstOf_none f l : firstOf f l = None -> forall i, In i l -> f i = None.
Proof. induction l as [|i l IH]; cbn; intros H j []; [subst; destruct (f j); congruence|]. apply IH; [destruct (f i); congruence|assumption]. Qed.
Lemma runN_sound fuel : forall c, reaches (sstep body) c (runN fuel c).
Proof.
  induction fuel as [|n IH]; intros c; cbn [runN]; [exists []; constructor|].
  destruct (firstOf (stepi c) (seq 0 (length c))) as [c'|] eqn:F; [|exists []; constructor].
  apply firstOf_some in F as (i & F). apply stepi_sound in F as (l & F). destruct (IH c') as (w & R). exists (l :: w). econstructor; eassumption.
Qed.
Lemma stepi_complete c l c' : sstep body l c c' -> exists i, i < length c /\ stepi c i = Some c'.
Proof.
  intros H. inversion H as [i j m ki kj c0 Ne Hi Hj|i s p1 c0 Hi Hb]; subst; exists i; (split; [eapply nth_error_lt, Hi|]); unfold stepi; rewrite Hi.
  - destruct (Nat.eqb_spec i j); [congruence|]. rewrite Hj, Nat.eqb_refl. reflexivity.
  - rewrite Hb. reflexivity.
Qed.
Definition isDone (p : proc M S) : bool := match p with PRet _ => true | _ => false end.
Definition stuckN (c : net (M:=M) (S:=S)) : bool :=
  match firstOf (stepi c) (seq 0 (length c)) with None => negb (forallb isDone c) | Some _ => false end.
Lemma stuckN_ok c : stuckN c = true -> ~ all_finished body c /\ forall l c', ~ sstep body l c c'.
Proof.
  intros H. unfold stuckN in H. destruct (firstOf (stepi c) (seq 0 (length c))) eqn:F; [discriminate H|]. split.
  - intros A. apply Bool.negb_true_iff in H. rewrite <- Bool.not_true_iff_false in H. apply H. apply forallb_forall. intros p Hp.
    apply In_nth_error in Hp as (i & Hi). destruct (A i p Hi) as (s & -> & _). reflexivity.
  - intros l c' St. apply stepi_complete in St as (i & Hi & E). rewrite (firstOf_none _ _ F i) in E; [discriminate E|]. apply in_seq. lia.
Qed.
Lemma runN_stuck fuel c0 : stuckN (runN fuel c0) = true ->
  exists c, reaches (sstep body) c0 c /\ ~ all_finished body c /\ forall l c', ~ sstep body l c c'.
Proof.
  intros H. exists (runN fuel c0). split; [apply runN_sound|]. generalize dependent (runN fuel c0). intros c H. unfold stuckN in H.
  destruct (firstOf (stepi c) (seq 0 (length c))) eqn:F; [discriminate H|]. split.
  - intros A. apply Bool.negb_true_iff in H. rewrite <- Bool.not_true_iff_false in H. apply H. apply forallb_forall. intros p Hp.
    apply In_nth_error in Hp as (i & Hi). destruct (A i p Hi) as (s & -> & _). reflexivity.
  - intros l c' St. apply stepi_complete in St as (i & Hi & E). rewrite (firstOf_none _ _ F i) in E; [discriminate E|]. apply in_seq. lia.
Qed.

(** buffered sends *)
Definition astepi (x : net (M:=M) (S:=S) * chans (M:=M)) (i : nat) : option (net (M:=M) (S:=S) * chans (M:=M)) :=
  let '(c, q) := x in
  match nth_error c i with
  | Some (PSend j m k) => if (i =? j) || negb (j <? length c) then None else Some (upd i k c, chset (length c) i j (chget (length c) i j q ++ [m]) q)
  | Some (PRecv j g) => if (i =? j) || negb (j <? length c) then None else
      match chget (length c) j i q with
      | [] => None
      | m :: r => Some (upd i (g m) c, chset (length c) j i r q)
      end
  | Some (PRet s) => match body i s with Some p => Some (upd i p c, q) | None => None end
  | _ => None
  end%bool.
Fixpoint arunN (fuel : nat) (order : list nat) (x : net (M:=M) (S:=S) * chans (M:=M)) : net (M:=M) (S:=S) * chans (M:=M) :=
  match fuel with
  | 0 => x
  | Datatypes.S n => arunN n order (fold_left (fun y i => match astepi y i with Some y' => y' | None => y end) order x)
  end.
Lemma astepi_sound x i x' : astepi x i = Some x' -> astep body i x x'.
Proof.
  destruct x as (c, q). unfold astepi. destruct (nth_error c i) as [[s|e|j m k|j k]|] eqn:Hi; try discriminate.
  - destruct (body i s) as [p|] eqn:B; [|discriminate]. intros H; injection H as <-. eapply as_loop; eassumption.
  - destruct (Nat.eqb_spec i j) as [|Ne]; [discriminate|]. destruct (Nat.ltb_spec j (length c)); [|discriminate]. cbn. intros H'; injection H' as <-. apply as_send; assumption.
  - destruct (Nat.eqb_spec i j) as [|Ne]; [discriminate|]. destruct (Nat.ltb_spec j (length c)); [|discriminate]. cbn.
    destruct (chget (length c) j i q) as [|m r] eqn:G; [discriminate|]. intros H'; injection H' as <-. eapply as_recv; eauto.
Qed.
Lemma arunN_sound fuel order : forall x, reaches (astep body) x (arunN fuel order x).
Proof.
  assert (Q : forall l x, reaches (astep body) x (fold_left (fun y i => match astepi y i with Some y' => y' | None => y end) l x)).
  { induction l as [|i l IH]; intros x; cbn [fold_left]; [exists []; constructor|]. destruct (astepi x i) as [x'|] eqn:E; [|apply IH].
    destruct (IH x') as (w & R). exists (i :: w). econstructor; [eapply astepi_sound, E|exact R]. }
  induction fuel as [|n IH]; intros x; cbn [arunN]; [exists []; constructor|].
  destruct (Q order x) as (w & R). destruct (IH (fold_left (fun y i => match astepi y i with Some y' => y' | None => y end) order x)) as (w' & R').
  exists (w ++ w'). eapply lrun_app; eassumption.
Qed.
Definition astuckN (x : net (M:=M) (S:=S) * chans (M:=M)) : bool :=
  forallb (fun i => match astepi x i with None => true | Some _ => false end) (seq 0 (length (fst x))) && negb (forallb isDone (fst x)).
Lemma astuckN_ok x : astuckN x = true -> ~ all_finished body (fst x) /\ forall l x', ~ astep body l x x'.
Proof.
  unfold astuckN. rewrite Bool.andb_true_iff, forallb_forall, Bool.negb_true_iff. intros [H D]. split.
  - intros A. rewrite <- Bool.not_true_iff_false in D. apply D. apply forallb_forall. intros p Hp. apply In_nth_error in Hp as (i & Hi). destruct (A i p Hi) as (s & -> & _). reflexivity.
  - intros l x' St. assert (Hl : l < length (fst x)) by (inversion St; subst; cbn [fst]; eapply nth_error_lt; eassumption).
    specialize (H l (proj2 (in_seq _ _ _) (conj (Nat.le_0_l l) Hl))).
    assert (E : exists y, astepi x l = Some y); [|destruct E as (y & E); rewrite E in H; discriminate H].
    inversion St as [i j m k c q Ne Hj Hi|i j m k c q r Ne Hj Hi Hg|i s p c q Hi Hb]; subst; unfold astepi; rewrite Hi; try rewrite Hb; try (destruct (Nat.eqb_spec l j); [congruence|]; destruct (Nat.ltb_spec j (length c)); [|lia]; cbn [orb negb]); try rewrite Hg; eauto.
Qed.
End Exec.
