(** Proofs about products of distributed matrices. *)
From Coq Require Import Field Field_theory Bool List Arith Lia.
From Verif Require Import S_Field P_Field M_Cycle S_Cycle.
Import ListNotations.

Section P.
Variable F : field.
Add Field KC : (K_theory F).
Notation row := (list F).
Notation block := (list row).
Variable a : input F.
Hypothesis Dist : distributed a.
Notation N := (i_N a).
Implicit Types (s t : system F) (r k i : nat).

Lemma two : 2 <= N. Proof. apply Dist. Qed.
Lemma off_S r : r < N -> offset a (r + 1) = offset a r + length (i_left a r).
Proof. intros H. destruct Dist as (_ & (_ & _ & R) & _). apply R, H. Qed.
Lemma off_0 : offset a 0 = 0. Proof. destruct Dist as (_ & (_ & R & _) & _). exact R. Qed.
Lemma rows_ok r : r < N -> rowsOf a r = length (i_left a r).
Proof.
  intros H. unfold rowsOf. pose proof (off_S r H) as E. destruct (0 <? r) eqn:B; [lia|]. apply Nat.ltb_ge in B. assert (r = 0) by lia. subst. rewrite off_0 in E. exact E.
Qed.
Lemma off_mono d : forall r, r + d <= N -> offset a r <= offset a (r + d).
Proof.
  induction d as [|d IH]; intros r H; [rewrite Nat.add_0_r; lia|]. specialize (IH r ltac:(lia)). replace (r + S d) with (r + d + 1) by lia. rewrite off_S by lia. lia.
Qed.
Lemma off_end r : r < N -> offset a r + length (i_left a r) <= i_p a.
Proof.
  intros H. rewrite <- off_S by exact H. destruct Dist as (_ & _ & P & _). rewrite <- P. fold (offset a N). replace N with ((r + 1) + (N - (r + 1))) by lia. apply off_mono. lia.
Qed.

Lemma source_0 r : sourceProc a r 0 = r. Proof. unfold sourceProc. cbn [Nat.ltb Nat.leb]. apply Nat.sub_0_r. Qed.
Lemma source_lt r k : r < N -> k <= N -> sourceProc a r k < N \/ k = 0.
Proof. intros. unfold sourceProc. destruct (r <? k) eqn:B; [apply Nat.ltb_lt in B|apply Nat.ltb_ge in B]; lia. Qed.
Lemma source_bound r k : r < N -> k <= N -> sourceProc a r k < N.
Proof. intros H K. destruct (source_lt r k H K) as [L| ->]; [exact L|]. rewrite source_0. exact H. Qed.
Lemma next_lt r : r < N -> nextProc a r < N.
Proof. intros. unfold nextProc. destruct (_ =? _) eqn:B; [lia|apply Nat.eqb_neq in B; lia]. Qed.
Lemma next_neq r : r < N -> nextProc a r <> r.
Proof. intros. pose proof two. unfold nextProc. destruct (_ =? _) eqn:B; [apply Nat.eqb_eq in B|]; lia. Qed.
Lemma next_inj r r' : r < N -> r' < N -> nextProc a r = nextProc a r' -> r = r'.
Proof. intros H H'. unfold nextProc. destruct (r =? _) eqn:B, (r' =? _) eqn:C; [apply Nat.eqb_eq in B, C|apply Nat.eqb_eq in B|apply Nat.eqb_eq in C|]; lia. Qed.
Lemma source_next r i : r < N -> 1 <= i <= N -> sourceProc a (nextProc a r) i = sourceProc a r (i - 1).
Proof.
  intros H [I1 I2]. unfold nextProc, sourceProc. destruct (r =? N - 1) eqn:B; [apply Nat.eqb_eq in B|apply Nat.eqb_neq in B].
  - replace (0 <? i) with true by (symmetry; apply Nat.ltb_lt; lia). destruct (r <? i - 1) eqn:C; [apply Nat.ltb_lt in C|apply Nat.ltb_ge in C]; lia.
  - destruct (Nat.ltb_spec (r + 1) i), (Nat.ltb_spec r (i - 1)); lia.
Qed.
Lemma prev_source r : r < N -> prevProc a r = sourceProc a r 1.
Proof. intros. unfold prevProc, sourceProc. destruct r as [|r]; cbn [Nat.eqb]; [cbn [Nat.ltb Nat.leb]; lia|]. replace (S r <? 1) with false by (symmetry; apply Nat.ltb_ge; lia). reflexivity. Qed.
Lemma source_all r g : r < N -> g < N -> exists k, k < N /\ sourceProc a r k = g.
Proof.
  intros H G. destruct (Nat.le_gt_cases g r).
  - exists (r - g). split; [lia|]. unfold sourceProc. replace (r <? r - g) with false by (symmetry; apply Nat.ltb_ge; lia). lia.
  - exists (N + r - g). split; [lia|]. unfold sourceProc. replace (r <? N + r - g) with true by (symmetry; apply Nat.ltb_lt; lia). lia.
Qed.

(** the block rank [r] works on in cycle [k] *)
Notation blockAt r k := (i_left a (sourceProc a r k)).
Definition full (b : block) : Prop := 0 < size a b.
Lemma zeros_size n : size a (zeros a n) = n * i_q a.
Proof. unfold size, zeros. rewrite repeat_length. reflexivity. Qed.
Lemma not_full_zeros r : r < N -> ~ full (i_left a r) -> zeros a (length (i_left a r)) = i_left a r.
Proof.
  intros H E. unfold full, size in E. destruct (length (i_left a r)) as [|n] eqn:L.
  - destruct (i_left a r); [reflexivity|discriminate L].
  - assert (Q : i_q a = 0) by (destruct (i_q a); [reflexivity|cbn in E; lia]). destruct Dist as (_ & _ & _ & W). specialize (W r H). rewrite Q in W. unfold zeros. rewrite Q, <- L. clear - W.
    induction W as [|x l Hx W IH]; [reflexivity|]. destruct x; [|discriminate Hx]. cbn [length repeat] in *. rewrite IH. reflexivity.
Qed.

(** ** The state of one rank *)
Definition posts (s : rank F) : nat := match at_ s with Begin => 0 | Wait1 k => k | Wait2 k => if k <? N - 1 then k + 1 else N - 1 | Done => N - 1 | Failed => 0 end.
Definition sends (s : rank F) : nat := posts s - (match out s with Some _ => 1 | None => 0 end).
Definition gets (s : rank F) : nat := posts s - (if inp s then 1 else 0).
Definition written (s : rank F) : nat := match at_ s with Begin => 0 | Wait1 k => k | Wait2 k => k | Done => N | Failed => 0 end.
Definition waiting (s : rank F) : Prop := match at_ s with Wait1 _ => True | Wait2 k => k < N - 1 | _ => False end.
Definition right_rows (r g : nat) (m : nat -> row) : Prop := forall l, l < length (i_left a g) -> m (offset a g + l) = rowTimes a r (nth l (i_left a g) []).
Record ok (r : nat) (s : rank F) : Prop := Ok {
  k_place : match at_ s with Wait1 k | Wait2 k => 1 <= k < N | Failed => False | _ => True end;
  k_out : forall d, out s = Some d -> waiting s /\ d = blockAt r (posts s - 1) /\ full d;
  k_inp : inp s = true -> waiting s /\ full (blockAt r (posts s)) /\ length (rcv s) = length (blockAt r (posts s));
  k_rcv : inp s = false -> waiting s -> rcv s = blockAt r (posts s);
  k_copy : forall k, at_ s = Wait2 k -> copy s = blockAt r k;
  k_res : forall k, k < written s -> right_rows r (sourceProc a r k) (res s) }.

Lemma set_right r g m : g < N -> right_rows r g (setBlock (offset a g) (map (rowTimes a r) (i_left a g)) m).
Proof.
  intros H l Hl. unfold setBlock. rewrite map_length. replace (_ && _) with true by (symmetry; rewrite andb_true_iff, Nat.leb_le, Nat.ltb_lt; lia).
  replace (offset a g + l - offset a g) with l by lia. rewrite (nth_indep _ [] (rowTimes a r [])) by (rewrite map_length; exact Hl). apply map_nth.
Qed.
Lemma off_between g h : g < h -> h < N -> offset a g + length (i_left a g) <= offset a h.
Proof. intros H G. rewrite <- off_S by lia. replace h with (g + 1 + (h - (g + 1))) by lia. apply off_mono. lia. Qed.
Lemma set_keeps r g h m : g < N -> h < N -> right_rows r h m -> right_rows r h (setBlock (offset a g) (map (rowTimes a r) (i_left a g)) m).
Proof.
  intros G H R. destruct (Nat.eq_dec g h) as [->|D]; [apply set_right, H|]. intros l Hl. unfold setBlock. rewrite map_length.
  replace (_ && _) with false; [apply R, Hl|]. symmetry. apply andb_false_iff. rewrite Nat.leb_gt, Nat.ltb_ge.
  destruct (Nat.lt_ge_cases g h); [pose proof (off_between g h); lia|pose proof (off_between h g); lia].
Qed.
Lemma store_ok r g next (s : rank F) : g < N -> store a r (offset a g) (i_left a g) next s = Rank next (out s) (inp s) (rcv s) (copy s) (setBlock (offset a g) (map (rowTimes a r) (i_left a g)) (res s)).
Proof. intros G. unfold store. cbv zeta. rewrite map_length. pose proof (off_end g G). replace (_ <=? _) with true by (symmetry; apply Nat.leb_le; lia). reflexivity. Qed.
Lemma ltb_full b : (0 <? size a b) = true <-> full b. Proof. apply Nat.ltb_lt. Qed.
Lemma ltb_not_full b : (0 <? size a b) = false <-> ~ full b. Proof. unfold full. rewrite Nat.ltb_ge. lia. Qed.
Lemma size_zeros_left g : size a (zeros a (length (i_left a g))) = size a (i_left a g).
Proof. rewrite zeros_size. reflexivity. Qed.

(** what a step of one rank keeps: its messages, and those of its neighbours, are counted correctly *)
Definition links r (s t : rank F) : Prop :=
  (forall i, 1 <= i -> full (blockAt r (i - 1)) -> (i <= sends t <-> i <= sends s)) /\
  (forall i, 1 <= i -> full (blockAt r i) -> (i <= gets t <-> i <= gets s)).
Lemma begin_ok r (s : rank F) : r < N -> ok r s -> at_ s = Begin -> out s = None -> inp s = false -> ok r (begin a r s) /\ links r s (begin a r s).
Proof.
  intros H O E E1 E2. unfold begin. rewrite store_ok by exact H. pose proof two as T. replace (1 <? N) with true by (symmetry; apply Nat.ltb_lt; lia).
  rewrite prev_source by exact H. assert (S1 : sourceProc a r 1 < N) by (apply source_bound; lia). rewrite (rows_ok _ S1), size_zeros_left. cbn [out inp rcv copy res].
  split.
  - constructor; cbn [at_ out inp rcv copy res].
    + lia.
    + intros d. unfold posts, waiting. cbn [at_]. rewrite source_0. destruct (0 <? size a (i_left a r)) eqn:B; [|discriminate]. intros [= <-]. apply ltb_full in B. auto.
    + intros B. unfold posts, waiting. cbn [at_]. apply ltb_full in B. split; [exact I|]. split; [exact B|]. unfold zeros. apply repeat_length.
    + intros B _. unfold posts. cbn [at_]. apply ltb_not_full in B. apply not_full_zeros; assumption.
    + discriminate.
    + unfold written. cbn [at_]. intros k Hk. assert (k = 0) by lia. subst. rewrite source_0. apply set_right, H.
  - unfold links, sends, gets, posts. rewrite E. cbn [at_ out inp]. split; intros i Hi Fu.
    + destruct (0 <? size a (i_left a r)) eqn:B; [lia|]. apply ltb_not_full in B. destruct (Nat.eq_dec i 1) as [->|]; [|lia]. rewrite source_0 in Fu. contradiction.
    + destruct (0 <? size a (blockAt r 1)) eqn:B; [lia|]. apply ltb_not_full in B. destruct (Nat.eq_dec i 1) as [->|]; [contradiction|lia].
Qed.
Lemma relay_ok r k (s : rank F) : r < N -> ok r s -> at_ s = Wait1 k -> out s = None -> inp s = false -> ok r (relay a r k s) /\ links r s (relay a r k s).
Proof.
  intros H [O1 O2 O3 O4 O5 O6] E E1 E2. rewrite E in O1. assert (R : rcv s = blockAt r k) by (rewrite O4; [unfold posts; rewrite E; reflexivity|exact E2|unfold waiting; rewrite E; exact I]).
  assert (S1 : sourceProc a r (k + 1) < N) by (apply source_bound; lia). unfold relay. rewrite (rows_ok _ S1), size_zeros_left, R, E1, E2. destruct (k <? N - 1) eqn:M; cbn [andb].
  - assert (K := M). apply Nat.ltb_lt in K. split.
    + constructor; cbn [at_ out inp rcv copy res].
      * exact O1.
      * intros d. unfold posts, waiting. cbn [at_]. rewrite M. replace (k + 1 - 1) with k by lia. destruct (0 <? size a (blockAt r k)) eqn:B; [|discriminate]. intros [= <-]. apply ltb_full in B. auto.
      * unfold posts, waiting. cbn [at_]. rewrite M. destruct (0 <? size a (blockAt r (k + 1))) eqn:B; [|discriminate]. intros _. apply ltb_full in B. split; [exact K|]. split; [exact B|]. unfold zeros. apply repeat_length.
      * unfold posts, waiting. cbn [at_]. rewrite M. destruct (0 <? size a (blockAt r (k + 1))) eqn:B; [discriminate|]. intros _ _. apply ltb_not_full in B. apply not_full_zeros; assumption.
      * intros k' [= <-]. reflexivity.
      * unfold written. cbn [at_]. intros j Hj. apply O6. unfold written. rewrite E. exact Hj.
    + unfold links, sends, gets, posts. rewrite E, E1, E2. cbn [at_ out inp]. rewrite M. split; intros i Hi Fu.
      * destruct (0 <? size a (blockAt r k)) eqn:B; [lia|]. apply ltb_not_full in B. destruct (Nat.eq_dec i (k + 1)) as [->|]; [|lia]. replace (k + 1 - 1) with k in Fu by lia. contradiction.
      * destruct (0 <? size a (blockAt r (k + 1))) eqn:B; [lia|]. apply ltb_not_full in B. destruct (Nat.eq_dec i (k + 1)) as [->|]; [contradiction|lia].
  - assert (K := M). apply Nat.ltb_ge in K. assert (k = N - 1) by lia. subst k. split.
    + constructor; cbn [at_ out inp rcv copy res].
      * exact O1.
      * discriminate.
      * discriminate.
      * unfold waiting. cbn [at_]. lia.
      * intros k' [= <-]. reflexivity.
      * unfold written. cbn [at_]. intros j Hj. apply O6. unfold written. rewrite E. exact Hj.
    + unfold links, sends, gets, posts. rewrite E, E1, E2. cbn [at_ out inp]. rewrite M. split; reflexivity.
Qed.
Lemma multiply_ok r k (s : rank F) : r < N -> ok r s -> at_ s = Wait2 k -> out s = None -> ok r (multiplyBlock a r k s) /\ links r s (multiplyBlock a r k s).
Proof.
  intros H [O1 O2 O3 O4 O5 O6] E E1. rewrite E in O1. assert (S1 : sourceProc a r k < N) by (apply source_bound; lia). unfold multiplyBlock. rewrite (O5 k E), store_ok by exact S1.
  assert (W : forall j, j < k + 1 -> right_rows r (sourceProc a r j) (setBlock (offset a (sourceProc a r k)) (map (rowTimes a r) (blockAt r k)) (res s))).
  { intros j Hj. destruct (Nat.eq_dec j k) as [->|]; [apply set_right, S1|]. apply set_keeps; [exact S1|apply source_bound; lia|]. apply O6. unfold written. rewrite E. lia. }
  assert (P : posts s = if k + 1 <? N then k + 1 else N - 1).
  { unfold posts. rewrite E. destruct (Nat.ltb_spec k (N - 1)), (Nat.ltb_spec (k + 1) N); lia. }
  assert (Q : forall x y z m, posts (Rank (if k + 1 <? N then Wait1 (k + 1) else Done) (out s) x y z m) = posts s) by (intros; rewrite P; unfold posts; cbn [at_]; destruct (k + 1 <? N); reflexivity).
  assert (Wa : forall x y z m, waiting (Rank (if k + 1 <? N then Wait1 (k + 1) else Done) (out s) x y z m) <-> waiting s).
  { intros. unfold waiting. cbn [at_]. rewrite E. destruct (k + 1 <? N) eqn:C; [apply Nat.ltb_lt in C|apply Nat.ltb_ge in C]; split; intros; try exact I; lia. }
  split.
  - constructor; rewrite ?Q, ?Wa; cbn [at_ out inp rcv copy res].
    + destruct (k + 1 <? N) eqn:C; [apply Nat.ltb_lt in C; lia|exact I].
    + intros d D. rewrite ?Q, ?Wa. exact (O2 d D).
    + intros D. rewrite ?Q, ?Wa. exact (O3 D).
    + intros D Wt. rewrite ?Q. apply O4; [exact D|]. rewrite ?Wa in Wt. exact Wt.
    + intros k'. destruct (k + 1 <? N); discriminate.
    + intros j Hj. apply W. revert Hj. unfold written. cbn [at_]. destruct (k + 1 <? N) eqn:C; [auto|]. apply Nat.ltb_ge in C. lia.
  - unfold links, sends, gets. rewrite !Q. cbn [out inp]. split; reflexivity.
Qed.
Lemma act_ok r (s : rank F) x : r < N -> ok r s -> (at_ s = Begin -> out s = None /\ inp s = false) -> act a r s = Some x -> ok r x /\ links r s x.
Proof.
  intros H O B E. unfold act in E. destruct (at_ s) as [|k|k| |] eqn:A; try discriminate E.
  - injection E as <-. destruct (B eq_refl). apply begin_ok; assumption.
  - destruct (out s) eqn:E1; [discriminate E|]. destruct (inp s) eqn:E2; [discriminate E|]. injection E as <-. apply relay_ok; assumption.
  - destruct (out s) eqn:E1; [discriminate E|]. injection E as <-. apply multiply_ok; assumption.
Qed.

(** ** All ranks *)
Definition linked s : Prop := forall r, r < N -> forall i, 1 <= i <= N -> full (blockAt (nextProc a r) i) -> (i <= sends (s r) <-> i <= gets (s (nextProc a r))).
Definition good s : Prop := (forall r, r < N -> ok r (s r)) /\ linked s.
Lemma ok_begin r (s : rank F) : ok r s -> at_ s = Begin -> out s = None /\ inp s = false.
Proof.
  intros [_ O2 O3 _ _ _] B. split.
  - destruct (out s) as [d|] eqn:E; [|reflexivity]. destruct (O2 d eq_refl) as [W _]. unfold waiting in W. rewrite B in W. contradiction.
  - destruct (inp s); [|reflexivity]. destruct (O3 eq_refl) as [W _]. unfold waiting in W. rewrite B in W. contradiction.
Qed.
Lemma posts_bound r (s : rank F) : ok r s -> posts s <= N - 1.
Proof. intros [O1 _ _ _ _ _]. pose proof two. unfold posts. destruct (at_ s) as [|k|k| |]; try lia. destruct (k <? N - 1) eqn:B; [apply Nat.ltb_lt in B|]; lia. Qed.
Lemma put_same s r (x : rank F) : put s r x r = x. Proof. unfold put. rewrite Nat.eqb_refl. reflexivity. Qed.
Lemma put_other s r (x : rank F) i : i <> r -> put s r x i = s i. Proof. intros H. unfold put. apply Nat.eqb_neq in H. rewrite H. reflexivity. Qed.
Lemma good_act s r x : r < N -> good s -> act a r (s r) = Some x -> good (put s r x).
Proof.
  intros H [O L] E. destruct (act_ok r (s r) x H (O r H) (ok_begin r (s r) (O r H)) E) as [Ox [L1 L2]]. split.
  - intros i Hi. destruct (Nat.eq_dec i r) as [->|D]; [rewrite put_same; exact Ox|rewrite put_other by exact D; apply O, Hi].
  - intros i Hi j Hj Fu. specialize (L i Hi j Hj Fu). assert (A : j <= sends (put s r x i) <-> j <= sends (s i)).
    { destruct (Nat.eq_dec i r) as [->|D]; [|rewrite put_other by exact D; reflexivity]. rewrite put_same. apply L1; [lia|]. rewrite source_next in Fu by assumption. exact Fu. }
    assert (B : j <= gets (put s r x (nextProc a i)) <-> j <= gets (s (nextProc a i))).
    { destruct (Nat.eq_dec (nextProc a i) r) as [D|D]; [|rewrite put_other by exact D; reflexivity]. rewrite D, put_same in *. apply L2; [lia|exact Fu]. }
    tauto.
Qed.
(** the message that arrives is the one that is expected *)
Lemma matched s r d : r < N -> good s -> out (s r) = Some d -> inp (s (nextProc a r)) = true -> posts (s r) = posts (s (nextProc a r)) /\ 1 <= posts (s r) <= N - 1.
Proof.
  intros H [O L] E1 E2. pose proof (next_lt r H) as H'. destruct (k_out _ _ (O r H) d E1) as (W1 & D & Fu). destruct (k_inp _ _ (O _ H') E2) as (W2 & Fu2 & _).
  pose proof (posts_bound _ _ (O r H)). pose proof (posts_bound _ _ (O _ H')). pose proof two.
  assert (P1 : 1 <= posts (s r)) by (destruct (O r H) as [K _ _ _ _ _]; revert W1 K; unfold waiting, posts; destruct (at_ (s r)) as [|k|k| |]; try contradiction; intros; try lia; destruct (k <? N - 1); lia).
  assert (P2 : 1 <= posts (s (nextProc a r))) by (destruct (O _ H') as [K _ _ _ _ _]; revert W2 K; unfold waiting, posts; destruct (at_ (s (nextProc a r))) as [|k|k| |]; try contradiction; intros; try lia; destruct (k <? N - 1); lia).
  split; [|lia]. unfold linked, sends, gets in L. pose proof (L r H (posts (s r)) ltac:(lia)) as A. pose proof (L r H (posts (s (nextProc a r))) ltac:(lia) Fu2) as B.
  rewrite source_next in A by (try assumption; lia). subst d. specialize (A Fu). rewrite E1, E2 in A, B. lia.
Qed.
Lemma good_transfer s r d : r < N -> good s -> out (s r) = Some d -> inp (s (nextProc a r)) = true ->
  good (put (put s r (sent (s r))) (nextProc a r) (received d (put s r (sent (s r)) (nextProc a r)))).
Proof.
  intros H G E1 E2. destruct (matched s r d H G E1 E2) as [P [P1 P2]]. destruct G as [O L]. pose proof (next_lt r H) as H'. pose proof (next_neq r H) as Ne. set (n := nextProc a r) in *.
  rewrite (put_other s r _ n Ne). destruct (k_out _ _ (O r H) d E1) as (W1 & D & Fu). destruct (k_inp _ _ (O _ H') E2) as (W2 & Fu2 & Le).
  assert (Dn : d = blockAt n (posts (s n))). { rewrite D, <- P. unfold n. rewrite source_next by (try exact H; lia). reflexivity. }
  unfold received. replace (length d =? length (rcv (s n))) with true by (symmetry; apply Nat.eqb_eq; rewrite Dn; symmetry; exact Le).
  set (xr := sent (s r)). set (xn := Rank (at_ (s n)) (out (s n)) false d (copy (s n)) (res (s n))).
  assert (Pr : posts xr = posts (s r)) by reflexivity. assert (Pn : posts xn = posts (s n)) by reflexivity.
  split.
  - intros i Hi. destruct (Nat.eq_dec i n) as [->|D1].
    + rewrite put_same. destruct (O n H') as [K1 K2 K3 K4 K5 K6]. constructor; try assumption.
      * discriminate.
      * intros _ _. rewrite Pn. exact Dn.
    + rewrite put_other by exact D1. destruct (Nat.eq_dec i r) as [->|D2]; [|rewrite put_other by exact D2; apply O, Hi]. rewrite put_same. destruct (O r H) as [K1 K2 K3 K4 K5 K6]. constructor; try assumption. discriminate.
  - intros i Hi j Hj Fj. destruct (Nat.eq_dec i r) as [->|D2].
    + fold n in Fj |- *. rewrite put_same, put_other, put_same by auto. unfold sends, gets. rewrite Pr, Pn. cbn [xr xn out inp sent]. lia.
    + assert (D3 : nextProc a i <> n) by (intros Q; apply D2; apply next_inj; assumption). rewrite (put_other _ n _ (nextProc a i)) by exact D3.
      specialize (L i Hi j Hj Fj).
      assert (A : sends (put (put s r xr) n xn i) = sends (s i)).
      { destruct (Nat.eq_dec i n) as [->|D4]; [rewrite put_same; reflexivity|]. rewrite !put_other by assumption. reflexivity. }
      assert (B : gets (put s r xr (nextProc a i)) = gets (s (nextProc a i))).
      { destruct (Nat.eq_dec (nextProc a i) r) as [->|D4]; [rewrite put_same; reflexivity|]. rewrite put_other by exact D4. reflexivity. }
      rewrite A, B. exact L.
Qed.
Lemma good_step s t : good s -> step a s t -> good t.
Proof. intros G St. inversion St as [s0 r x H E|s0 r d H E1 E2]; subst; [apply good_act|apply good_transfer]; assumption. Qed.
Lemma good_initial result : good (initial result).
Proof.
  split.
  - intros r H. constructor; unfold initial, posts, written, waiting; cbn; auto; try discriminate; try lia; contradiction.
  - intros r H i Hi _. unfold sends, gets, initial, posts. cbn. lia.
Qed.
Lemma good_steps n s t : good s -> steps a n s t -> good t.
Proof. intros G H. induction H as [|n s t u H IH St]; [exact G|]. eapply good_step; [exact (IH G)|exact St]. Qed.

(** ** No deadlock *)
Lemma least (f : nat -> nat) n : 0 < n -> exists r, r < n /\ forall i, i < n -> f r <= f i.
Proof.
  induction n as [|n IH]; [lia|]. intros _. destruct (Nat.eq_dec n 0) as [->|Hn]; [exists 0; split; [lia|]; intros i Hi; replace i with 0 by lia; lia|].
  destruct (IH ltac:(lia)) as (r & Hr & M). destruct (Nat.le_gt_cases (f r) (f n)).
  - exists r. split; [lia|]. intros i Hi. destruct (Nat.eq_dec i n) as [->|]; [assumption|]. apply M. lia.
  - exists n. split; [lia|]. intros i Hi. destruct (Nat.eq_dec i n) as [->|]; [lia|]. specialize (M i ltac:(lia)). lia.
Qed.
Lemma stuck_out s r d : r < N -> good s -> out (s r) = Some d -> (forall t, ~ step a s t) -> posts (s (nextProc a r)) < posts (s r).
Proof.
  intros H G E St. pose proof (next_lt r H) as H'. destruct (inp (s (nextProc a r))) eqn:I; [destruct (St _ (step_transfer F a s r d H E I))|].
  destruct G as [O L]. destruct (k_out _ _ (O r H) d E) as (W1 & D & Fu). pose proof (posts_bound _ _ (O r H)). pose proof two.
  assert (P1 : 1 <= posts (s r)) by (destruct (O r H) as [K _ _ _ _ _]; revert W1 K; unfold waiting, posts; destruct (at_ (s r)) as [|k|k| |]; try contradiction; intros; try lia; destruct (k <? N - 1); lia).
  pose proof (L r H (posts (s r)) ltac:(lia)) as A. rewrite source_next in A by (try assumption; lia). subst d. specialize (A Fu). unfold sends, gets in A. rewrite E, I in A. lia.
Qed.
Lemma stuck_inp s r : r < N -> good s -> inp (s (nextProc a r)) = true -> (forall t, ~ step a s t) -> posts (s r) < posts (s (nextProc a r)).
Proof.
  intros H G I St. pose proof (next_lt r H) as H'. destruct (out (s r)) as [d|] eqn:E; [destruct (St _ (step_transfer F a s r d H E I))|].
  destruct G as [O L]. destruct (k_inp _ _ (O _ H') I) as (W2 & Fu2 & _). pose proof (posts_bound _ _ (O _ H')). pose proof two.
  assert (P2 : 1 <= posts (s (nextProc a r))) by (destruct (O _ H') as [K _ _ _ _ _]; revert W2 K; unfold waiting, posts; destruct (at_ (s (nextProc a r))) as [|k|k| |]; try contradiction; intros; try lia; destruct (k <? N - 1); lia).
  pose proof (L r H (posts (s (nextProc a r))) ltac:(lia) Fu2) as A. unfold sends, gets in A. rewrite E, I in A. lia.
Qed.
Lemma next_onto r : r < N -> exists i, i < N /\ nextProc a i = r.
Proof. intros H. pose proof two. destruct r as [|r]; [exists (N - 1)|exists r]; (split; [lia|]); unfold nextProc; [rewrite Nat.eqb_refl; reflexivity|]. replace (r =? N - 1) with false by (symmetry; apply Nat.eqb_neq; lia). lia. Qed.
Lemma acts_unless s r : r < N -> good s -> out (s r) = None -> inp (s r) = false -> at_ (s r) = Done \/ exists t, step a s t.
Proof.
  intros H [O _] E I. destruct (O r H) as [K _ _ _ _ _].
  assert (A : at_ (s r) = Done \/ exists x, act a r (s r) = Some x) by (unfold act; destruct (at_ (s r)) as [|k|k| |]; try contradiction; rewrite ?E, ?I; eauto).
  destruct A as [A|[x A]]; [left; exact A|right]. exists (put s r x). constructor; assumption.
Qed.
Lemma least_free s r : r < N -> good s -> (forall t, ~ step a s t) -> (forall i, i < N -> posts (s r) <= posts (s i)) -> out (s r) = None /\ inp (s r) = false.
Proof.
  intros H G St M. split.
  - destruct (out (s r)) as [d|] eqn:E; [|reflexivity]. pose proof (stuck_out s r d H G E St). specialize (M _ (next_lt r H)). lia.
  - destruct (inp (s r)) eqn:E; [|reflexivity]. destruct (next_onto r H) as (i & Hi & Q). rewrite <- Q in E. pose proof (stuck_inp s i Hi G E St). rewrite Q in *. specialize (M i Hi). lia.
Qed.
Lemma no_deadlock s : good s -> (forall t, ~ step a s t) -> forall r, r < N -> at_ (s r) = Done /\ out (s r) = None /\ inp (s r) = false.
Proof.
  intros G St. destruct (least (fun r => posts (s r)) N ltac:(pose proof two; lia)) as (m & Hm & M).
  destruct (least_free s m Hm G St M) as [E I]. destruct (acts_unless s m Hm G E I) as [D|[t T]]; [|destruct (St t T)].
  assert (P : forall r, r < N -> posts (s r) = N - 1).
  { intros r Hr. specialize (M r Hr). cbv beta in M. assert (Q : posts (s m) = N - 1) by (unfold posts; rewrite D; reflexivity). destruct G as [O _]. pose proof (posts_bound _ _ (O r Hr)). lia. }
  intros r Hr. destruct (least_free s r Hr G St) as [E' I']; [intros i Hi; rewrite !P by assumption; lia|]. destruct (acts_unless s r Hr G E' I') as [D'|[t T]]; [auto|destruct (St t T)].
Qed.
Lemma step_dec s : good s -> (forall r, r < N -> at_ (s r) = Done /\ out (s r) = None /\ inp (s r) = false) \/ exists t, step a s t.
Proof.
  intros G. assert (Find : forall n, n <= N -> (exists t, step a s t) \/ (forall r, r < n -> act a r (s r) = None /\ ~ (exists d, out (s r) = Some d /\ inp (s (nextProc a r)) = true))).
  { induction n as [|n IH]; intros Hn; [right; intros r Hr; lia|]. destruct (IH ltac:(lia)) as [T|T]; [left; exact T|].
    destruct (act a n (s n)) as [x|] eqn:A; [left; eexists; apply step_act; eassumption|].
    destruct (out (s n)) as [d|] eqn:E; [|right; intros r Hr; destruct (Nat.eq_dec r n) as [->|]; [split; [exact A|intros (d & Q & _); congruence]|apply T; lia]].
    destruct (inp (s (nextProc a n))) eqn:I; [left; eexists; apply (step_transfer F a s n d); eassumption|].
    right; intros r Hr; destruct (Nat.eq_dec r n) as [->|]; [split; [exact A|intros (d' & _ & Q); congruence]|apply T; lia]. }
  destruct (Find N (le_n N)) as [T|T]; [right; exact T|left]. apply no_deadlock; [exact G|]. intros t St. inversion St as [s0 r x Hr A|s0 r d Hr E I]; subst.
  - destruct (T r Hr) as [A' _]. congruence.
  - destruct (T r Hr) as [_ A']. apply A'. eauto.
Qed.

(** ** Every execution ends *)
Definition moves (s : rank F) : nat := match at_ s with Begin => 0 | Wait1 k => 2 * k - 1 | Wait2 k => 2 * k | Done => 2 * N - 1 | Failed => 0 end.
Definition weight (s : rank F) : nat := 2 * moves s + match out s with None => 1 | Some _ => 0 end.
Definition total s : nat := list_sum (map (fun r => weight (s r)) (seq 0 N)).
Lemma sum_put s r x : r < N -> total (put s r x) + weight (s r) = total s + weight x.
Proof.
  unfold total. generalize N. intros n. induction n as [|n IH]; intros H; [lia|]. rewrite seq_S, !map_app, !list_sum_app. cbn [map list_sum fold_right Nat.add].
  destruct (Nat.eq_dec r n) as [->|D].
  - rewrite put_same. assert (Q : map (fun i => weight (put s n x i)) (seq 0 n) = map (fun i => weight (s i)) (seq 0 n)).
    { apply map_ext_in. intros i Hi. apply in_seq in Hi. rewrite put_other by lia. reflexivity. }
    rewrite Q. lia.
  - rewrite (put_other s r x n) by auto. specialize (IH ltac:(lia)). lia.
Qed.
Lemma act_weight r (s : rank F) x : r < N -> ok r s -> act a r s = Some x -> weight s + 1 <= weight x.
Proof.
  intros H O E. pose proof two as T. pose proof (ok_begin r s O) as B0. destruct (act_ok r s x H O B0 E) as [Ox _]. destruct O as [O1 _ _ _ _ _]. unfold weight, moves. unfold act in E. destruct (at_ s) as [|k|k| |] eqn:A; try discriminate E.
  - destruct (B0 eq_refl) as [Eo _]. rewrite Eo. injection E as <-. unfold begin. rewrite store_ok by exact H. cbn [at_ out]. replace (1 <? N) with true by (symmetry; apply Nat.ltb_lt; lia). destruct (0 <? _); lia.
  - destruct (out s) eqn:E1; [discriminate E|]. destruct (inp s); [discriminate E|]. injection E as <-. cbn [relay at_ out]. destruct (_ && _); [|rewrite E1]; lia.
  - destruct (out s) eqn:E1; [discriminate E|]. injection E as <-. destruct Ox as [Ox _ _ _ _ _]. unfold multiplyBlock, store in *. cbv zeta in *. destruct (_ <=? _); [|contradiction]. cbn [at_ out]. rewrite E1.
    destruct (k + 1 <? N) eqn:C; [apply Nat.ltb_lt in C|apply Nat.ltb_ge in C]; lia.
Qed.
Lemma step_total s t : good s -> step a s t -> total s + 1 <= total t.
Proof.
  intros G St. inversion St as [s0 r x H E|s0 r d H E I]; subst.
  - destruct G as [O _]. pose proof (act_weight r (s r) x H (O r H) E). pose proof (sum_put s r x H). lia.
  - pose proof (good_transfer s r d H G E I) as [O' _]. pose proof (next_lt r H) as H'. pose proof (next_neq r H) as Ne.
    pose proof (sum_put (put s r (sent (s r))) (nextProc a r) (received d (put s r (sent (s r)) (nextProc a r))) H') as A. pose proof (sum_put s r (sent (s r)) H) as B.
    specialize (O' _ H'). rewrite put_same in O'. rewrite put_other in * by exact Ne. revert O' A. unfold received. destruct (_ =? _); [|intros [K _ _ _ _ _]; contradiction]. intros _ A.
    unfold weight in *. cbn [at_ out sent] in *. unfold moves in *. cbn [at_ sent] in *. rewrite E in *. lia.
Qed.
Lemma total_bound s : good s -> total s <= N * (4 * N - 1).
Proof.
  intros [O _]. pose proof two. assert (Q : forall n, n <= N -> list_sum (map (fun r => weight (s r)) (seq 0 n)) <= n * (4 * N - 1)); [|apply Q; lia].
  induction n as [|n IH]; intros Hn; [cbn; lia|]. rewrite seq_S, map_app, list_sum_app. cbn [map list_sum fold_right Nat.add]. specialize (IH ltac:(lia)).
  assert (W : weight (s n) <= 4 * N - 1). { destruct (O n ltac:(lia)) as [K _ _ _ _ _]. unfold weight, moves. destruct (at_ (s n)); try contradiction; destruct (out (s n)); lia. }
  nia.
Qed.
Lemma steps_total n s t : good s -> steps a n s t -> total s + n <= total t.
Proof. intros G H. induction H as [|n s t u H IH St]; [lia|]. pose proof (step_total t u (good_steps _ _ _ G H) St). specialize (IH G). lia. Qed.

(** ** The rows of the whole matrix *)
Lemma whole_nth g l : g < N -> l < length (i_left a g) -> nth (offset a g + l) (whole a) [] = nth l (i_left a g) [].
Proof.
  unfold whole. assert (Len : forall n, n <= N -> length (flat_map (i_left a) (seq 0 n)) = offset a n).
  { induction n as [|n IH]; intros Hn; [rewrite off_0; reflexivity|]. rewrite seq_S, flat_map_app, app_length. cbn [flat_map Nat.add]. rewrite app_nil_r, IH by lia. replace (S n) with (n + 1) by lia. rewrite off_S by lia. reflexivity. }
  intros G Hl. replace N with (g + (1 + (N - g - 1))) by lia. rewrite !seq_app, !flat_map_app. cbn [seq flat_map Nat.add]. rewrite app_nil_r.
  rewrite app_nth2 by (rewrite Len by lia; lia). rewrite Len by lia. rewrite app_nth1 by lia. f_equal. lia.
Qed.
Lemma row_owner x : x < i_p a -> exists g l, g < N /\ l < length (i_left a g) /\ x = offset a g + l.
Proof.
  intros H. destruct Dist as (_ & _ & P & _). rewrite <- P in H. fold (offset a N) in H.
  assert (Q : forall n, n <= N -> x < offset a n -> exists g l, g < n /\ l < length (i_left a g) /\ x = offset a g + l).
  { induction n as [|n IH]; intros Hn Hx; [rewrite off_0 in Hx; lia|]. destruct (Nat.lt_ge_cases x (offset a n)) as [L|L].
    - destruct (IH ltac:(lia) L) as (g & l & ? & ? & ?). exists g, l. lia.
    - replace (S n) with (n + 1) in Hx by lia. rewrite off_S in Hx by lia. exists n, (x - offset a n). lia. }
  exact (Q N (le_n N) H).
Qed.
Lemma final_rows s r x : good s -> r < N -> at_ (s r) = Done -> x < i_p a -> res (s r) x = rowTimes a r (nth x (whole a) []).
Proof.
  intros [O _] H D Hx. destruct (row_owner x Hx) as (g & l & G & L & ->). rewrite whole_nth by assumption. destruct (source_all r g H G) as (k & Hk & <-).
  apply (k_res _ _ (O r H)); [unfold written; rewrite D; exact Hk|exact L].
Qed.
End P.

Section Columns.
Variable F : field.
Add Field KD : (K_theory F).
Implicit Types (a : columns F) (A B : nat -> nat -> F).
Lemma fsum_app n m (f : nat -> F) : fsum (n + m) f = add (fsum n f) (fsum m (fun e => f (n + e))).
Proof. induction m as [|m IH]; [rewrite Nat.add_0_r; cbn [fsum]; ring|]. rewrite Nat.add_succ_r. cbn [fsum]. rewrite IH. ring. Qed.
Lemma fsum_parts (n : nat -> nat) (f : nat -> F) : forall N, fsum (list_sum (map n (seq 0 N))) f = fsum N (fun k => fsum (n k) (fun e => f (list_sum (map n (seq 0 k)) + e))).
Proof.
  induction N as [|N IH]; [reflexivity|]. rewrite seq_S, map_app, list_sum_app. cbn [map list_sum fold_right Nat.add]. rewrite Nat.add_0_r, fsum_app, IH. reflexivity.
Qed.
Lemma sum_local a A B i j : gathers a A B -> fsum (c_N a) (localDot a i j) = entryOf a A B i j.
Proof.
  intros G. unfold entryOf. rewrite fsum_parts. apply fsum_ext. intros k Hk. unfold localDot. apply fsum_ext. intros e He. destruct (G k e Hk He) as [-> ->]. reflexivity.
Qed.
Lemma running_mono N n offsets : running N n offsets -> forall k d, k + d <= N -> nth k offsets 0 <= nth (k + d) offsets 0.
Proof. intros (_ & _ & R) k d. induction d as [|d IH]; intros H; [rewrite Nat.add_0_r; lia|]. replace (k + S d) with (k + d + 1) by lia. rewrite R by lia. specialize (IH ltac:(lia)). lia. Qed.
Lemma find_ok N n offsets i : running N n offsets -> forall g rank fuel, rank <= g -> g < N -> g - rank <= fuel -> nth g offsets 0 <= i -> i < nth (g + 1) offsets 0 -> findRank offsets i rank fuel = Some g.
Proof.
  intros R g. pose proof R as (Len & _ & _). assert (At : forall m, m <= N -> nth_error offsets m = Some (nth m offsets 0)) by (intros; apply nth_error_nth'; lia).
  intros rank fuel. revert rank. induction fuel as [|fuel IH]; intros rank Hr Hg Hf H1 H2.
  - assert (rank = g) by lia. subst. cbn [findRank]. rewrite At by lia. replace (_ <=? i) with false by (symmetry; apply Nat.leb_gt; lia). reflexivity.
  - cbn [findRank]. rewrite At by lia. destruct (Nat.eq_dec rank g) as [->|D].
    + replace (_ <=? i) with false by (symmetry; apply Nat.leb_gt; lia). reflexivity.
    + replace (_ <=? i) with true; [apply IH; lia|]. symmetry. apply Nat.leb_le. pose proof (running_mono _ _ _ R (rank + 1) (g - (rank + 1)) ltac:(lia)) as M. replace (rank + 1 + (g - (rank + 1))) with g in M by lia. lia.
Qed.
Lemma find_none N n offsets i : running N n offsets -> nth N offsets 0 <= i -> forall fuel rank, rank <= N -> findRank offsets i rank fuel = None.
Proof.
  intros R H. pose proof R as (Len & _ & _). induction fuel as [|fuel IH]; intros rank Hr; cbn [findRank];
  (destruct (nth_error offsets (rank + 1)) as [o|] eqn:E; [|reflexivity]); pose proof E as E2; apply (nth_error_nth _ _ 0) in E; assert (rank + 1 < length offsets) by (apply nth_error_Some; congruence);
  pose proof (running_mono _ _ _ R (rank + 1) (N - (rank + 1)) ltac:(lia)) as M; replace (rank + 1 + (N - (rank + 1))) with N in M by lia; replace (o <=? i) with true by (symmetry; apply Nat.leb_le; lia); [reflexivity|apply IH; lia].
Qed.
Lemma owner N n offsets i : running N n offsets -> i < nth N offsets 0 -> exists g, g < N /\ nth g offsets 0 <= i < nth (g + 1) offsets 0.
Proof.
  intros (_ & Z & R) H. assert (Q : forall m, m <= N -> i < nth m offsets 0 -> exists g, g < m /\ nth g offsets 0 <= i < nth (g + 1) offsets 0).
  { induction m as [|m IH]; intros Hm Hi; [rewrite Z in Hi; lia|]. destruct (Nat.lt_ge_cases i (nth m offsets 0)) as [L|L].
    - destruct (IH ltac:(lia) L) as (g & Hg & B). exists g. split; [lia|exact B].
    - exists m. split; [lia|]. replace (m + 1) with (S m) by lia. lia. }
  exact (Q N (le_n N) H).
Qed.
Lemma dot_loop a n me A B : running (c_N a) n (c_offsets a) -> gathers a A B -> me < c_N a -> forall is m, (forall i, In i is -> i < nth (c_N a) (c_offsets a) 0) ->
  exists m', dotLoop a me is m = Some m' /\ forall l, l < n me ->
    (In (nth me (c_offsets a) 0 + l) is -> exists v, m' l = Some v /\ forall j, v j = entryOf a A B (nth me (c_offsets a) 0 + l) j) /\
    (~ In (nth me (c_offsets a) 0 + l) is -> m' l = m l).
Proof.
  intros R G Hme. induction is as [|i is IH]; intros m Hi; [exists m; split; [reflexivity|]; intros l Hl; split; [intros []|reflexivity]|].
  destruct (owner _ _ _ i R (Hi i (or_introl eq_refl))) as (g & Hg & B1). cbn [dotLoop]. rewrite (find_ok _ _ _ i R g 0 (length (c_offsets a))); [|lia|exact Hg| |lia|lia]; [|destruct R as (Len & _); lia].
  set (m1 := if me =? g then _ else _). destruct (IH m1 (fun i' H => Hi i' (or_intror H))) as (m' & E & P). exists m'. split; [exact E|]. intros l Hl. destruct (P l Hl) as [P1 P2].
  assert (Rme : nth (me + 1) (c_offsets a) 0 = nth me (c_offsets a) 0 + n me) by (destruct R as (_ & _ & R); apply R, Hme).
  destruct (in_dec Nat.eq_dec (nth me (c_offsets a) 0 + l) is) as [I|I].
  - split; [intros _; apply P1, I|intros Nt; destruct Nt; right; exact I].
  - specialize (P2 I). split.
    + intros [->|C]; [|contradiction]. assert (me = g).
      { destruct (Nat.lt_trichotomy me g) as [L|[Q|L]]; [|exact Q|]; exfalso.
        - pose proof (running_mono _ _ _ R (me + 1) (g - (me + 1)) ltac:(lia)) as M. replace (me + 1 + (g - (me + 1))) with g in M by lia. lia.
        - pose proof (running_mono _ _ _ R (g + 1) (me - (g + 1)) ltac:(lia)) as M. replace (g + 1 + (me - (g + 1))) with me in M by lia. lia. }
      subst g. rewrite P2. unfold m1. rewrite Nat.eqb_refl. replace (l =? _) with true by (symmetry; apply Nat.eqb_eq; lia). eexists. split; [reflexivity|]. intros j. apply sum_local, G.
    + intros C. rewrite P2. unfold m1. destruct (me =? g) eqn:Q; [|reflexivity]. apply Nat.eqb_eq in Q. subst g. replace (l =? _) with false; [reflexivity|]. symmetry. apply Nat.eqb_neq. intros ->. apply C. left. lia.
Qed.
Lemma blocks_ok a n me A B : running (c_N a) n (c_offsets a) -> gathers a A B -> me < c_N a ->
  length (multiplyBlocks a me) = n me /\ forall l v, nth_error (multiplyBlocks a me) l = Some v -> forall j, v j = entryOf a A B (nth me (c_offsets a) 0 + l) j.
Proof.
  intros (Len & Z & R) G Hme. specialize (R me Hme). unfold multiplyBlocks, sendRows. destruct (me =? 0) eqn:E.
  - apply Nat.eqb_eq in E. subst me. rewrite Z in R |- *. cbn [Nat.add] in *. rewrite map_length, seq_length. split; [exact R|]. intros l v H j. rewrite nth_error_map in H. destruct (nth_error (seq 0 _) l) as [x|] eqn:Q; [|discriminate H]. injection H as <-.
    assert (Hl : l < length (seq 0 (nth 1 (c_offsets a) 0))) by (apply nth_error_Some; congruence). rewrite seq_length in Hl. apply (nth_error_nth _ _ 0) in Q. rewrite seq_nth in Q by exact Hl. subst x. apply sum_local, G.
  - rewrite map_length, seq_length. split; [lia|]. intros l v H j. rewrite nth_error_map in H. destruct (nth_error (seq 0 _) l) as [x|] eqn:Q; [|discriminate H]. injection H as <-.
    assert (Hl : l < length (seq 0 (nth (me + 1) (c_offsets a) 0 - nth me (c_offsets a) 0))) by (apply nth_error_Some; congruence). rewrite seq_length in Hl. apply (nth_error_nth _ _ 0) in Q. rewrite seq_nth in Q by exact Hl. subst x. apply sum_local, G.
Qed.
End Columns.
