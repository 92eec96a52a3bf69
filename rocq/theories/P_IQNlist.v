(** Lists of columns: removing several at once. *)
From Coq Require Import List Arith Lia Bool Sorted ListDec.
From Verif Require Import S_Field M_QR S_QR M_IQN P_QR P_QRfilter.
From Verif Require M_QN.
Import ListNotations.

Definition rm {A} (is : list nat) (l : list A) : list A := fold_left (fun l i => delete_at i l) is l.
Lemma rm_app {A} is js (l : list A) : rm (is ++ js) l = rm js (rm is l).
Proof. unfold rm. apply fold_left_app. Qed.
Lemma delete_cons {A} k (x : A) l : delete_at (S k) (x :: l) = x :: delete_at k l.
Proof. reflexivity. Qed.
Lemma without_none {A} (l : list A) : forall i, without_from i [] l = l.
Proof. induction l as [|x l IH]; intros i; [reflexivity|]. rewrite without_cons. cbn [existsb]. rewrite IH. reflexivity. Qed.
Lemma delete_without {A} (l : list A) d del : forall i, (forall x, In x del -> d < x) -> i <= d -> delete_at (d - i) (without_from i del l) = without_from i (d :: del) l.
Proof.
  induction l as [|x l IH]; intros i Hd Hi.
  - unfold delete_at. rewrite !without_nil. destruct (d - i); reflexivity.
  - rewrite !without_cons. rewrite existsb_above by (intros y Hy; apply Hd in Hy; lia). cbn [existsb].
    destruct (Nat.eqb_spec i d) as [->|N].
    + rewrite Nat.sub_diag. cbn [orb]. unfold delete_at. cbn [firstn skipn app]. rewrite without_smaller by lia. reflexivity.
    + cbn [orb]. rewrite existsb_above by (intros y Hy; apply Hd in Hy; lia). replace (d - i) with (S (d - S i)) by lia. rewrite delete_cons, IH; [reflexivity|exact Hd|lia].
Qed.
Lemma rm_sorted {A} (l : list A) del : StronglySorted lt del -> rm (rev del) l = without del l.
Proof.
  induction 1 as [|d del S IH H]; [symmetry; apply (without_none l 0)|]. cbn [rev]. rewrite rm_app, IH. cbn [rm fold_left].
  change (without del l) with (without_from 0 del l). rewrite <- (Nat.sub_0_r d) at 1. rewrite delete_without; [reflexivity| |lia].
  rewrite Forall_forall in H. exact H.
Qed.
Lemma without_map {A B} (f : A -> B) del l : without del (map f l) = map f (without del l).
Proof.
  change (without_from 0 del (map f l) = map f (without_from 0 del l)). generalize 0. induction l as [|x l IH]; intros i; [reflexivity|].
  cbn [map]. rewrite !without_cons. destruct (existsb _ _); [apply IH|]. cbn [map]. rewrite IH. reflexivity.
Qed.
Lemma without_ext {A} del del' (l : list A) : (forall x, In x del <-> In x del') -> without del l = without del' l.
Proof.
  intros H. change (without_from 0 del l = without_from 0 del' l). generalize 0. induction l as [|x l IH]; intros i; [reflexivity|]. rewrite !without_cons, IH.
  replace (existsb (Nat.eqb i) del') with (existsb (Nat.eqb i) del); [reflexivity|]. apply eq_true_iff_eq. rewrite !existsb_exists. split; intros [y [A1 B]]; exists y; (split; [apply H, A1|exact B]).
Qed.
Lemma delete_map {A B} (f : A -> B) k l : delete_at k (map f l) = map f (delete_at k l).
Proof. unfold delete_at. rewrite map_app, firstn_map, skipn_map. reflexivity. Qed.
Lemma rm_map {A B} (f : A -> B) is l : rm is (map f l) = map f (rm is l).
Proof. revert l. induction is as [|i is IH]; intros l; [reflexivity|]. cbn [rm fold_left]. rewrite delete_map. apply IH. Qed.
Lemma Forall2_delete {A B} (R : A -> B -> Prop) k l m : Forall2 R l m -> Forall2 R (delete_at k l) (delete_at k m).
Proof.
  intros H. revert k. induction H as [|a b l m Hab H IH]; intros k; [destruct k; constructor|]. destruct k as [|k]; [exact H|]. rewrite !delete_cons. constructor; [exact Hab|apply IH].
Qed.
Lemma Forall2_rm {A B} (R : A -> B -> Prop) is : forall l m, Forall2 R l m -> Forall2 R (rm is l) (rm is m).
Proof. induction is as [|i is IH]; intros l m H; [exact H|]. cbn [rm fold_left]. apply IH, Forall2_delete, H. Qed.
Lemma removelast_delete {A} (l : list A) : delete_at (length l - 1) l = removelast l.
Proof.
  destruct l as [|x l]; [reflexivity|]. cbn [length]. replace (S (length l) - 1) with (length l) by lia. revert x. induction l as [|y l IH]; intros x; [reflexivity|].
  cbn [length]. rewrite delete_cons, IH. reflexivity.
Qed.
Lemma removelast_map {A B} (f : A -> B) l : removelast (map f l) = map f (removelast l).
Proof. induction l as [|x l IH]; [reflexivity|]. cbn [map removelast]. destruct l; [reflexivity|]. cbn [map] in *. rewrite IH. reflexivity. Qed.
Lemma removelast_length {A} (l : list A) : length (removelast l) = length l - 1.
Proof. rewrite <- removelast_delete. destruct l as [|x l]; [reflexivity|]. rewrite length_delete; cbn [length]; lia. Qed.
Lemma Forall2_len {A B} (R : A -> B -> Prop) l m : Forall2 R l m -> length l = length m.
Proof. induction 1; [reflexivity|]. cbn [length]. congruence. Qed.
Lemma Forall2_removelast {A B} (R : A -> B -> Prop) l m : Forall2 R l m -> Forall2 R (removelast l) (removelast m).
Proof. intros H. rewrite <- !removelast_delete. rewrite (Forall2_len _ _ _ H). apply Forall2_delete, H. Qed.

(** sorting *)
Lemma in_insertSorted i l x : In x (insertSorted i l) <-> x = i \/ In x l.
Proof.
  induction l as [|j l IH]; [cbn; intuition|]. cbn [insertSorted]. destruct (i <=? j); cbn [In]; [intuition|]. rewrite IH. intuition.
Qed.
Lemma insertSorted_sorted i l : ~ In i l -> StronglySorted lt l -> StronglySorted lt (insertSorted i l).
Proof.
  intros N H. induction H as [|j l S IH HJ]; [repeat constructor|]. cbn [insertSorted]. destruct (Nat.leb_spec i j) as [L|L].
  - constructor; [constructor; assumption|]. assert (i < j) by (destruct (Nat.eq_dec i j); [subst; exfalso; apply N; left; reflexivity|lia]).
    constructor; [assumption|]. rewrite Forall_forall in *. intros x Hx. apply HJ in Hx. lia.
  - constructor; [apply IH; intros Hi; apply N; right; exact Hi|]. rewrite Forall_forall in *. intros x Hx. apply in_insertSorted in Hx. destruct Hx as [->|Hx]; [lia|apply HJ, Hx].
Qed.
Lemma in_sortIndices l x : In x (sortIndices l) <-> In x l.
Proof. induction l as [|j l IH]; [reflexivity|]. cbn [sortIndices fold_right]. rewrite in_insertSorted. fold (sortIndices l). rewrite IH. cbn. intuition. Qed.
Lemma insertSorted_length i l : length (insertSorted i l) = S (length l).
Proof. induction l as [|j l IH]; [reflexivity|]. cbn [insertSorted]. destruct (i <=? j); cbn [length]; [reflexivity|]. rewrite IH. reflexivity. Qed.
Lemma sortIndices_length l : length (sortIndices l) = length l.
Proof. induction l as [|j l IH]; [reflexivity|]. cbn [sortIndices fold_right length]. rewrite insertSorted_length. fold (sortIndices l). rewrite IH. reflexivity. Qed.
Lemma sortIndices_sorted l : NoDup l -> StronglySorted lt (sortIndices l).
Proof. induction 1 as [|i l N D IH]; [constructor|]. cbn [sortIndices fold_right]. apply insertSorted_sorted; [rewrite in_sortIndices; exact N|exact IH]. Qed.
Lemma without_length {A} (l : list A) : forall i del, length l <= length (without_from i del l) + length del.
Proof.
  induction l as [|x l IH]; intros i del; [cbn; lia|]. rewrite without_cons. destruct (existsb (Nat.eqb i) del) eqn:E.
  - apply existsb_exists in E. destruct E as [y [Hy Ey]]. apply Nat.eqb_eq in Ey. subst y.
    apply in_split in Hy. destruct Hy as [d1 [d2 ->]].
    replace (without_from (S i) (d1 ++ i :: d2) l) with (without_from (S i) (d1 ++ d2) l).
    + specialize (IH (S i) (d1 ++ d2)). rewrite app_length in *. cbn [length]. lia.
    + clear IH. assert (G : forall l k, i < k -> without_from k (d1 ++ d2) l = @without_from A k (d1 ++ i :: d2) l).
      { clear. induction l as [|x l IH]; intros k Hk; [reflexivity|]. rewrite !without_cons, IH by lia. rewrite !existsb_app. cbn [existsb]. rewrite (proj2 (Nat.eqb_neq k i)) by lia. reflexivity. }
      apply G. lia.
  - cbn [length]. specialize (IH (S i) del). lia.
Qed.
Lemma no_duplicates {A} (l : list A) del : length (without del l) + length del = length l -> NoDup del.
Proof.
  intros H. destruct (ListDec.NoDup_decidable (fun a b => match Nat.eq_dec a b with left e => or_introl e | right f => or_intror f end) del) as [D|D]; [exact D|exfalso].
  assert (G : length (nodup Nat.eq_dec del) < length del).
  { clear H. induction del as [|d del IH]; [exfalso; apply D; constructor|]. cbn [nodup]. destruct (in_dec Nat.eq_dec d del) as [I|I].
    - cbn [length]. assert (length (nodup Nat.eq_dec del) <= length del); [|lia]. clear. induction del as [|d del IH]; [cbn; lia|]. cbn [nodup]. destruct (in_dec _ _ _); cbn [length]; lia.
    - cbn [length]. assert (~ NoDup del) as D' by (intros N; apply D; constructor; assumption). specialize (IH D'). lia. }
  pose proof (without_length l 0 (nodup Nat.eq_dec del)) as L.
  change (without_from 0 (nodup Nat.eq_dec del) l) with (without (nodup Nat.eq_dec del) l) in L. rewrite (without_ext (nodup Nat.eq_dec del) del) in L by (intros x; apply nodup_In). lia.
Qed.

Section P.
Variable F : field.
Variable hyp : F -> F -> F.
Variable norm : nat -> (nat -> F) -> F.
Variable tiny : F -> bool.
Variable again : F -> F -> (nat -> F) -> bool.
Variable singular : (nat -> nat -> F) -> nat -> nat -> bool.
Lemma insertAll_sorted drop V : forall i s s' del, insertAll hyp norm tiny again drop i V s = Some (s', del) -> StronglySorted lt del /\ (forall d, In d del -> i <= d).
Proof.
  induction V as [|v V IH]; intros i s s' del; cbn [insertAll].
  - intros [= <- <-]. split; [constructor|intros d []].
  - destruct (insertColumn hyp norm tiny again (cols s) v drop s) as [[b s1]|]; [|discriminate].
    destruct (insertAll hyp norm tiny again drop (S i) V s1) as [[s2 del']|] eqn:E; [|discriminate]. intros [= <- <-]. destruct (IH _ _ _ _ E) as [S1 D1]. destruct b.
    + split; [exact S1|]. intros d Hd. apply D1 in Hd. lia.
    + split; [constructor; [exact S1|]; rewrite Forall_forall; intros d Hd; apply D1 in Hd; lia|]. intros d [<-|Hd]; [lia|apply D1 in Hd; lia].
Qed.
Hypothesis HR : roots_ok hyp norm.
Lemma filter_count n V : forall fuel flags s s' d, length flags = length V -> factorizes n (keep flags V) s ->
  qr1Filter hyp singular fuel flags s = Some (s', d) -> length (keep (raised 0 flags d) V) + length d = length (keep flags V).
Proof.
  induction fuel as [|fuel IH]; intros flags s s' d Hl Fs; cbn [qr1Filter]; [discriminate|].
  destruct (1 <? cols s).
  2: { intros [= <- <-]. rewrite raised_nil. cbn [length]. lia. }
  destruct (round_ok F hyp norm singular HR n flags V 0 [] s Hl Fs) as [s1 [d1 [E [F1 [D1 L1]]]]]. cbn [length] in E. rewrite E.
  destruct d1 as [|d0 d1].
  - intros [= <- <-]. exact L1.
  - destruct (qr1Filter hyp singular fuel (raised 0 flags (d0 :: d1)) s1) as [[s2 d2]|] eqn:E2; [|discriminate]. intros [= <- <-].
    apply IH in E2; [|rewrite raised_length; exact Hl|exact F1]. rewrite raised_raised in E2. change (d0 :: d1 ++ d2) with ((d0 :: d1) ++ d2). rewrite app_length. lia.
Qed.
Lemma qr1_count n V s s' d : factorizes n V s -> applyQR1 hyp singular s = Some (s', d) -> length (without d V) + length d = length V.
Proof.
  intros Fs. unfold applyQR1. assert (Hc : cols s = length V) by apply Fs. rewrite Hc. intros E. apply (filter_count n V) in E; [|apply repeat_length|rewrite keep_all; exact Fs].
  rewrite keep_raised, keep_all in E. exact E.
Qed.
End P.
