(** Rebuilding and filtering a QR factorization. *)
From Coq Require Import Field Field_theory List Arith Lia Bool.
From Verif Require Import S_Field M_QR S_QR P_Field P_Dim P_QR.
Import ListNotations.

Definition without_from {A} (i : nat) (del : list nat) (l : list A) : list A :=
  map snd (filter (fun p => negb (existsb (Nat.eqb (fst p)) del)) (combine (seq i (length l)) l)).
Lemma without_nil {A} i del : @without_from A i del [] = [].
Proof. reflexivity. Qed.
Lemma without_cons {A} i del (x : A) l : without_from i del (x :: l) = if existsb (Nat.eqb i) del then without_from (S i) del l else x :: without_from (S i) del l.
Proof. unfold without_from. cbn [length seq combine filter fst]. destruct (existsb (Nat.eqb i) del); reflexivity. Qed.
Lemma existsb_above i del : (forall d, In d del -> i < d) -> existsb (Nat.eqb i) del = false.
Proof.
  intros H. destruct (existsb (Nat.eqb i) del) eqn:E; [|reflexivity]. apply existsb_exists in E. destruct E as [d [A B]]. apply Nat.eqb_eq in B. apply H in A. lia.
Qed.
Lemma without_smaller {A} (l : list A) d0 del : forall i, d0 < i -> without_from i (d0 :: del) l = without_from i del l.
Proof.
  induction l as [|x l IH]; intros i Hi; [reflexivity|]. rewrite !without_cons. cbn [existsb]. rewrite (proj2 (Nat.eqb_neq i d0) ltac:(lia)). cbn [orb].
  rewrite IH by lia. reflexivity.
Qed.

Section P.
Variable F : field.
Variable hyp : F -> F -> F.
Variable norm : nat -> (nat -> F) -> F.
Variable tiny : F -> bool.
Variable again : F -> F -> (nat -> F) -> bool.
Variable singular : (nat -> nat -> F) -> nat -> nat -> bool.
Hypothesis HR : roots_ok hyp norm.
Hypothesis HT : tiny_ok tiny.

Lemma empty_ok n : factorizes n [] (@empty F n).
Proof. split; [reflexivity|]. split; [reflexivity|]. cbn. split; [intros i j A; lia|]. split; [split; intros; lia|intros e j A B; lia]. Qed.

Lemma insertAll_ok n drop V : forall i W s, factorizes n W s ->
  exists s' del, insertAll hyp norm tiny again drop i V s = Some (s', del) /\ factorizes n (W ++ without_from i del V) s' /\
    (forall d, In d del -> i <= d < i + length V).
Proof.
  induction V as [|v V IH]; intros i W s Fs; cbn [insertAll].
  - exists s, []. split; [reflexivity|]. rewrite without_nil, app_nil_r. split; [exact Fs|intros d []].
  - assert (Hc : cols s = length W) by apply Fs.
    destruct (insert_ok F hyp norm tiny again HR HT n W s (cols s) v drop Fs ltac:(lia)) as [b [s1 [E1 [F1 _]]]]. rewrite E1.
    destruct b.
    + rewrite Hc in F1. unfold insert_at in F1. rewrite firstn_all, skipn_all in F1.
      destruct (IH (S i) _ _ F1) as [s2 [del [E2 [F2 D2]]]]. rewrite E2. exists s2, del. split; [reflexivity|]. split.
      * rewrite without_cons, existsb_above by (intros d Hd; apply D2 in Hd; lia). rewrite <- app_assoc in F2. exact F2.
      * intros d Hd. apply D2 in Hd. cbn [length]. lia.
    + destruct (IH (S i) _ _ F1) as [s2 [del [E2 [F2 D2]]]]. rewrite E2. exists s2, (i :: del). split; [reflexivity|]. split.
      * rewrite without_cons. cbn [existsb]. rewrite Nat.eqb_refl. cbn [orb]. rewrite without_smaller by lia. exact F2.
      * intros d [<-|Hd]; [cbn [length]; lia|]. apply D2 in Hd. cbn [length]. lia.
Qed.

(** * The QR1 filter *)
Definition keep {A} (flags : list bool) (l : list A) : list A := map snd (filter (fun p => negb (fst p)) (combine flags l)).
Lemma keep_cons {A} b flags (x : A) l : keep (b :: flags) (x :: l) = if b then keep flags l else x :: keep flags l.
Proof. unfold keep. cbn [combine filter fst]. destruct b; reflexivity. Qed.
(** the flags [f'] are the flags [f] with those of the numbers in [d] raised; the first flag has number [i] *)
Fixpoint raised (i : nat) (f : list bool) (d : list nat) : list bool :=
  match f with [] => [] | b :: r => (b || existsb (Nat.eqb i) d) :: raised (S i) r d end.
Lemma raised_length i f d : length (raised i f d) = length f.
Proof. revert i. induction f as [|b f IH]; intros i; [reflexivity|]. cbn [raised length]. rewrite IH. reflexivity. Qed.
Lemma raised_smaller f d0 d : forall i, d0 < i -> raised i f (d0 :: d) = raised i f d.
Proof. induction f as [|b f IH]; intros i Hi; [reflexivity|]. cbn [raised existsb]. rewrite (proj2 (Nat.eqb_neq i d0) ltac:(lia)), IH by lia. reflexivity. Qed.
Lemma raised_raised f d d' : forall i, raised i (raised i f d) d' = raised i f (d ++ d').
Proof. induction f as [|b f IH]; intros i; [reflexivity|]. cbn [raised]. rewrite IH, existsb_app, orb_assoc. reflexivity. Qed.
Lemma raised_nil f : forall i, raised i f [] = f.
Proof. induction f as [|b f IH]; intros i; [reflexivity|]. cbn [raised existsb]. rewrite IH, orb_false_r. reflexivity. Qed.
Lemma keep_raised {A} (l : list A) d : forall i, keep (raised i (repeat false (length l)) d) l = without_from i d l.
Proof.
  induction l as [|x l IH]; intros i; [reflexivity|]. cbn [length repeat raised]. rewrite without_cons, keep_cons, IH. cbn [orb]. destruct (existsb _ _); reflexivity.
Qed.

Lemma round_ok n : forall flags V i W s, length flags = length V -> factorizes n (W ++ keep flags V) s ->
  exists s' d, qr1Round hyp singular flags i (length W) s = Some (raised i flags d, s', d) /\
    factorizes n (W ++ keep (raised i flags d) V) s' /\ (forall x, In x d -> i <= x < i + length flags) /\
    length (keep (raised i flags d) V) + length d = length (keep flags V).
Proof.
  induction flags as [|b flags IH]; intros V i W s Hl Fs; destruct V as [|v V]; try discriminate.
  - cbn [qr1Round]. exists s, []. split; [reflexivity|]. split; [exact Fs|]. split; [intros x []|reflexivity].
  - injection Hl as Hl. destruct b; cbn [qr1Round].
    + rewrite keep_cons in Fs. destruct (IH V (S i) W s Hl Fs) as [s' [d [E [F1 [D1 L1]]]]]. rewrite E.
      exists s', d. cbn [raised orb]. split; [reflexivity|]. rewrite !keep_cons. split; [exact F1|]. split; [|exact L1].
      intros x Hx. apply D1 in Hx. cbn [length]. lia.
    + rewrite keep_cons in Fs. assert (Hc : cols s = length (W ++ v :: keep flags V)) by apply Fs.
      rewrite app_length in Hc. cbn [length] in Hc.
      rewrite (proj2 (Nat.leb_gt (cols s) (length W)) ltac:(lia)).
      destruct (singular (Rm s) (cols s) (length W)).
      * destruct (delete_ok F hyp norm HR n _ s (length W) Fs) as [s1 [E1 F1]]; [rewrite app_length; cbn [length]; lia|]. rewrite E1.
        unfold delete_at in F1. rewrite firstn_app, Nat.sub_diag, firstn_O, app_nil_r, firstn_all in F1.
        rewrite skipn_app, skipn_all2, Nat.sub_succ_l, Nat.sub_diag in F1 by lia. cbn [skipn app] in F1.
        destruct (IH V (S i) W s1 Hl F1) as [s' [d [E [F2 [D2 L2]]]]]. rewrite E.
        exists s', (i :: d). cbn [raised existsb]. rewrite Nat.eqb_refl. cbn [orb]. rewrite raised_smaller by lia. split; [reflexivity|].
        rewrite !keep_cons. split; [exact F2|]. split; [|cbn [length]; lia].
        intros x [<-|Hx]; [cbn [length]; lia|]. apply D2 in Hx. cbn [length]. lia.
      * destruct (IH V (S i) (W ++ [v]) s Hl) as [s' [d [E [F2 [D2 L2]]]]]; [rewrite <- app_assoc; exact Fs|].
        rewrite app_length in E. cbn [length] in E. rewrite Nat.add_1_r in E. rewrite E. exists s', d. cbn [raised].
        rewrite existsb_above by (intros x Hx; apply D2 in Hx; lia). cbn [orb]. split; [reflexivity|]. rewrite !keep_cons. split; [rewrite <- app_assoc in F2; exact F2|].
        split; [|cbn [length]; lia]. intros x Hx. apply D2 in Hx. cbn [length]. lia.
Qed.

Lemma filter_ok n V : forall fuel flags s, length flags = length V -> factorizes n (keep flags V) s -> length (keep flags V) < fuel ->
  exists s' d, qr1Filter hyp singular fuel flags s = Some (s', d) /\ factorizes n (keep (raised 0 flags d) V) s' /\ (forall x, In x d -> x < length V).
Proof.
  induction fuel as [|fuel IH]; intros flags s Hl Fs Hf; [lia|]. cbn [qr1Filter].
  destruct (1 <? cols s).
  2: { exists s, []. split; [reflexivity|]. rewrite raised_nil. split; [exact Fs|intros x []]. }
  destruct (round_ok n flags V 0 [] s Hl Fs) as [s1 [d [E [F1 [D1 L1]]]]]. cbn [length] in E. rewrite E.
  destruct d as [|d0 d].
  - exists s1, []. split; [reflexivity|]. split; [exact F1|intros x []].
  - destruct (IH (raised 0 flags (d0 :: d)) s1) as [s2 [d' [E2 [F2 D2]]]]; [rewrite raised_length; exact Hl|exact F1|cbn [length] in L1; lia|].
    rewrite E2. exists s2, ((d0 :: d) ++ d'). split; [reflexivity|]. rewrite <- raised_raised. split; [exact F2|].
    intros x Hx. apply in_app_or in Hx. destruct Hx as [Hx|Hx]; [apply D1 in Hx; lia|apply D2, Hx].
Qed.
Lemma keep_all {A} (l : list A) : keep (repeat false (length l)) l = l.
Proof. induction l as [|x l IH]; [reflexivity|]. cbn [length repeat]. rewrite keep_cons, IH. reflexivity. Qed.
Lemma qr1_ok n V s : factorizes n V s -> exists s' d, applyQR1 hyp singular s = Some (s', d) /\ factorizes n (without d V) s' /\ (forall x, In x d -> x < length V).
Proof.
  intros Fs. unfold applyQR1. assert (Hc : cols s = length V) by apply Fs. rewrite Hc.
  destruct (filter_ok n V (S (length V)) (repeat false (length V)) s) as [s' [d [E [F1 D1]]]].
  - apply repeat_length.
  - rewrite keep_all. exact Fs.
  - rewrite keep_all. lia.
  - exists s', d. split; [exact E|]. split; [|exact D1]. rewrite keep_raised in F1. exact F1.
Qed.
End P.
