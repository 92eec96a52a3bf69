(** Proofs about the names of the address files. *)
From Coq Require Import List Arith ZArith Lia Bool DecimalNat.
From Verif Require Import M_Publish M_Names.
Import ListNotations.

Lemma showUint_digits d : forallb isDigit (showUint d) = true.
Proof. induction d; cbn [showUint forallb]; rewrite ?IHd; reflexivity. Qed.
Lemma showUint_inj a : forall b, showUint a = showUint b -> a = b.
Proof. induction a; intros b H; destruct b; cbn in H; try discriminate H; try reflexivity; injection H as H; f_equal; apply IHa, H. Qed.
Lemma showNat_digits n : forallb isDigit (showNat n) = true.
Proof. apply showUint_digits. Qed.
Lemma showNat_inj a b : showNat a = showNat b -> a = b.
Proof. intros H. apply showUint_inj in H. apply Unsigned.to_uint_inj. exact H. Qed.

(** the last character that is not a digit splits a text *)
Lemma split_digits (w : list nat) : forall w' c c' d d', forallb isDigit d = true -> forallb isDigit d' = true -> isDigit c = false -> isDigit c' = false ->
  w ++ c :: d = w' ++ c' :: d' -> w = w' /\ c = c' /\ d = d'.
Proof.
  induction w as [|x w IH]; intros [|x' w'] c c' d d' D D' N N' H; cbn in H.
  - injection H as -> ->. auto.
  - injection H as -> ->. exfalso. rewrite forallb_app in D. apply andb_true_iff in D as (_ & D). cbn in D. rewrite N' in D. discriminate D.
  - injection H as <- <-. exfalso. rewrite forallb_app in D'. apply andb_true_iff in D' as (_ & D'). cbn in D'. rewrite N in D'. discriminate D'.
  - injection H as <- H. destruct (IH _ _ _ _ _ D D' N N' H) as (-> & -> & ->). auto.
Qed.
Lemma split_first (a : list nat) : forall a' c b b', ~ In c a -> ~ In c a' -> a ++ c :: b = a' ++ c :: b' -> a = a' /\ b = b'.
Proof.
  induction a as [|x a IH]; intros [|x' a'] c b b' N N' H; cbn in H.
  - injection H as ->. auto.
  - injection H as <- _. exfalso. apply N'. left. reflexivity.
  - injection H as -> _. exfalso. apply N. left. reflexivity.
  - injection H as <- H. destruct (IH a' c b b') as (-> & ->); auto; intros Q; [apply N|apply N']; right; exact Q.
Qed.

Lemma tag_rank r t t' (z z' : Z) : r <> [] -> isDigit (last r 0) = false -> ~ In minus r ->
  t ++ r ++ showInt z = t' ++ r ++ showInt z' -> t = t' /\ z = z'.
Proof.
  intros Nr Nd Nm H. destruct (exists_last Nr) as (r0 & c & Er). rewrite Er in *. rewrite last_last in Nd.
  assert (Nc : c <> minus) by (intros ->; apply Nm, in_app_iff; right; left; reflexivity).
  assert (Sh : forall z, exists d, forallb isDigit d = true /\ ((showInt z = minus :: d /\ exists p, z = Zneg p /\ d = showNat (Pos.to_nat p)) \/ (showInt z = d /\ (0 <= z)%Z /\ d = showNat (Z.to_nat z)))).
  { intros [|p|p].
    - exists (showNat 0). split; [reflexivity|]. right. split; [reflexivity|]. split; [lia|reflexivity].
    - exists (showNat (Z.to_nat (Zpos p))). split; [apply showNat_digits|]. right. split; [reflexivity|]. split; [lia|reflexivity].
    - exists (showNat (Pos.to_nat p)). split; [apply showNat_digits|]. left. split; [reflexivity|]. exists p. auto. }
  destruct (Sh z) as (d & D & Sz). destruct (Sh z') as (d' & D' & Sz'). assert (M : isDigit minus = false) by reflexivity.
  destruct Sz as [(Ez & p & -> & Ed)|(Ez & Pz & Ed)]; destruct Sz' as [(Ez' & p' & -> & Ed')|(Ez' & Pz' & Ed')]; rewrite Ez, Ez' in H.
  - assert (H' : (t ++ r0 ++ [c]) ++ minus :: d = (t' ++ r0 ++ [c]) ++ minus :: d') by (rewrite <- !app_assoc in *; exact H).
    apply split_digits in H' as (H1 & _ & H2); try assumption. apply app_inv_tail in H1. subst t'. split; [reflexivity|].
    rewrite Ed, Ed' in H2. apply showNat_inj in H2. f_equal. lia.
  - exfalso. assert (H' : (t ++ r0 ++ [c]) ++ minus :: d = (t' ++ r0) ++ c :: d') by (rewrite <- !app_assoc in *; exact H).
    apply split_digits in H' as (_ & H2 & _); try assumption. congruence.
  - exfalso. assert (H' : (t ++ r0) ++ c :: d = (t' ++ r0 ++ [c]) ++ minus :: d') by (rewrite <- !app_assoc in *; exact H).
    apply split_digits in H' as (_ & H2 & _); try assumption. congruence.
  - assert (H' : (t ++ r0) ++ c :: d = (t' ++ r0) ++ c :: d') by (rewrite <- !app_assoc in *; exact H).
    apply split_digits in H' as (H1 & _ & H2); try assumption. apply app_inv_tail in H1. subst t'. split; [reflexivity|].
    rewrite Ed, Ed' in H2. apply showNat_inj in H2. lia.
Qed.

Section Hash.
Variable hash : text -> text.
Hypothesis Hh : forall a b, hash a = hash b -> a = b.
Lemma distinct_files dir k k' :
  ~ In minus (k_acceptor k) -> ~ In minus (k_acceptor k') ->
  k_requester k <> [] -> isDigit (last (k_requester k) 0) = false -> ~ In minus (k_requester k) ->
  filename hash dir k = filename hash dir k' -> k = k'.
Proof.
  intros A A' R1 R2 R3 H. destruct k as [a r t z], k' as [a' r' t' z']. unfold filename, localDirectory, hashedFilePath in H. cbn in *.
  injection H as H1 H2. apply split_first in H1 as (-> & ->); try assumption. apply Hh in H2. apply app_inv_head in H2.
  apply tag_rank in H2 as (-> & ->); try assumption. reflexivity.
Qed.
Lemma distinct_dirs dir a r a' r' : ~ In minus a -> ~ In minus a' -> localDirectory dir a r = localDirectory dir a' r' -> a = a' /\ r = r'.
Proof. intros A A' H. injection H as H. apply split_first in H; assumption. Qed.
End Hash.
