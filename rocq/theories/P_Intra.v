From Coq Require Import ZArith QArith Bool List Arith Lia.
From Verif Require Import M_Net M_Mesh M_Comm S_Term S_Intra P_Net P_Term P_Serial P_SerPart.
Import ListNotations.
Open Scope nat_scope.

Lemma qadd_length a b : length a = length b -> length (qadd a b) = length a.
Proof. intros H. unfold qadd. rewrite map_length, combine_length. lia. Qed.
Lemma qadd_nth a : forall b i, length a = length b -> i < length a -> nth i (qadd a b) 0%Q = (nth i a 0 + nth i b 0)%Q.
Proof.
  induction a as [|x a IH]; intros [|y b] i L H; cbn in L; try lia; [cbn in H; lia|].
  destruct i as [|i]; [reflexivity|]. cbn in *. apply IH; lia.
Qed.
Lemma secondaries_S n : 0 < n -> secondaries (S n) = secondaries n ++ [n].
Proof. intros H. unfold secondaries. replace (S n - 1) with (S (n - 1)) by lia. rewrite seq_S. f_equal. f_equal. lia. Qed.
Definition sumAll (l : nat -> list Q) (n : nat) : list Q := fold_left (fun s r => qadd s (l r)) (secondaries n) (l 0).
Lemma sumAll_ok l k n : 0 < n -> (forall r, r < n -> length (l r) = k) -> vector_sum n k l (sumAll l n).
Proof.
  intros Hn. unfold sumAll. induction n as [|n IH]; intros L; [lia|].
  destruct n as [|n].
  - cbn. split; [apply L; lia|]. intros i Hi. cbn. rewrite Qplus_0_l. reflexivity.
  - rewrite secondaries_S by lia. rewrite fold_left_app. cbn [fold_left].
    destruct IH as (I1 & I2); [lia|intros r Hr; apply L; lia|]. split.
    + rewrite qadd_length; rewrite I1; auto. symmetry. apply L. lia.
    + intros i Hi. rewrite qadd_nth; [|rewrite I1; symmetry; apply L; lia|lia].
      rewrite I2 by auto. reflexivity.
Qed.
Definition sumInt (z : nat -> Z) (n : nat) : Z := fold_left (fun s r => (s + z r)%Z) (secondaries n) (z 0).
Lemma sumInt_ok z n : 0 < n -> sumInt z n = sumZ z n.
Proof.
  intros Hn. unfold sumInt. induction n as [|n IH]; [lia|]. destruct n as [|n]; [reflexivity|].
  rewrite secondaries_S by lia. rewrite fold_left_app. cbn [fold_left]. rewrite IH by lia. reflexivity.
Qed.
Definition sumDbl (z : nat -> Q) (n : nat) : Q := fold_left (fun s r => (s + z r)%Q) (secondaries n) (z 0).
Lemma sumDbl_ok z n : 0 < n -> (sumDbl z n == sumQ z n)%Q.
Proof.
  intros Hn. unfold sumDbl. induction n as [|n IH]; [lia|]. destruct n as [|n].
  - cbn. rewrite Qplus_0_l. reflexivity.
  - rewrite secondaries_S by lia. rewrite fold_left_app. cbn [fold_left]. rewrite IH by lia. reflexivity.
Qed.

Section C.
Variable n : nat.
Hypothesis Hn : 0 < n.
Notation rs := (secondaries n).
Lemma Nd : NoDup rs. Proof. apply secondaries_ok. Qed.
Lemma Nz : ~ In 0 rs. Proof. apply secondaries_ok. Qed.
Lemma Lt : forall r, In r rs -> r < n. Proof. apply secondaries_ok. Qed.
Lemma phase_reduceDbls l k : (forall r, r < n -> length (l r) = k) ->
  phase n 0 rs (reduceDbls rs (l 0)) (fun r => reduceDblsSend (l r) 0) (sumAll l n) (fun _ => tt).
Proof.
  intros L. apply (phase_fold n 0 _ _ (fun r s => qadd s (l r)) _ (fun s => length s = k)); auto using Nd, Nz, Lt.
  intros r s Hr Is. pose proof (L r (Lt r Hr)) as Lr. split; [|rewrite qadd_length; congruence].
  eapply talk_sym. eapply talk_bind_r; [apply talk_dbls; congruence|reflexivity].
Qed.
Lemma phase_reduceInt z : phase n 0 rs (reduceInt rs (z 0)) (fun r => reduceIntSend (z r) 0) (sumInt z n) (fun _ => tt).
Proof.
  apply (phase_fold n 0 _ _ (fun r s => (s + z r)%Z) _ (fun _ => True)); auto using Nd, Nz, Lt.
  intros r s Hr Is. split; auto. eapply talk_sym. eapply talk_bind_r; [apply talk_int|reflexivity].
Qed.
Lemma phase_reduceDbl z : phase n 0 rs (reduceDbl rs (z 0)) (fun r => sendDbl 0 (z r)) (sumDbl z n) (fun _ => tt).
Proof.
  apply (phase_fold n 0 _ _ (fun r s => (s + z r)%Q) _ (fun _ => True)); auto using Nd, Nz, Lt.
  intros r s Hr Is. split; auto. eapply talk_sym. eapply talk_bind_r; [apply talk_dbl|reflexivity].
Qed.
Lemma phase_allreduceDbls l k : (forall r, r < n -> length (l r) = k) ->
  phase n 0 rs (allreduceDbls rs (l 0)) (fun r => allreduceDblsOther (l r) 0) (sumAll l n) (fun _ => sumAll l n).
Proof.
  intros L. unfold allreduceDbls, allreduceDblsOther. eapply phase_bind; [apply (phase_reduceDbls l k L)|]. cbv beta.
  eapply phase_bind_z; [|reflexivity].
  eapply (phase_ext n 0 rs (bcastDbls rs (sumAll l n)) _ (fun _ => recvDbls 0 k)).
  - apply (phase_bcastDbls n 0 rs Nd Nz Hn Lt). symmetry. apply (sumAll_ok l k n Hn L).
  - reflexivity.
  - reflexivity.
  - intros r Hr. cbn beta. rewrite (L r (Lt r Hr)). reflexivity.
  - reflexivity.
Qed.
Lemma phase_allreduceInt z :
  phase n 0 rs (allreduceInt rs (z 0)) (fun r => allreduceIntOther (z r) 0) (sumInt z n) (fun _ => sumInt z n).
Proof.
  unfold allreduceInt, allreduceIntOther. eapply phase_bind; [apply phase_reduceInt|]. cbv beta.
  eapply phase_bind_z; [apply (phase_bcastInt n 0 rs Nd Nz Hn Lt)|reflexivity].
Qed.
Lemma phase_allreduceDbl z :
  phase n 0 rs (allreduceDbl rs (z 0)) (fun r => allreduceDblOther (z r) 0) (sumDbl z n) (fun _ => sumDbl z n).
Proof.
  unfold allreduceDbl, allreduceDblOther. eapply phase_bind; [apply phase_reduceDbl|]. cbv beta.
  eapply phase_bind_z; [apply (phase_bcastDbl n 0 rs Nd Nz Hn Lt)|reflexivity].
Qed.
(** the case distinction of IntraComm *)
Lemma collective {A} (p s : proc packet A) (q : nat -> proc packet A) (b : A) (c : nat -> A) :
  phase n 0 rs p q b c -> (n = 1 -> s = PRet b) ->
  all_end n (fun r => if isSecondary r then q r else if isPrimary n r then p else s) (fun r => if r =? 0 then b else c r).
Proof.
  intros H Hs. destruct (Nat.eq_dec n 1) as [E|E].
  - apply all_end_intro, runs_refl. intros i Hi. assert (i = 0) as -> by lia. cbn. rewrite E. cbn. apply Hs, E.
  - eapply phase_ends; [exact Hn|exact H| |].
    + cbn. destruct (Nat.eqb_spec n 1); [congruence|]. cbn. apply leads_same.
    + intros r Hr. cbn beta. unfold isSecondary. destruct (Nat.eqb_spec r 0); [lia|]. cbn. apply leads_same.
Qed.
End C.
Lemma all_end_ext {M A} n (p p' : nat -> proc M A) (res res' : nat -> A) : (forall r, r < n -> p r = p' r) -> (forall r, r < n -> res r = res' r) ->
  all_end n p res -> all_end n p' res'.
Proof.
  intros E E' H. unfold all_end in *. rewrite <- (ranks_ext n p p' E).
  replace (map res' (seq 0 n)) with (map res (seq 0 n)); auto.
  apply map_ext_in. intros r Hr. apply E'. apply in_seq in Hr. lia.
Qed.
Lemma broadcastive {A} n (p s : proc packet A) (q : nat -> proc packet A) (b : A) (c : nat -> A) : 0 < n ->
  phase n 0 (secondaries n) p q b c -> (n = 1 -> s = PRet b) ->
  all_end n (fun r => if isPrimary n r then p else if isSecondary r then q r else s) (fun r => if r =? 0 then b else c r).
Proof.
  intros Hn H Hs. eapply all_end_ext; [| |apply (collective n Hn p s q b c H Hs)]; [|reflexivity].
  intros r _. cbn beta. unfold isSecondary, isPrimary. destruct (r =? 0); cbn; destruct (n =? 1); reflexivity.
Qed.
