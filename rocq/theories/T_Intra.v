(** C36: reductions and broadcasts between the ranks of a participant. *)
From Coq Require Import ZArith QArith Bool List Arith Lia.
From Verif Require Import M_Net M_Comm S_Term S_Intra P_Net P_Term P_Serial P_SerPart P_Intra M_Ring P_Ring.
Import ListNotations.
Open Scope nat_scope.

(** All theorems: for every number of ranks, every schedule, blocking or buffered
    sends.  The vectors of all ranks have the same length. *)
Theorem C36_allreduce_vector :
  forall (n k : nat) (l : nat -> list Q), 0 < n -> (forall r, r < n -> length (l r) = k) ->
  exists res, all_end n (fun r => icAllreduceDbls n r (l r)) (fun _ => res) /\ vector_sum n k l res.
Proof.
  intros n k l Hn L. exists (sumAll l n). split; [|apply sumAll_ok; auto].
  pose proof (collective n Hn _ (PRet (l 0)) _ _ _ (phase_allreduceDbls n Hn l k L)) as H.
  eapply all_end_ext; [| |apply H]; [| |intros ->; reflexivity].
  - intros r Hr. cbn beta. unfold icAllreduceDbls. unfold isSecondary, isPrimary. destruct (Nat.eqb_spec r 0) as [->|]; reflexivity.
  - intros r Hr. cbn. destruct (r =? 0); reflexivity.
Qed.
Print Assumptions C36_allreduce_vector.
Theorem C36_reduce_vector :
  forall (n k : nat) (l rcv : nat -> list Q), 0 < n -> (forall r, r < n -> length (l r) = k) ->
  exists res, all_end n (fun r => icReduceDbls n r (l r) (rcv r)) (fun r => if r =? 0 then res else rcv r) /\ vector_sum n k l res.
Proof.
  intros n k l rcv Hn L. exists (sumAll l n). split; [|apply sumAll_ok; auto].
  assert (P : phase n 0 (secondaries n) (reduceDbls (secondaries n) (l 0)) (fun r => bind (reduceDblsSend (l r) 0) (fun _ => PRet (rcv r))) (sumAll l n) rcv).
  { eapply phase_bind_r; [apply (phase_reduceDbls n Hn l k L)|reflexivity]. }
  pose proof (collective n Hn _ (PRet (l 0)) _ _ _ P) as H.
  eapply all_end_ext; [| |apply H]; [| |intros ->; reflexivity].
  - intros r Hr. cbn beta. unfold icReduceDbls, isSecondary, isPrimary. destruct (Nat.eqb_spec r 0) as [->|]; reflexivity.
  - reflexivity.
Qed.
Print Assumptions C36_reduce_vector.
Theorem C36_allreduce_double :
  forall (n : nat) (q : nat -> Q), 0 < n ->
  exists res, all_end n (fun r => icAllreduceDbl n r (q r)) (fun _ => res) /\ (res == sumQ q n)%Q.
Proof.
  intros n q Hn. exists (sumDbl q n). split; [|apply sumDbl_ok; auto].
  pose proof (collective n Hn _ (PRet (q 0)) _ _ _ (phase_allreduceDbl n Hn q)) as H.
  eapply all_end_ext; [| |apply H]; [| |intros ->; reflexivity].
  - intros r Hr. cbn beta. unfold icAllreduceDbl, isSecondary, isPrimary. destruct (Nat.eqb_spec r 0) as [->|]; reflexivity.
  - intros r Hr. cbn. destruct (r =? 0); reflexivity.
Qed.
Print Assumptions C36_allreduce_double.
Theorem C36_allreduce_int :
  forall (n : nat) (z : nat -> Z), 0 < n ->
  all_end n (fun r => icAllreduceInt n r (z r)) (fun _ => sumZ z n).
Proof.
  intros n z Hn. rewrite <- sumInt_ok by auto.
  pose proof (collective n Hn _ (PRet (z 0)) _ _ _ (phase_allreduceInt n Hn z)) as H.
  eapply all_end_ext; [| |apply H]; [| |intros ->; reflexivity].
  - intros r Hr. cbn beta. unfold icAllreduceInt, isSecondary, isPrimary. destruct (Nat.eqb_spec r 0) as [->|]; reflexivity.
  - intros r Hr. cbn. destruct (r =? 0); reflexivity.
Qed.
Print Assumptions C36_allreduce_int.
Theorem C36_reduce_int :
  forall (n : nat) (z rcv : nat -> Z), 0 < n ->
  all_end n (fun r => icReduceInt n r (z r) (rcv r)) (fun r => if r =? 0 then sumZ z n else rcv r).
Proof.
  intros n z rcv Hn. rewrite <- sumInt_ok by auto.
  assert (P : phase n 0 (secondaries n) (reduceInt (secondaries n) (z 0)) (fun r => bind (reduceIntSend (z r) 0) (fun _ => PRet (rcv r))) (sumInt z n) rcv).
  { eapply phase_bind_r; [apply (phase_reduceInt n Hn z)|reflexivity]. }
  pose proof (collective n Hn _ (PRet (z 0)) _ _ _ P) as H.
  eapply all_end_ext; [| |apply H]; [| |intros ->; reflexivity].
  - intros r Hr. cbn beta. unfold icReduceInt, isSecondary, isPrimary. destruct (Nat.eqb_spec r 0) as [->|]; reflexivity.
  - reflexivity.
Qed.
Print Assumptions C36_reduce_int.
Theorem C36_broadcast_vector :
  forall (n k : nat) (l : nat -> list Q), 0 < n -> (forall r, r < n -> length (l r) = k) ->
  all_end n (fun r => icBcastDbls n r (l r)) (fun _ => l 0).
Proof.
  intros n k l Hn L.
  assert (P : phase n 0 (secondaries n) (bind (bcastDbls (secondaries n) (l 0)) (fun _ => PRet (l 0)))
                (fun r => recvDbls 0 k) (l 0) (fun _ => l 0)).
  { eapply phase_bind_z; [|reflexivity]. destruct (secondaries_ok n) as (? & ? & ?). apply phase_bcastDbls; auto. symmetry. apply L. auto. }
  pose proof (broadcastive n _ (PRet (l 0)) _ _ _ Hn P) as H.
  eapply all_end_ext; [| |apply H]; [| |intros ->; reflexivity].
  - intros r Hr. cbn beta. unfold icBcastDbls, isSecondary, isPrimary. rewrite (L r Hr). destruct (Nat.eqb_spec r 0) as [->|]; reflexivity.
  - intros r Hr. cbn. destruct (r =? 0); reflexivity.
Qed.
Print Assumptions C36_broadcast_vector.
Theorem C36_broadcast_double :
  forall (n : nat) (q : nat -> Q), 0 < n -> all_end n (fun r => icBcastDbl n r (q r)) (fun _ => q 0).
Proof.
  intros n q Hn.
  assert (P : phase n 0 (secondaries n) (bind (bcastDbl (secondaries n) (q 0)) (fun _ => PRet (q 0)))
                (fun r => recvDbl 0) (q 0) (fun _ => q 0)).
  { eapply phase_bind_z; [|reflexivity]. destruct (secondaries_ok n) as (? & ? & ?). apply phase_bcastDbl; auto. }
  pose proof (broadcastive n _ (PRet (q 0)) _ _ _ Hn P) as H.
  eapply all_end_ext; [| |apply H]; [| |intros ->; reflexivity].
  - intros r Hr. cbn beta. unfold icBcastDbl, isSecondary, isPrimary. destruct (Nat.eqb_spec r 0) as [->|]; reflexivity.
  - intros r Hr. cbn. destruct (r =? 0); reflexivity.
Qed.
Print Assumptions C36_broadcast_double.
Theorem C36_broadcast_int :
  forall (n : nat) (z : nat -> Z), 0 < n -> all_end n (fun r => icBcastInt n r (z r)) (fun _ => z 0).
Proof.
  intros n q Hn.
  assert (P : phase n 0 (secondaries n) (bind (bcastInt (secondaries n) (q 0)) (fun _ => PRet (q 0)))
                (fun r => recvInt 0) (q 0) (fun _ => q 0)).
  { eapply phase_bind_z; [|reflexivity]. destruct (secondaries_ok n) as (? & ? & ?). apply phase_bcastInt; auto. }
  pose proof (broadcastive n _ (PRet (q 0)) _ _ _ Hn P) as H.
  eapply all_end_ext; [| |apply H]; [| |intros ->; reflexivity].
  - intros r Hr. cbn beta. unfold icBcastInt, isSecondary, isPrimary. destruct (Nat.eqb_spec r 0) as [->|]; reflexivity.
  - intros r Hr. cbn. destruct (r =? 0); reflexivity.
Qed.
Print Assumptions C36_broadcast_int.
Theorem C36_broadcast_bool :
  forall (n : nat) (b : nat -> bool), 0 < n -> all_end n (fun r => icBcastBool n r (b r)) (fun _ => b 0).
Proof.
  intros n q Hn.
  assert (P : phase n 0 (secondaries n) (bind (bcastBool (secondaries n) (q 0)) (fun _ => PRet (q 0)))
                (fun r => bcastBoolRecv 0) (q 0) (fun _ => q 0)).
  { eapply phase_bind_z; [|reflexivity]. destruct (secondaries_ok n) as (? & ? & ?). eapply phase_bind_r; [apply phase_bcastInt; auto|].
    cbv beta. intros r _. destruct (q 0); reflexivity. }
  pose proof (broadcastive n _ (PRet (q 0)) _ _ _ Hn P) as H.
  eapply all_end_ext; [| |apply H]; [| |intros ->; reflexivity].
  - intros r Hr. cbn beta. unfold icBcastBool, isSecondary, isPrimary. destruct (Nat.eqb_spec r 0) as [->|]; reflexivity.
  - intros r Hr. cbn. destruct (r =? 0); reflexivity.
Qed.
Print Assumptions C36_broadcast_bool.
(** the dot product of distributed vectors *)
Theorem C36_dot_product :
  forall (n : nat) (a b : nat -> list Q), 0 < n ->
  exists res, all_end n (fun r => icDot n r (a r) (b r)) (fun _ => res) /\ (res == sumQ (fun r => qdot (a r) (b r)) n)%Q.
Proof.
  intros n a b Hn. destruct (C36_allreduce_double n (fun r => qdot (a r) (b r)) Hn) as (res & H & E).
  destruct (Nat.eq_dec n 1) as [->|N].
  - exists (qdot (a 0) (b 0)). split; [|cbn; rewrite Qplus_0_l; reflexivity].
    apply all_end_intro, runs_refl. intros i Hi. assert (i = 0) as -> by lia. reflexivity.
  - exists res. split; [|exact E]. eapply all_end_ext; [| |exact H]; [|reflexivity].
    intros r Hr. cbn beta. unfold icDot. destruct (Nat.eqb_spec n 1); [congruence|reflexivity].
Qed.
Print Assumptions C36_dot_product.
(** the barrier ends on all ranks and its assertion never fails *)
Theorem C36_barrier : forall n : nat, 0 < n -> all_end n (fun r => icBarrier n r) (fun _ => tt).
Proof.
  intros n Hn. unfold icBarrier. destruct (Nat.eqb_spec n 1) as [->|N].
  - apply all_end_intro, runs_refl. auto.
  - apply all_end_intro. pose proof (C36_allreduce_int n (fun _ => 1%Z) Hn) as H.
    assert (S : sumZ (fun _ => 1%Z) n = Z.of_nat n).
    { clear. induction n as [|n IH]; [reflexivity|]. cbn [sumZ]. rewrite IH. lia. }
    rewrite <- S.
    pose proof (phase_allreduceInt n Hn (fun _ => 1%Z)) as P.
    destruct (P unit (fun r => bind (icAllreduceInt n r 1%Z) (fun sum => check (Z.eqb sum (sumZ (fun _ => 1%Z) n)) (EAssert 105)))
                (fun x X => X = check (Z.eqb x (sumZ (fun _ => 1%Z) n)) (EAssert 105))
                (fun _ x X => X = check (Z.eqb x (sumZ (fun _ => 1%Z) n)) (EAssert 105))) as (Q & U1 & U2 & U3 & _).
    + unfold icAllreduceInt. cbn. destruct (Nat.eqb_spec n 1); [congruence|]. cbn. apply leads_intro.
    + intros r Hr. unfold icAllreduceInt, isSecondary. apply in_seq in Hr. destruct (Nat.eqb_spec r 0); [lia|]. cbn [negb].
      apply leads_intro.
    + eapply runs_ext; [reflexivity| |exact U1]. intros i Hi. cbn beta.
      rewrite sumInt_ok in U2, U3 by auto. rewrite Z.eqb_refl in U2. 
      destruct (Nat.eq_dec i 0) as [->|Ni]; [exact U2|].
      assert (In i (secondaries n)) as Ii by (apply in_seq; lia). specialize (U3 i Ii). cbn beta in U3. rewrite Z.eqb_refl in U3. exact U3.
Qed.
Print Assumptions C36_barrier.

Example C36_example : exists res,
  all_end 3 (fun r => icAllreduceDbls 3 r (nth r [[1; 2]; [10; 20]; [100; 200]] [])%Q) (fun _ => res) /\
  (nth 0 res 0 == 111)%Q /\ (nth 1 res 0 == 222)%Q.
Proof.
  destruct (C36_allreduce_vector 3 2 (fun r => nth r [[1; 2]; [10; 20]; [100; 200]] [])%Q) as (res & H & L & E).
  - lia.
  - intros r Hr. destruct r as [|[|[|r]]]; [reflexivity..|lia].
  - exists res. split; [exact H|]. split; rewrite E by lia; reflexivity.
Qed.
Example C36_reduce_example :
  all_end 4 (fun r => icReduceInt 4 r (Z.of_nat r * 10) 7) (fun r => if r =? 0 then 60%Z else 7%Z).
Proof. exact (C36_reduce_int 4 (fun r => Z.of_nat r * 10)%Z (fun _ => 7%Z) ltac:(lia)). Qed.

(** ** C37: the ring of ranks *)
(** Every rank ends up connected with its two neighbours, whatever the schedule. *)
Theorem C37_ring_is_connected :
  forall n : nat, 2 <= n ->
  all_end n (connectCircularComm n) (fun r => Some ((r + n - 1) mod n, (r + 1) mod n)).
Proof. intros n Hn. apply all_end_intro. exact (ring_runs n Hn). Qed.
Print Assumptions C37_ring_is_connected.
Example C37_single_rank : all_end 1 (connectCircularComm 1) (fun _ => None).
Proof. apply all_end_intro, runs_refl. auto. Qed.
Example C37_example : all_end 5 (connectCircularComm 5) (fun r => nth r [Some (4, 1); Some (0, 2); Some (1, 3); Some (2, 4); Some (3, 0)] None).
Proof.
  pose proof (C37_ring_is_connected 5 ltac:(lia)) as H. eapply all_end_ext; [| |exact H]; [reflexivity|].
  intros r Hr. do 5 (destruct r as [|r]; [reflexivity|]). lia.
Qed.
(** every rank accepting first would be a deadlock: the alternation matters *)
Example C37_alternation_matters :
  let all_accept_first := map (fun r => bind (acceptConnection (prevProc 3 r) r (prevProc 3 r) r 0) (fun l => PRet (Some (l, l)))) [0; 1; 2] in
  forall l c, ~ sstep once l all_accept_first c.
Proof.
  cbn. intros l c H. inversion H as [i j m ki kj c0 N Hi Hj|i s p c0 Hi Hb]; subst; [|discriminate Hb].
  destruct i as [|[|[|i]]]; cbn in Hi; try (destruct i; discriminate Hi); injection Hi as <- <- <-; cbn in Hj; discriminate Hj.
Qed.
