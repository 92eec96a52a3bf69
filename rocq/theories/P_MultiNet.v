(** Rounds of a multi coupling. *)
From Coq Require Import ZArith Bool List Lia.
From Verif Require Import M_Net M_Time M_Wave M_Cpl M_Multi S_Prog S_Cpl S_Net S_Term S_Comp S_Multi
  P_Prog P_Net P_Pair P_Log P_Term P_Comp P_Mail P_NetLift P_CplData P_CplStep P_CplWin P_NetPar P_Trace P_MultiData P_MultiPart.
Import ListNotations.
Open Scope nat_scope.

Lemma choose {A} (P : nat -> A -> Prop) n : (forall i, i < n -> exists a, P i a) -> A -> exists f, forall i, i < n -> P i (f i).
Proof.
  intros H a0. induction n as [|n IH]; [exists (fun _ => a0); intros i Hi; lia|].
  destruct IH as (f & Hf); [intros i Hi; apply H; lia|]. destruct (H n (Nat.lt_succ_diag_r n)) as (a & Ha).
  exists (fun i => if i =? n then a else f i). intros i Hi. destruct (Nat.eqb_spec i n) as [->|]; [exact Ha|apply Hf; lia].
Qed.

Section Rounds.
Context {V : Type}.
Variables (gnone vzero : V).
Notation st := (st (V:=V)).
Notation env := (env (V:=V)).
Notation wv := (wave (smp V)).
Variables (n z : nat) (w : Z) (cf : nat -> mconf).
Hypothesis HM : multi n z w cf.
Variable G : list dspec -> bool.

Section R.
Variables (W : nat -> list wv) (bs : list (msg V)).
Definition Sx (i : nat) : list (io (msg V)) := sendTrace G (cf i) (W i) (m_send (cf i)).
Definition inc (i j : nat) : list (msg V) := out G (cf j) (W j) i.
Definition vin (i j : nat) : list (view V) :=
  match find (fun p => fst p =? i) (m_send (cf j)) with Some p => toViews gnone (cf j) (W j) p | None => [] end.
Definition Rx (i : nat) : list (io (msg V)) := recvTrace G (inc i) (m_recv (cf i)).
Definition Bx : list (io (msg V)) := flat_map (fun j => map (Sent j) bs) (m_m2ns (cf z)).

(** the entry of the partner *)
Lemma linked a j : a < n -> j < n ->
  match find (fun p => fst p =? j) (m_send (cf a)), find (fun p => fst p =? a) (m_recv (cf j)) with
  | Some p, Some q => toSpecs (cf a) p = snd q
  | None, None => True
  | _, _ => False
  end.
Proof.
  intros Ha Hj. pose proof (mu_link _ _ _ _ HM a j Ha Hj) as L. unfold specsTo, specsFrom in L.
  destruct (find _ (m_send (cf a))), (find _ (m_recv (cf j))); try discriminate L; [injection L as L; exact L|exact I].
Qed.
Lemma Rx_gots a j : a < n -> j < n -> gots a (Rx j) = out G (cf a) (W a) j.
Proof.
  intros Ha Hj. unfold Rx. rewrite recvTrace_gots by apply (mu_recv _ _ _ _ HM j Hj).
  pose proof (linked a j Ha Hj) as L. unfold inc, out. destruct (find _ (m_send (cf a))) as [p|], (find _ (m_recv (cf j))) as [q|]; try contradiction; [|reflexivity].
  rewrite L. destruct (G (snd q)); reflexivity.
Qed.
Lemma Sx_sents a j : a < n -> sents j (Sx a) = out G (cf a) (W a) j.
Proof. intros Ha. apply sendTrace_sents. apply (mu_send _ _ _ _ HM a Ha). Qed.
Lemma Bx_sents i : i < n -> i <> z -> sents i Bx = bs.
Proof.
  intros Hi Ni. unfold Bx. rewrite sents_flat. destruct (mu_m2ns _ _ _ _ HM) as (N & I). 
  assert (Q : In i (m_m2ns (cf z))) by (apply I; auto). clear I Hi Ni. induction (m_m2ns (cf z)) as [|j l IH]; [destruct Q|].
  inversion N as [|? ? N1 N2]; subst. cbn [flat_map]. rewrite sents_map. destruct (Nat.eqb_spec j i) as [->|Ne].
  - enough (X : flat_map (fun a => sents i (map (Sent a) bs)) l = []) by (rewrite X; apply app_nil_r).
    clear IH Q N N2. induction l as [|k l IH]; [reflexivity|]. cbn [flat_map]. rewrite sents_map. destruct (Nat.eqb_spec k i) as [->|]; [exfalso; apply N1; left; reflexivity|].
    apply IH. intros X. apply N1. right. exact X.
  - destruct Q as [Q|Q]; [congruence|]. apply IH; assumption.
Qed.
Lemma Sx_good i : i < n -> good n i (Sx i).
Proof.
  intros Hi e He. unfold Sx, sendTrace in He. apply in_flat_map in He as ((j, ix) & Hp & He). destruct (G _); [|destruct He].
  apply in_map_iff in He as (x & <- & _). cbn. destruct (mu_send _ _ _ _ HM i Hi) as (_ & K). destruct (K j ix Hp) as (A & B & _). auto.
Qed.
Lemma Rx_good i : i < n -> good n i (Rx i).
Proof.
  intros Hi e He. unfold Rx, recvTrace in He. apply in_flat_map in He as ((j, ds) & Hp & He). destruct (G _); [|destruct He].
  apply in_map_iff in He as (x & <- & _). cbn. destruct (mu_recv _ _ _ _ HM i Hi) as (_ & K & _). exact (K j ds Hp).
Qed.
Lemma Bx_good : good n z Bx.
Proof.
  intros e He. unfold Bx in He. apply in_flat_map in He as (j & Hj & He). apply in_map_iff in He as (x & <- & _). cbn.
  apply (proj2 (mu_m2ns _ _ _ _ HM) j), Hj.
Qed.
Lemma Bx_gots j : gots j Bx = [].
Proof. unfold Bx. rewrite gots_flat. apply flat_nil. intros a. apply gots_sent. Qed.
Lemma gotz_good i : i < n -> i <> z -> good n i (map (Got z) bs).
Proof. intros Hi Ni e He. apply in_map_iff in He as (x & <- & _). cbn. split; [apply (mu_z _ _ _ _ HM)|congruence]. Qed.
Lemma good_app i (t t' : list (io (msg V))) : good n i t -> good n i t' -> good n i (t ++ t').
Proof. intros A B e He. apply in_app_iff in He as [He|He]; auto. Qed.

(** one exchange between all participants *)
Variables (P : nat -> proc (msg V) st) (s' : nat -> st).
Hypothesis Do : forall i, i < n -> i <> z -> does (P i) (Sx i ++ map (Got z) bs ++ Rx i) (s' i).
Hypothesis Dz : does (P z) (Rx z ++ Bx ++ Sx z) (s' z).
Variable body : nat -> st -> option (proc (msg V) st).

Theorem round_buffered : reaches (astep body) (ranks n P, emptych n) (ranks n (fun i => PRet (s' i)), emptych n).
Proof.
  destruct (choose (fun i Q => i <> z -> resid (P i) (Sx i) Q /\ resid Q (map (Got z) bs ++ Rx i) (PRet (s' i))) n) as (Q & HQ).
  { intros i Hi. destruct (Nat.eq_dec i z) as [->|Ni]; [exists (P z); congruence|].
    destruct (resid_of_does _ _ _ _ (Do i Hi Ni)) as (Q & A & B). exists Q. intros _. split; [exact A|apply resid_ret, B]. }
  { exact (P z). }
  pose proof (mu_z _ _ _ _ HM) as Hz.
  eapply (buffered_round body n z P Q (fun i => PRet (s' i)) Sx (fun i => map (Got z) bs ++ Rx i) (Rx z ++ Bx ++ Sx z)).
  - exact Hz.
  - intros i Hi Ni. apply HQ; assumption.
  - intros i Hi Ni. apply HQ; assumption.
  - apply resid_ret, Dz.
  - intros i Hi Ni. apply Sx_good, Hi.
  - intros i Hi Ni. apply good_app; [apply gotz_good; assumption|apply Rx_good, Hi].
  - apply good_app; [apply Rx_good, Hz|]. apply good_app; [apply Bx_good|apply Sx_good, Hz].
  - intros i a Hi Ni. apply sendTrace_gots.
  - intros i a Hi Ni. rewrite sents_app. unfold Rx. rewrite sents_got, recvTrace_sents. reflexivity.
  - intros i Hi Ni. rewrite !gots_app, Bx_gots. unfold Sx at 1. rewrite sendTrace_gots, !app_nil_r. rewrite Rx_gots, Sx_sents by assumption. reflexivity.
  - intros i Hi Ni. rewrite gots_app, !sents_app, gots_map, Nat.eqb_refl, Bx_sents by assumption. unfold Rx at 2. rewrite recvTrace_sents. cbn [app].
    rewrite Rx_gots, Sx_sents by assumption. reflexivity.
  - intros i j Hi Hj Ni Nj. rewrite gots_app, gots_map. destruct (Nat.eqb_spec z i); [congruence|]. cbn [app]. rewrite Rx_gots, Sx_sents by assumption. reflexivity.
Qed.

Lemma dual_app i (t t' : list (io (msg V))) : dual z i (t ++ t') = dual z i t ++ dual z i t'.
Proof. apply flat_map_app. Qed.
Lemma dual_recv i (t : list (io (msg V))) : (forall j, sents j t = []) -> dual z i t = map (Sent z) (gots i t).
Proof.
  induction t as [|e t IH]; intros H; [reflexivity|].
  destruct e as [j x|j x].
  - specialize (H j). cbn in H. rewrite Nat.eqb_refl in H. discriminate H.
  - cbn. rewrite map_app. fold (dual z i t). rewrite IH.
    + destruct (j =? i); reflexivity.
    + intros k. apply (H k).
Qed.
Lemma dual_send i (t : list (io (msg V))) : (forall j, gots j t = []) -> dual z i t = map (Got z) (sents i t).
Proof.
  induction t as [|e t IH]; intros H; [reflexivity|].
  destruct e as [j x|j x].
  - cbn. rewrite map_app. fold (dual z i t). rewrite IH.
    + destruct (j =? i); reflexivity.
    + intros k. apply (H k).
  - specialize (H j). cbn in H. rewrite Nat.eqb_refl in H. discriminate H.
Qed.
Lemma only_sent (t : list (io (msg V))) : (forall j, gots j t = []) -> (forall e, In e t -> partnerOf e = z) -> t = map (Sent z) (sents z t).
Proof.
  induction t as [|e t IH]; intros H K; [reflexivity|]. pose proof (K e (or_introl eq_refl)) as Ke. destruct e as [j x|j x]; cbn in Ke; subst j.
  - cbn. rewrite Nat.eqb_refl. cbn. f_equal. apply IH; [intros k; apply (H k)|intros e He; apply K; right; exact He].
  - specialize (H z). cbn in H. rewrite Nat.eqb_refl in H. discriminate H.
Qed.
Lemma only_got (t : list (io (msg V))) : (forall j, sents j t = []) -> (forall e, In e t -> partnerOf e = z) -> t = map (Got z) (gots z t).
Proof.
  induction t as [|e t IH]; intros H K; [reflexivity|]. pose proof (K e (or_introl eq_refl)) as Ke. destruct e as [j x|j x]; cbn in Ke; subst j.
  - specialize (H z). cbn in H. rewrite Nat.eqb_refl in H. discriminate H.
  - cbn. rewrite Nat.eqb_refl. cbn. f_equal. apply IH; [intros k; apply (H k)|intros e He; apply K; right; exact He].
Qed.

Theorem round_blocking : star n z cf -> reaches (sstep body) (ranks n P) (ranks n (fun i => PRet (s' i))).
Proof.
  intros St. pose proof (mu_z _ _ _ _ HM) as Hz.
  eapply (blocking_round body n z (Rx z ++ Bx ++ Sx z) (P z)); [apply resid_ret, Dz|exact Hz| |reflexivity|reflexivity|].
  - apply good_app; [apply Rx_good, Hz|]. apply good_app; [apply Bx_good|apply Sx_good, Hz].
  - intros i Hi Ni. apply resid_ret. destruct (St i Hi Ni) as (S1 & S2).
    enough (Q : dual z i (Rx z ++ Bx ++ Sx z) = Sx i ++ map (Got z) bs ++ Rx i) by (rewrite Q; apply Do; assumption).
    rewrite !dual_app. rewrite (dual_recv i (Rx z)) by (intros j; apply recvTrace_sents).
    rewrite (dual_send i Bx) by apply Bx_gots. rewrite (dual_send i (Sx z)) by (intros j; apply sendTrace_gots).
    rewrite Bx_sents by assumption. rewrite Rx_gots, Sx_sents by assumption.
    rewrite (only_sent (Sx i)).
    + rewrite (only_got (Rx i)).
      * rewrite Rx_gots, Sx_sents by assumption. reflexivity.
      * intros j. apply recvTrace_sents.
      * intros e He. unfold Rx, recvTrace in He. apply in_flat_map in He as ((j, ds) & Hp & He). destruct (G _); [|destruct He].
        apply in_map_iff in He as (x & <- & _). cbn. eapply S2, Hp.
    + intros j. apply sendTrace_gots.
    + intros e He. unfold Sx, sendTrace in He. apply in_flat_map in He as ((j, ix) & Hp & He). destruct (G _); [|destruct He].
      apply in_map_iff in He as (x & <- & _). cbn. eapply S1, Hp.
Qed.
End R.

(** what arrives is what was sent *)
Lemma arrives_of W (okT : list Z -> Prop) i : i < n -> c_eps (m_base (cf i)) = c_eps (m_base (cf z)) ->
  (forall j, j < n -> exists TS, okT TS /\ TS <> [] /\ spaced (c_eps (m_base (cf z))) TS /\ sshape (length (c_send (m_base (cf j)))) TS (W j)) ->
  arrives gnone (cf i) G okT (inc W i) (vin W i).
Proof.
  intros Hi He H (j, ds) Hp Hg. cbn [fst snd] in *. destruct (mu_recv _ _ _ _ HM i Hi) as (N & K & _). destruct (K j ds Hp) as (Hj & _).
  pose proof (linked j i Hj Hi) as L. rewrite (find_in _ _ _ N Hp) in L. unfold inc, out, vin.
  destruct (find _ (m_send (cf j))) as [(k, ix)|] eqn:F; [|contradiction]. cbn [snd] in L. rewrite L, Hg.
  apply find_some in F as (F & Ek). cbn in Ek. apply Nat.eqb_eq in Ek. subst k.
  destruct (H j Hj) as (TS & T1 & T2 & T3 & T4). exists (pick ix (W j)), TS.
  unfold toMsgs, toViews. rewrite L. cbn [snd]. split; [reflexivity|]. split; [reflexivity|]. split; [exact T1|]. split; [exact T2|]. split; [rewrite He; exact T3|].
  rewrite <- L. unfold toSpecs. cbn [snd]. destruct (mu_send _ _ _ _ HM j Hj) as (_ & Ks). destruct (Ks i ix F) as (_ & _ & Fx).
  eapply pick_shape; [exact T4|reflexivity|exact Fx].
Qed.

(** the blocks agree *)
Lemma blocks_agree W i j : i < n -> j < n ->
  blocks j (sendLog gnone G (cf i) (W i) (m_send (cf i))) = blocks i (recvLog G (vin W j) (m_recv (cf j))).
Proof.
  intros Hi Hj. rewrite sendLog_blocks by apply (mu_send _ _ _ _ HM i Hi). rewrite recvLog_blocks by apply (mu_recv _ _ _ _ HM j Hj).
  unfold outv, vin. pose proof (linked i j Hi Hj) as L. destruct (find _ (m_send (cf i))) as [p|] eqn:F, (find _ (m_recv (cf j))) as [q|]; try contradiction; [|reflexivity].
  rewrite L. destruct (G (snd q)); reflexivity.
Qed.
(** only the partners' buffers matter *)
Lemma Rx_ext W W' i : i < n -> (forall j, j <> i -> W j = W' j) -> Rx W i = Rx W' i /\
  recvLog G (vin W i) (m_recv (cf i)) = recvLog G (vin W' i) (m_recv (cf i)).
Proof.
  intros Hi H. destruct (mu_recv _ _ _ _ HM i Hi) as (_ & K & _). unfold Rx, recvTrace, recvLog.
  induction (m_recv (cf i)) as [|(j, ds) l IH]; [split; reflexivity|]. cbn [flat_map fst snd].
  destruct IH as (A & B); [intros k d Hk; apply (K k d); right; exact Hk|]. rewrite A, B.
  destruct (K j ds (or_introl eq_refl)) as (_ & Nj). unfold inc, vin. rewrite (H j Nj). split; reflexivity.
Qed.
End Rounds.
