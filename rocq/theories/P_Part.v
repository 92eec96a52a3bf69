From Coq Require Import ZArith QArith List Arith Lia Bool Sorted.
From Verif Require Import M_Net M_Mesh M_Comm M_M2N M_Part S_Term S_M2N S_Part P_Net P_Term P_Serial P_SerPart P_P2PRun.
Import ListNotations.
Open Scope nat_scope.

(** a loop over consecutive ranks; [st r]: the state before rank [r] *)
Lemma phase_fold_seq {M S C} n z (f : nat -> S -> proc M S) (q : nat -> proc M C) (st : nat -> S) c : forall k a,
  ~ In z (seq a k) -> z < n -> a + k <= n ->
  (forall r, a <= r < a + k -> talk z r (f r (st r)) (q r) (st (Datatypes.S r)) (c r)) ->
  phase n z (seq a k) (foldRanks (seq a k) f (st a)) q (st (a + k)) c.
Proof.
  induction k as [|k IH]; intros a Nz Hz Hn T A P R0 R E0 E.
  - exists P. cbn in *. rewrite Nat.add_0_r. split; [apply runs_refl; auto|]. split; auto. split; [intros r []|auto].
  - cbn [seq] in *. cbn [foldRanks] in E0. apply leads_bind in E0.
    assert (T1 := T a ltac:(lia)).
    assert (Naz : a <> z) by (intros ->; apply Nz; left; auto).
    destruct (runs_talk n z a _ _ _ _ T1 P _ (R a) Hz ltac:(lia) (not_eq_sym Naz) E0 (E a (or_introl eq_refl)))
      as (X & Y & U1 & U2 & U3).
    set (P' := putp a Y (putp z X P)) in *.
    destruct (IH (Datatypes.S a) (fun H => Nz (or_intror H)) Hz ltac:(lia) (fun r Hr => T r ltac:(lia)) A P' R0 R) as (Q & V1 & V2 & V3 & V4).
    + unfold P'. rewrite putp_ne, putp_eq; auto.
    + intros x Hx. assert (x <> a) by (apply in_seq in Hx; lia). assert (x <> z) by (intros ->; apply Nz; right; auto).
      unfold P'. rewrite !putp_ne by auto. apply E. right. auto.
    + exists Q. split; [eapply runs_trans; eauto|].
      split; [replace (a + Datatypes.S k) with (Datatypes.S a + k) by lia; exact V2|]. split.
      * intros x [<-|Hx]; [|apply V3, Hx]. rewrite V4; [|auto|intros H; apply in_seq in H; lia]. unfold P'. rewrite putp_eq by auto. exact U3.
      * intros i Hi Hr. rewrite V4; [|auto|intros H; apply Hr; right; auto]. unfold P'.
        rewrite !putp_ne; auto. intros ->. apply Hr. left; auto.
Qed.

(** * Numbers *)
Lemma before_S c r : before c (S r) = before c r + c r. Proof. reflexivity. Qed.
Lemma before_mono c : forall a b, a <= b -> before c a <= before c b.
Proof. intros a b H. induction H as [|b H IH]; [lia|]. rewrite before_S. lia. Qed.
Lemma numberVerts_spec : forall vs (a : nat), map v_glob (numberVerts (Z.of_nat a) vs) = map Z.of_nat (seq a (length vs)) /\
  Forall2 same_place vs (numberVerts (Z.of_nat a) vs) /\ length (numberVerts (Z.of_nat a) vs) = length vs.
Proof.
  induction vs as [|v r IH]; intros a; cbn [numberVerts map length seq]; [split; [reflexivity|split; [constructor|reflexivity]]|].
  replace (Z.of_nat a + 1)%Z with (Z.of_nat (S a)) by lia. destruct (IH (S a)) as (I1 & I2 & I3).
  split; [cbn [v_glob setGlobalIndex]; rewrite I1; reflexivity|]. split; [|cbn [length]; rewrite I3; reflexivity].
  constructor; auto. split; reflexivity.
Qed.
Lemma owner_spec vs : map v_glob (map (setOwner true) vs) = map v_glob vs /\
  Forall2 same_place vs (map (setOwner true) vs) /\ Forall (fun v => v_owner v = true) (map (setOwner true) vs).
Proof.
  split; [rewrite map_map; reflexivity|]. split.
  - induction vs as [|v r IH]; constructor; auto. split; reflexivity.
  - apply Forall_map. apply Forall_forall. intros v _. reflexivity.
Qed.
Lemma same_place_trans u v w : same_place u v -> same_place v w -> same_place u w.
Proof. intros (A & B) (C & D). split; congruence. Qed.
Lemma Forall2_trans_in {A} (R : A -> A -> Prop) : (forall x y z, R x y -> R y z -> R x z) -> forall l1 l2 l3, Forall2 R l1 l2 -> Forall2 R l2 l3 -> Forall2 R l1 l3.
Proof.
  intros T l1 l2 l3 H. revert l3. induction H as [|x y l l' Hxy Hl IH]; intros l3 H3; inversion H3; subst; constructor; eauto.
Qed.
Definition counts (m : nat -> mesh) (r : nat) : nat := length (m_verts (m r)).
Definition numberedMesh (m : nat -> mesh) (r : nat) : mesh :=
  setVerts (m r) (numberVerts (Z.of_nat (before (counts m) r)) (m_verts (m r))).
Lemma numbered_ok n m r p : pt_mesh p = allOwner (numberedMesh m r) ->
  pt_number p = Z.of_nat (before (counts m) n) -> pt_offsets p = map (fun s => Z.of_nat (before (counts m) (S s))) (seq 0 n) ->
  numbered n (counts m) r (m r) p.
Proof.
  intros E1 E2 E3. destruct (numberVerts_spec (m_verts (m r)) (before (counts m) r)) as (N1 & N2 & _).
  set (vs := numberVerts _ _) in *. destruct (owner_spec vs) as (O1 & O2 & O3).
  split; auto; rewrite E1; cbn.
  - repeat split.
  - fold vs. eapply Forall2_trans_in; [apply same_place_trans| |]; eauto.
  - fold vs. rewrite O1. exact N1.
  - fold vs. exact O3.
Qed.

(** offsets after the ranks below [s] *)
Definition offs (n : nat) (c : nat -> nat) (s : nat) : list Z :=
  map (fun i => Z.of_nat (before c (S i))) (seq 0 s) ++ repeat 0%Z (n - s).
Lemma upd_mid {A} (l l' : list A) x y : upd (length l) y (l ++ x :: l') = l ++ y :: l'.
Proof. induction l as [|a l IH]; cbn; [reflexivity|]. rewrite IH. reflexivity. Qed.
Lemma offs_len n c s : s <= n -> length (offs n c s) = n.
Proof. intros H. unfold offs. rewrite app_length, map_length, seq_length, repeat_length. lia. Qed.
Lemma offs_nth n c s i : i < s -> nth i (offs n c s) 0%Z = Z.of_nat (before c (S i)).
Proof.
  intros H. unfold offs. rewrite app_nth1 by (rewrite map_length, seq_length; lia).
  rewrite (nth_indep _ 0%Z (Z.of_nat (before c (S 0)))) by (rewrite map_length, seq_length; lia).
  rewrite (map_nth (fun i => Z.of_nat (before c (S i)))), seq_nth by lia. reflexivity.
Qed.
Lemma offs_S n c s x : s < n -> x = Z.of_nat (before c (S s)) -> upd s x (offs n c s) = offs n c (S s).
Proof.
  intros H ->. unfold offs. replace (n - s) with (S (n - S s)) by lia. cbn [repeat].
  set (l := map (fun i => Z.of_nat (before c (S i))) (seq 0 s)).
  assert (L : length l = s) by (unfold l; rewrite map_length, seq_length; reflexivity).
  rewrite <- L at 1. rewrite upd_mid. rewrite seq_S, map_app. cbn [map]. fold l. rewrite <- app_assoc. reflexivity.
Qed.
Lemma offs_full n c : offs n c n = map (fun i => Z.of_nat (before c (S i))) (seq 0 n).
Proof. unfold offs. rewrite Nat.sub_diag. cbn [repeat]. apply app_nil_r. Qed.
Lemma offs_0 n c : 0 < n -> upd 0 (Z.of_nat (c 0)) (repeat 0%Z n) = offs n c 1.
Proof. intros H. rewrite <- (offs_S n c 0 (Z.of_nat (c 0))) by auto. unfold offs. cbn [seq map app]. rewrite Nat.sub_0_r. reflexivity. Qed.

(** the distribution of consecutive numbers *)
Lemma range_spec a b : a <= b -> range (Z.of_nat a) (Z.of_nat b) = seq a (b - a).
Proof.
  intros H. unfold range. rewrite Nat2Z.id. replace (Z.to_nat (Z.of_nat b - Z.of_nat a)) with (b - a) by lia.
  set (k := b - a). clearbody k. clear b H. revert a.
  induction k as [|k IH]; intros a; [reflexivity|]. cbn [seq map]. rewrite <- seq_shift, map_map, Nat.add_0_r. f_equal.
  symmetry. rewrite <- (IH (S a)). apply map_ext. intros i. lia.
Qed.
Definition blocks (c : nat -> nat) (n : nat) : distribution := map (fun r => (r, seq (before c r) (c r))) (seq 0 n).
Lemma fill_spec n c : 0 < n -> fillDistribution n (offs n c n) = blocks c n.
Proof.
  intros Hn. unfold fillDistribution. rewrite (offs_nth n c n 0) by lia. cbn [vset].
  change 0%Z with (Z.of_nat 0). rewrite range_spec by lia. cbn [before Nat.add]. rewrite Nat.sub_0_r.
  assert (G : forall k, k < n -> fold_left (fun vd s => vset s (range (nth (s - 1) (offs n c n) (Z.of_nat 0)) (nth s (offs n c n) (Z.of_nat 0))) vd)
              (seq 1 k) [(0, seq 0 (c 0))] = blocks c (S k)).
  { induction k as [|k IH]; intros Hk; [reflexivity|]. rewrite seq_S, fold_left_app, IH by lia. cbn [fold_left Nat.add].
    change (Z.of_nat 0) with 0%Z. rewrite !offs_nth by lia. replace (S (S k - 1)) with (S k) by lia.
    rewrite range_spec by (rewrite !before_S; lia). rewrite !before_S.
    replace (before c k + c k + c (S k) - (before c k + c k)) with (c (S k)) by lia.
    rewrite vset_last.
    - unfold blocks. rewrite (seq_S (S k) 0), map_app. reflexivity.
    - intros x Hx. unfold blocks in Hx. rewrite map_map in Hx. cbn [fst] in Hx. rewrite map_id in Hx. apply in_seq in Hx. lia. }
  unfold secondaries. rewrite G by lia. f_equal. lia.
Qed.
Lemma vfind_blocks c n r : r < n -> vfind r (blocks c n) = Some (seq (before c r) (c r)).
Proof.
  intros H. unfold blocks. assert (G : forall k a, a <= r < a + k -> vfind r (map (fun r => (r, seq (before c r) (c r))) (seq a k)) = Some (seq (before c r) (c r))).
  { induction k as [|k IH]; intros a Ha; [lia|]. cbn [seq map vfind]. destruct (Nat.eqb_spec a r) as [->|]; [reflexivity|]. apply IH. lia. }
  apply G. lia.
Qed.
Lemma vfind_blocks_none c n r : n <= r -> vfind r (blocks c n) = None.
Proof.
  intros H. unfold blocks. assert (G : forall k a, a + k <= r -> vfind r (map (fun r => (r, seq (before c r) (c r))) (seq a k)) = None).
  { induction k as [|k IH]; intros a Ha; [reflexivity|]. cbn [seq map vfind]. destruct (Nat.eqb_spec a r); [lia|]. apply IH. lia. }
  apply G. lia.
Qed.

(** * Programs without a result of their own *)
Lemma phase_all {M A} n (p : proc M A) (q : nat -> proc M A) b c (prog : nat -> proc M A) res : 0 < n ->
  phase n 0 (secondaries n) p q b c -> prog 0 = p -> (forall r, 0 < r < n -> prog r = q r) ->
  res 0 = b -> (forall r, 0 < r < n -> res r = c r) -> all_end n prog res.
Proof.
  intros Hn H E0 E R0 R. eapply phase_ends; [exact Hn|exact H| |].
  - rewrite E0. eapply leads_mono; [|apply leads_self]. cbn. intros x X -> ->. rewrite R0. reflexivity.
  - intros r Hr. rewrite E by exact Hr. eapply leads_mono; [|apply leads_self]. cbn. intros x X -> ->. rewrite R by exact Hr. reflexivity.
Qed.
Lemma talk_ret {M A B} i j (a : A) (b : B) : talk (M:=M) i j (PRet a) (PRet b) a b.
Proof. constructor. Qed.
Lemma phase_check_z {M B C} n z rs (cond : bool) e (p : proc M B) (q : nat -> proc M C) b c : cond = true ->
  phase n z rs p q b c -> phase n z rs (bind (check cond e) (fun _ => p)) q b c.
Proof. intros -> H. exact H. Qed.
Lemma phase_check_r {M B C} n z rs (cond : nat -> bool) e (p : proc M B) (q : nat -> proc M C) b c : (forall r, In r rs -> cond r = true) ->
  phase n z rs p q b c -> phase n z rs p (fun r => bind (check (cond r) e) (fun _ => q r)) b c.
Proof. intros Hc H. eapply phase_ext; [exact H|reflexivity|reflexivity| |reflexivity]. intros r Hr. rewrite Hc by exact Hr. reflexivity. Qed.

(** * Provided partitions *)
Section PREP.
Variables (n : nat) (d : bool) (m : nat -> mesh).
Hypotheses (Hn : 1 < n) (Hpos : 0 < before (counts m) n).
Let c := counts m.
Let N := Z.of_nat (before c n).
Definition partOf (r : nat) : part :=
  MkPart (allOwner (numberedMesh m r)) (offs n c n) N (if (r =? 0) && d then blocks c n else []).
Lemma offs_ge s : forallb (Z.leb 0) (offs n c s) = true.
Proof.
  apply forallb_forall. intros x Hx. unfold offs in Hx. apply in_app_or in Hx. destruct Hx as [Hx|Hx].
  - apply in_map_iff in Hx. destruct Hx as (i & <- & _). apply Z.leb_le. lia.
  - apply repeat_spec in Hx. subst x. reflexivity.
Qed.
Definition finishPart (p : part) : proc packet part :=
  bind (check (0 <? pt_number p)%Z (EAssert 263)) (fun _ => bind (check (negb (isEmpty (pt_offsets p))) (EAssert 264)) (fun _ =>
  PRet (MkPart (allOwner (pt_mesh p)) (pt_offsets p) (pt_number p) (pt_dist p)))).
Lemma prepare_phase : phase n 0 (secondaries n) (prepare n 0 d (m 0)) (fun r => prepare n r d (m r)) (partOf 0) partOf.
Proof.
  destruct (secondaries_ok n) as (Nd & Nz & Lt).
  assert (Hz : 0 < n) by lia.
  unfold prepare at 1. assert (P0 : isPrimary n 0 = true) by (unfold isPrimary; cbn; apply negb_true_iff, Nat.eqb_neq; lia). rewrite P0.
  set (F := fun s (st : list Z * Z) => bind (recvInt s) _). set (G := fun st : list Z * Z => bind (check _ _) _).
  assert (T : phase n 0 (secondaries n) (foldRanks (secondaries n) F (upd 0 (sizeOf (m_verts (m 0))) (repeat 0%Z n), sizeOf (m_verts (m 0))))
    (fun r => bind (sendInt 0 (sizeOf (m_verts (m r)))) (fun _ => recvInt 0)) (offs n c n, N) (fun r => Z.of_nat (before c r))).
  { eapply phase_ext; [eapply (phase_fold_seq n 0 F (fun r => bind (sendInt 0 (sizeOf (m_verts (m r)))) (fun _ => recvInt 0))
      (fun r => (offs n c r, Z.of_nat (before c r))) (fun r => Z.of_nat (before c r)) (n - 1) 1)| | | |]; auto.
    - lia.
    - intros r Hr. unfold F. eapply talk_bind; [apply talk_sym, talk_int|]. cbv beta. cbn [fst snd].
      eapply talk_bind_l; [apply talk_int|]. cbv beta. f_equal. f_equal.
      + apply offs_S; [lia|]. rewrite offs_nth by lia. replace (S (r - 1)) with r by lia. unfold sizeOf. rewrite before_S. unfold c, counts. lia.
      + unfold sizeOf. rewrite before_S. unfold c, counts. lia.
    - unfold secondaries. f_equal. f_equal. symmetry. apply (offs_0 n c). lia.
    - replace (1 + (n - 1)) with n by lia. reflexivity. }
  eapply phase_ext; [eapply (phase_bind n 0 (secondaries n) (bind (foldRanks (secondaries n) F _) G)
     (fun r => bind (bind (sendInt 0 (sizeOf (m_verts (m r)))) (fun _ => recvInt 0)) (fun globalVertexCounter =>
          bind (bcastIntRecv 0) (fun globalNumberOfVertices =>
          bind (check (negb (Z.eqb globalNumberOfVertices (-1))) (EAssert 261)) (fun _ =>
          bind (bcastVecIntRecv 0) (fun vertexOffsets =>
          PRet (MkPart (setVerts (m r) (numberVerts globalVertexCounter (m_verts (m r)))) vertexOffsets globalNumberOfVertices []))))))
     (MkPart (numberedMesh m 0) (offs n c n) N (if d then blocks c n else []))
     (fun r => MkPart (numberedMesh m r) (offs n c n) N [])
     finishPart (fun _ => finishPart))| | | |].
  - eapply phase_bind; [exact T|]. unfold G. cbn [fst snd]. apply phase_check_z; [apply offs_ge|].
    eapply phase_bind; [apply phase_bcastInt; auto|]. cbv beta.
    apply (phase_check_r n 0 (secondaries n) (fun _ => negb (Z.eqb N (-1))) (EAssert 261)).
    { intros r _. apply negb_true_iff, Z.eqb_neq. unfold N. lia. }
    eapply phase_ext; [apply (phase_bind n 0 (secondaries n) (bcastVecInt (secondaries n) (offs n c n)) (fun _ => bcastVecIntRecv 0) tt (fun _ => offs n c n)
       (fun _ => PRet (MkPart (numberedMesh m 0) (offs n c n) N (if d then fillDistribution n (offs n c n) else [])))
       (fun r vo => PRet (MkPart (numberedMesh m r) vo N [])) (MkPart (numberedMesh m 0) (offs n c n) N (if d then fillDistribution n (offs n c n) else []))
       (fun r => MkPart (numberedMesh m r) (offs n c n) N []));
       [apply phase_bcastVecInt; auto|apply (phase_ret n 0 (secondaries n) _ (fun r => MkPart (numberedMesh m r) (offs n c n) N []))]| | | |].
    + reflexivity.
    + cbv beta. rewrite fill_spec by lia. reflexivity.
    + intros r _. reflexivity.
    + intros r _. reflexivity.
  - unfold finishPart. cbn [pt_number pt_offsets pt_mesh pt_dist].
    apply phase_check_z; [apply Z.ltb_lt; unfold N, c; lia|].
    assert (E : negb (isEmpty (offs n c n)) = true).
    { pose proof (offs_len n c n (Nat.le_refl n)) as L. destruct (offs n c n); [cbn in L; lia|reflexivity]. }
    apply phase_check_z; [exact E|].
    apply (phase_check_r n 0 (secondaries n) (fun _ => (0 <? N)%Z) (EAssert 263)); [intros; apply Z.ltb_lt; unfold N, c; lia|].
    apply (phase_check_r n 0 (secondaries n) (fun _ => negb (isEmpty (offs n c n))) (EAssert 264)); [intros; exact E|].
    apply (phase_ret n 0 (secondaries n) _ (fun r => MkPart (allOwner (numberedMesh m r)) (offs n c n) N [])).
  - reflexivity.
  - reflexivity.
  - intros r Hr. apply in_seq in Hr. unfold prepare.
    assert (isPrimary n r = false) as -> by (unfold isPrimary; destruct (Nat.eqb_spec r 0); [lia|reflexivity]).
    assert (isSecondary r = true) as -> by (unfold isSecondary; apply negb_true_iff, Nat.eqb_neq; lia).
    reflexivity.
  - intros r Hr. apply in_seq in Hr. unfold partOf. destruct (Nat.eqb_spec r 0); [lia|]. reflexivity.
Qed.
Lemma prepare_ends : all_end n (fun r => prepare n r d (m r)) partOf.
Proof. eapply phase_all; [lia|exact prepare_phase| | | |]; reflexivity. Qed.
End PREP.
