From Coq Require Import ZArith QArith List Arith Lia Bool Sorted.
From Verif Require Import M_Net M_Comm M_M2N S_Term S_Intra S_M2N P_Net P_Term P_Serial P_SerPart P_Intra P_M2N P_P2P.
Import ListNotations.
Open Scope nat_scope.

(** * Exchanging vertex distributions *)
Lemma ofInts_toInts l : ofInts (toInts l) = l.
Proof. unfold ofInts, toInts. rewrite map_map. rewrite <- (map_id l) at 2. apply map_ext. intros x. apply Nat2Z.id. Qed.
Definition vsets (vd acc : distribution) : distribution := fold_left (fun m e => vset (fst e) (snd e) m) vd acc.
Lemma vset_last r l : forall acc, (forall k, In k (map fst acc) -> k < r) -> vset r l acc = acc ++ [(r, l)].
Proof.
  induction acc as [|(k, x) t IH]; intros H; cbn [vset app]; auto.
  assert (Hk : k < r) by (apply H; left; auto). destruct (Nat.eqb_spec r k); [lia|]. destruct (Nat.ltb_spec r k); [lia|].
  f_equal. apply IH. intros y Hy. apply H. right. auto.
Qed.
Lemma vsets_sorted : forall vd acc, StronglySorted lt (map fst vd) -> (forall k r, In k (map fst acc) -> In r (map fst vd) -> k < r) ->
  vsets vd acc = acc ++ vd.
Proof.
  induction vd as [|(r, l) t IH]; intros acc S1 H; [cbn; rewrite app_nil_r; reflexivity|].
  unfold vsets. cbn [fold_left fst snd]. fold (vsets t (vset r l acc)). cbn [map fst] in *.
  rewrite vset_last by (intros k Hk; apply H; [auto|left; auto]). rewrite IH; [|apply (ss_tail r), S1|].
  - rewrite <- app_assoc. reflexivity.
  - intros k x Hk Hx. rewrite map_app in Hk. apply in_app_or in Hk as [Hk|[<-|[]]]; [apply H; [auto|right; auto]|].
    apply (ss_head _ _ S1 x Hx).
Qed.
Lemma vsets_nil vd : StronglySorted lt (map fst vd) -> vsets vd [] = vd.
Proof. intros H. rewrite vsets_sorted; auto. intros k r []. Qed.
Lemma talk_entries i j : forall vd acc,
  talk i j (forEntries vd (fun rank indices => bind (sendInt j (Z.of_nat rank)) (fun _ => sendRangeInt j (toInts indices))))
    (times (length vd) (fun m => bind (recvInt i) (fun rank => bind (receiveRangeInt i) (fun l => PRet (vset (Z.to_nat rank) (ofInts l) m)))) acc)
    tt (vsets vd acc).
Proof.
  induction vd as [|(r, l) t IH]; intros acc; cbn [forEntries times length]; [constructor|].
  unfold vsets. cbn [fold_left fst snd]. fold (vsets t (vset r l acc)).
  eapply talk_bind; [|apply IH]. eapply talk_bind; [apply talk_int|]. cbv beta.
  eapply talk_bind_r; [apply talk_rangeInt|]. rewrite Nat2Z.id, ofInts_toInts. reflexivity.
Qed.
Lemma talk_distribution i j vd : StronglySorted lt (map fst vd) -> talk i j (sendDistribution vd j) (receiveDistribution i) tt vd.
Proof.
  intros H. unfold sendDistribution, receiveDistribution. eapply talk_bind; [apply talk_int|]. cbv beta.
  unfold sizeOf. rewrite Nat2Z.id. pose proof (talk_entries i j vd []) as X. rewrite (vsets_nil vd H) in X. exact X.
Qed.
Section Side.
Variables (T b n : nat).
Hypothesis Hn : 0 < n.
Hypothesis Hb : b + n <= T.
Lemma procs_lt : forall p, In p (procs b n) -> p < T.
Proof. intros p H. destruct (procs_ok b n) as (_ & _ & I). apply I in H. lia. Qed.
Lemma bT : b < T. Proof. lia. Qed.
Lemma phase_entries : forall vd acc,
  phase T b (procs b n)
    (forEntries vd (fun rank indices => bind (bcastInt (procs b n) (Z.of_nat rank)) (fun _ => bcastVecInt (procs b n) (toInts indices))))
    (fun _ => times (length vd) (fun m => bind (recvInt b) (fun rank => bind (bcastVecIntRecv b) (fun l => PRet (vset (Z.to_nat rank) (ofInts l) m)))) acc)
    tt (fun _ => vsets vd acc).
Proof.
  destruct (procs_ok b n) as (Nd & Nz & _).
  induction vd as [|(r, l) t IH]; intros acc; cbn [forEntries times length]; [apply phase_ret|].
  unfold vsets. cbn [fold_left fst snd]. fold (vsets t (vset r l acc)).
  eapply (phase_bind T b (procs b n) _ _ tt (fun _ => vset r l acc) _ (fun _ => _)); [|apply (IH (vset r l acc))].
  eapply phase_bind; [apply (phase_bcastInt T b _ Nd Nz bT procs_lt)|]. cbv beta.
  eapply phase_bind_r; [apply (phase_bcastVecInt T b _ Nd Nz bT procs_lt)|]. intros p _. rewrite Nat2Z.id, ofInts_toInts. reflexivity.
Qed.
Lemma phase_broadcast vd (junk : nat -> distribution) : StronglySorted lt (map fst vd) ->
  phase T b (procs b n) (broadcastDistribution b n 0 vd) (fun p => broadcastDistribution b n (p - b) (junk p)) vd (fun _ => vd).
Proof.
  intros H. destruct (procs_ok b n) as (Nd & Nz & I). unfold broadcastDistribution, isPrimary. cbn [Nat.eqb andb isSecondary negb].
  destruct (Nat.eqb_spec n 1) as [E|E]; cbn [negb].
  - eapply phase_ext; [apply (phase_ret T b (procs b n) vd (fun _ => vd))| | | |]; try reflexivity.
    intros p Hp. apply I in Hp. lia.
  - eapply (phase_ext T b (procs b n) _ _ (fun _ => bcastReceiveDistribution b)); try reflexivity.
    + eapply phase_bind_z; [|reflexivity]. unfold bcastDistribution, bcastReceiveDistribution.
      eapply phase_bind; [apply (phase_bcastInt T b _ Nd Nz bT procs_lt)|]. cbv beta.
      unfold sizeOf. rewrite Nat2Z.id. pose proof (phase_entries vd []) as X. rewrite (vsets_nil vd H) in X. exact X.
    + intros p Hp. apply I in Hp. unfold isSecondary. destruct (Nat.eqb_spec (p - b) 0); [lia|]. cbn [andb negb]. reflexivity.
Qed.
(** what follows the exchange between the primary ranks *)
Definition connectTail (r : nat) (vd other : distribution) : proc packet commMap :=
  bind (broadcastDistribution b n r vd) (fun vd' =>
  bind (broadcastDistribution b n r other) (fun other' => orErr (buildCommunicationMap vd' other' r) (EAssert 246))).
Lemma phase_tail vd other cm (junk : nat -> distribution) : StronglySorted lt (map fst vd) -> StronglySorted lt (map fst other) ->
  (forall r, r < n -> buildCommunicationMap vd other r = Some (cm r)) ->
  phase T b (procs b n) (connectTail 0 vd other) (fun p => connectTail (p - b) (junk p) []) (cm 0) (fun p => cm (p - b)).
Proof.
  intros H H' B. destruct (procs_ok b n) as (Nd & Nz & I). unfold connectTail.
  eapply (phase_bind T b (procs b n)); [apply (phase_broadcast vd junk H)|]. cbv beta.
  eapply (phase_bind T b (procs b n)); [apply (phase_broadcast other (fun _ => []) H')|]. cbv beta.
  rewrite (B 0 Hn). cbn [orErr].
  eapply phase_ext; [apply (phase_ret T b (procs b n) (cm 0) (fun p => cm (p - b)))| | | |]; try reflexivity.
  intros p Hp. apply I in Hp. rewrite B by lia. reflexivity.
Qed.
End Side.

(** * Connecting both sides: the acceptor at [b] with [n] ranks, the requester at [b'] with [m] *)
Section Connect.
Variables (T b n b' m : nat) (vd vd' : distribution) (local local' : nat -> distribution) (cm cm' : nat -> commMap).
Hypothesis Hn : 0 < n.
Hypothesis Hm : 0 < m.
Hypothesis Hb : b + n <= T.
Hypothesis Hb' : b' + m <= T.
Hypothesis Dj : b + n <= b' \/ b' + m <= b.
Hypothesis S1 : StronglySorted lt (map fst vd).
Hypothesis S2 : StronglySorted lt (map fst vd').
Hypothesis E1 : forall r, r < n -> buildCommunicationMap vd vd' r = Some (cm r).
Hypothesis E2 : forall r, r < m -> buildCommunicationMap vd' vd r = Some (cm' r).
Definition startA (r : nat) := p2pConnect true b n b' r (if r =? 0 then vd else local r).
Definition startB (r : nat) := p2pConnect false b' m b r (if r =? 0 then vd' else local' r).
Lemma connect_runs {A} (P : nat -> proc packet A) (R R' : nat -> commMap -> proc packet A -> Prop) :
  (forall r, r < n -> leads (startA r) (P (b + r)) (R r)) ->
  (forall r, r < m -> leads (startB r) (P (b' + r)) (R' r)) ->
  exists Q, runs T P Q /\ (forall r, r < n -> R r (cm r) (Q (b + r))) /\ (forall r, r < m -> R' r (cm' r) (Q (b' + r))).
Proof using Hn Hm Hb Hb' Dj S1 S2 E1 E2.
  intros LA LB. destruct (procs_ok b n) as (_ & _ & I). destruct (procs_ok b' m) as (_ & _ & I').
  destruct (runs_talk (A := A) T b b'
    (bind (sendDistribution vd b') (fun _ => receiveDistribution b'))
    (bind (receiveDistribution b) (fun other => bind (sendDistribution vd' b) (fun _ => PRet other))) vd' vd) with
    (P := P) (Rp := fun o X => leads (connectTail b n 0 vd o) X (R 0)) (Rq := fun o X => leads (connectTail b' m 0 vd' o) X (R' 0))
    as (X & Y & U1 & U2 & U3); try lia.
  - eapply talk_bind; [apply talk_distribution, S1|]. cbv beta. apply talk_sym.
    eapply talk_bind_l; [apply talk_distribution, S2|reflexivity].
  - pose proof (LA 0 Hn) as X. rewrite Nat.add_0_r in X. apply leads_bind in X. exact X.
  - pose proof (LB 0 Hm) as X. rewrite Nat.add_0_r in X. apply leads_bind in X. exact X.
  - set (P1 := putp b' Y (putp b X P)) in *.
    destruct (phase_tail T b n Hn Hb vd vd' cm (fun p => local (p - b)) S1 S2 E1 A P1 (R 0) (fun p => R (p - b))) as (P2 & V1 & V2 & V3 & V4).
    { unfold P1. rewrite putp_ne, putp_eq by lia. exact U2. }
    { intros p Hp. apply I in Hp. unfold P1. rewrite !putp_ne by lia. pose proof (LA (p - b)) as X0.
      replace (b + (p - b)) with p in X0 by lia. unfold startA, p2pConnect in X0.
      destruct (Nat.eqb_spec (p - b) 0); [lia|]. unfold isSecondary in X0.
      destruct (Nat.eqb_spec (p - b) 0); [lia|]. apply X0. lia. }
    destruct (phase_tail T b' m Hm Hb' vd' vd cm' (fun p => local' (p - b')) S2 S1 E2 A P2 (R' 0) (fun p => R' (p - b'))) as (P3 & W1 & W2 & W3 & W4).
    { rewrite V4; [|lia|intros H; apply I in H; lia]. unfold P1. rewrite putp_eq by lia. exact U3. }
    { intros p Hp. apply I' in Hp. rewrite V4; [|lia|intros H; apply I in H; lia].
      unfold P1. rewrite !putp_ne by lia. pose proof (LB (p - b')) as X0.
      replace (b' + (p - b')) with p in X0 by lia. unfold startB, p2pConnect in X0.
      destruct (Nat.eqb_spec (p - b') 0); [lia|]. unfold isSecondary in X0.
      destruct (Nat.eqb_spec (p - b') 0); [lia|]. apply X0. lia. }
    exists P3. split; [eapply runs_trans; [exact U1|eapply runs_trans; [exact V1|exact W1]]|]. split.
    + intros r Hr. rewrite W4; [|lia|intros H; apply I' in H; lia]. destruct r as [|r]; [rewrite Nat.add_0_r; exact V2|].
      pose proof (V3 (b + S r)) as X0. replace (b + S r - b) with (S r) in X0 by lia. apply X0. apply I. lia.
    + intros r Hr. destruct r as [|r]; [rewrite Nat.add_0_r; exact W2|].
      pose proof (W3 (b' + S r)) as X0. replace (b' + S r - b') with (S r) in X0 by lia. apply X0. apply I'. lia.
Qed.
End Connect.

(** * Data over the edges of a bipartite graph *)
Definition outs (E : list (nat * nat)) (s : nat) : list nat := map snd (filter (fun e => fst e =? s) E).
Definition ins (E : list (nat * nat)) (r : nat) : list nat := map fst (filter (fun e => snd e =? r) E).
Section Bip.
Variables (T b n b' m dim : nat) (items : nat -> list Q) (iS iR : nat -> nat -> list nat) (len : nat -> nat)
  (buf : nat -> nat -> list Q) (step : nat -> nat -> list Q -> list Q).
Hypothesis Hb : b + n <= T.
Hypothesis Hb' : b' + m <= T.
Hypothesis Dj : b + n <= b' \/ b' + m <= b.
Hypothesis Pk : forall s r, s < n -> r < m -> pack (items s) dim (iS s r) = Some (buf s r).
Hypothesis Lb : forall s r, s < n -> r < m -> length (buf s r) = length (iR s r) * dim.
Hypothesis Up : forall s r acc, s < n -> r < m -> length acc = len r ->
  unpack 0 (buf s r) dim (iR s r) acc = Some (step s r acc) /\ length (step s r acc) = len r.
Lemma bip_runs {A} (RS : nat -> proc packet A -> Prop) (RR : nat -> list Q -> proc packet A -> Prop) : forall E (acc : nat -> list Q) P,
  (forall s r, In (s, r) E -> s < n /\ r < m) ->
  (forall r, r < m -> length (acc r) = len r) ->
  (forall s, s < n -> leads (sendMappings b' (map (fun r => (r, iS s r)) (outs E s)) (items s) dim) (P (b + s)) (fun _ X => RS s X)) ->
  (forall r, r < m -> leads (receiveMappings b (map (fun s => (s, iR s r)) (ins E r)) (acc r) dim) (P (b' + r)) (RR r)) ->
  exists Q, runs T P Q /\ (forall s, s < n -> RS s (Q (b + s))) /\
    (forall r, r < m -> RR r (fold_left (fun a s => step s r a) (ins E r) (acc r)) (Q (b' + r))) /\
    (forall r, r < m -> length (fold_left (fun a s => step s r a) (ins E r) (acc r)) = len r).
Proof using Hb Hb' Dj Pk Lb Up.
  induction E as [|(s0, r0) E IH]; intros acc P HE La LS LR.
  - exists P. split; [apply runs_refl; auto|]. split; [|split].
    + intros s Hs. apply (LS s Hs).
    + intros r Hr. apply (LR r Hr).
    + intros r Hr. apply (La r Hr).
  - destruct (HE s0 r0 (or_introl eq_refl)) as (Hs0 & Hr0).
    destruct (Up s0 r0 (acc r0) Hs0 Hr0 (La r0 Hr0)) as (Eu & Lu).
    pose proof (LS s0 Hs0) as X. unfold outs in X. cbn [filter fst snd] in X. rewrite Nat.eqb_refl in X. cbn [map fst snd sendMappings] in X.
    rewrite (Pk s0 r0 Hs0 Hr0) in X. cbn [orErr bind] in X. cbn [sendDbls send bind leads] in X. destruct X as (X & EX & LX).
    pose proof (LR r0 Hr0) as Y. unfold ins in Y. cbn [filter fst snd] in Y. rewrite Nat.eqb_refl in Y. cbn [map fst snd receiveMappings] in Y.
    unfold recvDbls in Y. cbn [recv bind leads] in Y. destruct Y as (Y & EY & LY). specialize (LY (KDbls (buf s0 r0))).
    cbn beta iota in LY. rewrite (Lb s0 r0 Hs0 Hr0), Nat.eqb_refl in LY. cbn [bind] in LY. rewrite Eu in LY. cbn [orErr bind] in LY.
    pose proof (runs_comm T P (b + s0) (b' + r0) (KDbls (buf s0 r0)) X Y) as RC.
    set (P1 := putp (b' + r0) (Y (KDbls (buf s0 r0))) (putp (b + s0) X P)) in *.
    set (acc' := fun r => if r =? r0 then step s0 r0 (acc r0) else acc r).
    destruct (IH acc' P1) as (Q & U1 & U2 & U3 & U4).
    + intros s r H. apply HE. right. auto.
    + intros r Hr. unfold acc'. destruct (Nat.eqb_spec r r0) as [->|]; auto.
    + intros s Hs. unfold P1. rewrite putp_ne by lia. destruct (Nat.eq_dec s s0) as [->|N].
      * rewrite putp_eq by auto. exact LX.
      * rewrite putp_ne by lia. pose proof (LS s Hs) as Z. unfold outs in Z. cbn [filter fst] in Z.
        destruct (Nat.eqb_spec s0 s); [lia|]. exact Z.
    + intros r Hr. unfold P1, acc'. destruct (Nat.eqb_spec r r0) as [->|N].
      * rewrite putp_eq by auto. exact LY.
      * rewrite !putp_ne by lia. pose proof (LR r Hr) as Z. unfold ins in Z. cbn [filter snd] in Z.
        destruct (Nat.eqb_spec r0 r); [lia|]. exact Z.
    + assert (F : forall r, fold_left (fun a s => step s r a) (ins ((s0, r0) :: E) r) (acc r) = fold_left (fun a s => step s r a) (ins E r) (acc' r)).
      { intros r. unfold ins, acc'. cbn [filter snd]. rewrite (Nat.eqb_sym r r0). destruct (Nat.eqb_spec r0 r) as [<-|N]; reflexivity. }
      exists Q. split; [|split; [exact U2|split]].
      * eapply runs_trans; [|exact U1]. apply RC; try lia; auto.
      * intros r Hr. rewrite F. apply U3, Hr.
      * intros r Hr. rewrite F. apply U4, Hr.
Qed.
End Bip.

(** * Values *)
Lemma nth_fs {A} (d : A) : forall k n v i, i < n -> nth i (firstn n (skipn k v)) d = nth (k + i) v d.
Proof.
  induction k as [|k IH]; intros n v i H.
  - cbn [skipn Nat.add]. revert v i H. induction n as [|n IHn]; intros v i H; [lia|]. destruct v as [|x v]; [destruct i; reflexivity|].
    destruct i as [|i]; [reflexivity|]. cbn [firstn nth]. apply IHn. lia.
  - destruct v as [|x v]; cbn [skipn Nat.add nth]; [rewrite firstn_nil; destruct i; reflexivity|]. apply IH, H.
Qed.
Lemma pack_ok items dim len : length items = dim * len -> forall idx, (forall k, In k idx -> k < len) ->
  exists buf, pack items dim idx = Some buf /\ length buf = dim * length idx /\
    forall k d, k < length idx -> d < dim -> nth (dim * k + d) buf 0%Q = nth (dim * nth k idx 0 + d) items 0%Q.
Proof.
  intros L. induction idx as [|i r IH]; intros H.
  - exists []. split; auto. split; [cbn; lia|]. intros k d Hk. cbn in Hk. lia.
  - destruct IH as (buf & E1 & E2 & E3). { intros k Hk. apply H. right. auto. }
    assert (Hi : i < len) by (apply H; left; auto). pose proof (block_le dim i len Hi) as B.
    cbn [pack]. unfold packBlock. replace (i * dim + dim <=? length items) with true by (symmetry; apply Nat.leb_le; lia).
    rewrite E1. eexists. split; [reflexivity|].
    assert (Lf : length (firstn dim (skipn (i * dim) items)) = dim) by (rewrite firstn_length, skipn_length; lia).
    split; [rewrite app_length, Lf, E2; cbn [length]; lia|].
    intros k d Hk Hd. destruct k as [|k].
    + rewrite app_nth1 by lia. rewrite nth_fs by lia. cbn [nth]. f_equal. lia.
    + rewrite app_nth2 by lia. rewrite Lf. replace (dim * S k + d - dim) with (dim * k + d) by lia.
      rewrite E3 by (cbn [length] in Hk; lia). reflexivity.
Qed.
Lemma unpack_add rb dim : forall idx i items, unpack i rb dim idx items = addBlocks i rb idx dim items.
Proof.
  induction idx as [|x r IH]; intros i items; cbn [unpack addBlocks]; auto.
  rewrite (Nat.mul_comm i dim), (Nat.mul_comm x dim). rewrite IH. reflexivity.
Qed.
(** sums over a sublist of positions *)
Fixpoint lsum (g : nat -> Q) (l : list nat) : Q := match l with [] => 0 | x :: r => g x + lsum g r end.
Lemma lsum_nth g l : (lsum g l == sumQ (fun k => g (nth k l 0%nat)) (length l))%Q.
Proof. induction l as [|x r IH]; cbn [lsum length]; [reflexivity|]. rewrite sumQ_front, IH. reflexivity. Qed.
Lemma lsum_posIn g l2 : forall l1 i, (forall j, j < length l1 -> ~ In (nth j l1 0) l2 -> (g (i + j)%nat == 0)%Q) ->
  (lsum g (posIn i l1 l2) == sumQ (fun j => g (i + j)%nat) (length l1))%Q.
Proof.
  induction l1 as [|x r IH]; intros i H; cbn [posIn length]; [reflexivity|]. rewrite sumQ_front.
  assert (X : (lsum g (posIn (S i) r l2) == sumQ (fun j => g (i + S j)%nat) (length r))%Q).
  { rewrite IH.
    - apply sumQ_ext. intros j _. replace (S i + j) with (i + S j) by lia. reflexivity.
    - intros j Hj N. replace (S i + j) with (i + S j) by lia. apply H; [cbn [length]; lia|exact N]. }
  destruct (mem x l2) eqn:E.
  - cbn [lsum]. rewrite X, Nat.add_0_r. reflexivity.
  - rewrite X. rewrite (H 0); [ring|cbn [length]; lia|]. apply mem_false, E.
Qed.
Lemma lsum_filter (f : nat -> bool) g n a : (forall k, a <= k < a + n -> f k = false -> (g k == 0)%Q) ->
  (lsum g (filter f (seq a n)) == sumQ (fun j => g (a + j)%nat) n)%Q.
Proof.
  revert a. induction n as [|n IH]; intros a H; cbn [seq filter]; [reflexivity|]. rewrite sumQ_front.
  assert (X : (lsum g (filter f (seq (S a) n)) == sumQ (fun j => g (a + S j)%nat) n)%Q).
  { rewrite IH by (intros k Hk; apply H; lia). apply sumQ_ext. intros j _. replace (S a + j) with (a + S j) by lia. reflexivity. }
  destruct (f a) eqn:E.
  - cbn [lsum]. rewrite X, Nat.add_0_r. reflexivity.
  - assert (Ha : (g a == 0)%Q) by (apply H; [lia|exact E]). rewrite X, Nat.add_0_r, Ha. ring.
Qed.

Section P2P.
Variables (n m N dim : nat) (vdS vdR : distribution) (items : nat -> list Q).
Hypothesis Hd : 0 < dim.
Hypothesis DS : distributes vdS n N.
Hypothesis DR : distributes vdR m N.
Hypothesis IS : increasing vdS.
Hypothesis IR : increasing vdR.
Hypothesis LS : sized vdS n dim items.
Definition idxS s r := posIn 0 (verts vdS s) (verts vdR r).
Definition idxR s r := posIn 0 (verts vdR r) (verts vdS s).
Definition pbuf s r := match pack (items s) dim (idxS s r) with Some x => x | None => [] end.
Definition pstep s r acc := match unpack 0 (pbuf s r) dim (idxR s r) acc with Some x => x | None => acc end.
Definition edges := flat_map (fun s => map (pair s) (filter (shareb vdS s vdR) (seq 0 m))) (seq 0 n).
Lemma pbuf_ok s r : s < n -> pack (items s) dim (idxS s r) = Some (pbuf s r) /\ length (pbuf s r) = dim * length (idxS s r) /\
  forall k d, k < length (idxS s r) -> d < dim -> nth (dim * k + d) (pbuf s r) 0%Q = nth (dim * nth k (idxS s r) 0 + d) (items s) 0%Q.
Proof using LS.
  clear -LS. intros Hs. unfold pbuf. destruct (pack_ok (items s) dim (length (verts vdS s)) (LS s Hs) (idxS s r)) as (x & E & E1 & E2).
  - intros k Hk. apply posIn_range in Hk. lia.
  - rewrite E. auto.
Qed.
Lemma idx_len s r : length (idxS s r) = length (idxR s r).
Proof using IS IR. apply posIn_len; auto. Qed.
Lemma pstep_ok s r acc : s < n -> length acc = dim * length (verts vdR r) ->
  unpack 0 (pbuf s r) dim (idxR s r) acc = Some (pstep s r acc) /\ length (pstep s r acc) = dim * length (verts vdR r) /\
  forall i d, i < length (verts vdR r) -> d < dim ->
    (nth (dim * i + d) (pstep s r acc) 0 == nth (dim * i + d) acc 0 + contr dim vdS items s (nth i (verts vdR r) 0%nat) d)%Q.
Proof using Hd LS IS IR.
  intros Hs La. destruct (pbuf_ok s r Hs) as (_ & Lb & Vb). unfold pstep. rewrite unpack_add.
  destruct (addBlocks_ok dim (pbuf s r) (length (verts vdR r)) (idxR s r) 0 acc La) as (x & E & E1 & E2).
  - rewrite Lb, idx_len. reflexivity.
  - intros k Hk. apply posIn_range in Hk. lia.
  - rewrite E. split; auto. split; auto. intros i d Hi Hdd. rewrite (E2 i d Hdd).
    assert (X : (sumQ (fun j => if nth j (idxR s r) 0%nat =? i then nth (dim * (0 + j) + d) (pbuf s r) 0%Q else 0%Q) (length (idxR s r)) ==
                 contr dim vdS items s (nth i (verts vdR r) 0%nat) d)%Q); [|rewrite X; reflexivity].
    unfold contr. set (v := nth i (verts vdR r) 0). set (g := fun j => if nth j (verts vdS s) 0 =? v then nth (dim * j + d) (items s) 0%Q else 0%Q).
    rewrite <- idx_len.
    transitivity (sumQ (fun k => g (nth k (idxS s r) 0%nat)) (length (idxS s r))).
    + apply sumQ_ext. intros k Hk. cbn [Nat.add]. rewrite (Vb k d Hk Hdd). unfold g.
      assert (M : nth (nth k (idxS s r) 0) (verts vdS s) 0 = nth (nth k (idxR s r) 0) (verts vdR r) 0).
      { pose proof (posIn_match _ _ (IS s) (IR r)) as M. fold (idxS s r) (idxR s r) in M.
        rewrite <- (map_nth (fun k => nth k (verts vdS s) 0) (idxS s r) 0 k).
        rewrite <- (map_nth (fun k => nth k (verts vdR r) 0) (idxR s r) 0 k).
        rewrite M. apply nth_indep. rewrite map_length, <- idx_len. exact Hk. }
      rewrite M. assert (Hr : nth k (idxR s r) 0 < length (verts vdR r)).
      { assert (H : In (nth k (idxR s r) 0) (idxR s r)) by (apply nth_In; rewrite <- idx_len; exact Hk). apply posIn_range in H. lia. }
      destruct (Nat.eqb_spec (nth k (idxR s r) 0) i) as [Ei|Ni].
      * rewrite Ei. unfold v. rewrite Nat.eqb_refl. reflexivity.
      * destruct (Nat.eqb_spec (nth (nth k (idxR s r) 0) (verts vdR r) 0) v) as [Ev|]; [|reflexivity].
        destruct Ni. apply (nth_inj (verts vdR r) (IR r)); auto.
    + rewrite <- lsum_nth. unfold idxS. rewrite lsum_posIn; [reflexivity|].
      intros j Hj Nin. cbn [Nat.add]. unfold g. destruct (Nat.eqb_spec (nth j (verts vdS s) 0) v) as [Ev|]; [|reflexivity].
      destruct Nin. rewrite Ev. apply nth_In, Hi.
Qed.
Lemma filter_flat {A B} (f : B -> bool) (g : A -> list B) l : filter f (flat_map g l) = flat_map (fun x => filter f (g x)) l.
Proof. induction l as [|x l IH]; cbn [flat_map]; auto. rewrite filter_app, IH. reflexivity. Qed.
Lemma filter_none {A} (f : A -> bool) l : (forall x, In x l -> f x = false) -> filter f l = [].
Proof. induction l as [|x l IH]; intros H; cbn [filter]; auto. rewrite H by (left; auto). apply IH. intros y Hy. apply H. right. auto. Qed.
Lemma filter_all {A} (f : A -> bool) l : (forall x, In x l -> f x = true) -> filter f l = l.
Proof. induction l as [|x l IH]; intros H; cbn [filter]; auto. rewrite H by (left; auto). f_equal. apply IH. intros y Hy. apply H. right. auto. Qed.
Lemma outs_edges s : s < n -> outs edges s = filter (shareb vdS s vdR) (seq 0 m).
Proof using Type.
  clear. intros Hs. unfold outs, edges. rewrite filter_flat.
  assert (X : forall k a, a <= s < a + k -> flat_map (fun x => filter (fun e => fst e =? s) (map (pair x) (filter (shareb vdS x vdR) (seq 0 m)))) (seq a k) =
    map (pair s) (filter (shareb vdS s vdR) (seq 0 m))).
  { assert (Z : forall x, x <> s -> filter (fun e => fst e =? s) (map (pair x) (filter (shareb vdS x vdR) (seq 0 m))) = []).
    { intros x Nx. apply filter_none. intros e He. apply in_map_iff in He as (y & <- & _). apply Nat.eqb_neq. exact Nx. }
    induction k as [|k IH]; intros a Ha; [lia|]. cbn [seq flat_map]. destruct (Nat.eq_dec a s) as [->|Na].
    - rewrite filter_all by (intros e He; apply in_map_iff in He as (y & <- & _); apply Nat.eqb_refl).
      assert (Y : forall k a, s < a -> flat_map (fun x => filter (fun e => fst e =? s) (map (pair x) (filter (shareb vdS x vdR) (seq 0 m)))) (seq a k) = []).
      { induction k0 as [|k0 IH0]; intros a0 Ha0; auto. cbn [seq flat_map]. rewrite Z, IH0 by lia. reflexivity. }
      rewrite Y by lia. apply app_nil_r.
    - rewrite Z by auto. cbn [app]. apply IH. lia. }
  rewrite X by lia. rewrite map_map. cbn [snd]. apply map_id.
Qed.
Lemma ins_edges r : r < m -> ins edges r = filter (fun s => shareb vdS s vdR r) (seq 0 n).
Proof using Type.
  clear. intros Hr. unfold ins, edges. rewrite filter_flat. induction (seq 0 n) as [|s l IH]; [reflexivity|].
  cbn [flat_map filter]. rewrite map_app, IH.
  assert (X : forall k a, map fst (filter (fun e => snd e =? r) (map (pair s) (filter (shareb vdS s vdR) (seq a k)))) =
    if (a <=? r) && (r <? a + k) && shareb vdS s vdR r then [s] else []).
  { induction k as [|k IH0]; intros a.
    - cbn [seq filter map]. replace ((a <=? r) && (r <? a + 0)) with false; auto. symmetry. apply andb_false_iff.
      destruct (Nat.leb_spec a r); auto. right. apply Nat.ltb_ge. lia.
    - cbn [seq filter]. destruct (Nat.eq_dec a r) as [->|Na].
      + rewrite Nat.leb_refl. replace (r <? r + S k) with true by (symmetry; apply Nat.ltb_lt; lia). cbn [andb].
        assert (Y : map fst (filter (fun e => snd e =? r) (map (pair s) (filter (shareb vdS s vdR) (seq (S r) k)))) = []).
        { rewrite IH0. replace (S r <=? r) with false by (symmetry; apply Nat.leb_gt; lia). reflexivity. }
        destruct (shareb vdS s vdR r); [|exact Y]. cbn [map filter snd]. rewrite Nat.eqb_refl. cbn [map fst]. rewrite Y. reflexivity.
      + assert (Y : map fst (filter (fun e => snd e =? r) (map (pair s) (if shareb vdS s vdR a then a :: filter (shareb vdS s vdR) (seq (S a) k) else filter (shareb vdS s vdR) (seq (S a) k)))) =
          map fst (filter (fun e => snd e =? r) (map (pair s) (filter (shareb vdS s vdR) (seq (S a) k))))).
        { destruct (shareb vdS s vdR a); auto. cbn [map filter snd]. destruct (Nat.eqb_spec a r); [lia|reflexivity]. }
        rewrite Y, IH0. replace ((S a <=? r) && (r <? S a + k)) with ((a <=? r) && (r <? a + S k)); auto.
        destruct (Nat.leb_spec a r); destruct (Nat.leb_spec (S a) r); destruct (Nat.ltb_spec r (a + S k)); destruct (Nat.ltb_spec r (S a + k)); auto; lia. }
  rewrite X. cbn [Nat.leb]. replace (r <? 0 + m) with true by (symmetry; apply Nat.ltb_lt; lia). cbn [andb].
  destruct (shareb vdS s vdR r); reflexivity.
Qed.
Lemma in_edges s r : In (s, r) edges -> s < n /\ r < m.
Proof using Type.
  clear. unfold edges. intros H. apply in_flat_map in H as (x & Hx & H). apply in_map_iff in H as (y & E & Hy).
  injection E as -> ->. apply filter_In in Hy as (Hy & _). apply in_seq in Hx, Hy. lia.
Qed.
Variable bufs : nat -> list Q.
Hypothesis LR : sized vdR m dim bufs.
Definition acc0 r := if isEmpty (cmap vdR vdS n r) || isEmpty (bufs r) then bufs r else repeat 0%Q (length (bufs r)).
Definition p2pResult r := fold_left (fun a s => pstep s r a) (ins edges r) (acc0 r).
Lemma fold_steps r : forall l acc, (forall s, In s l -> s < n) -> length acc = dim * length (verts vdR r) ->
  length (fold_left (fun a s => pstep s r a) l acc) = dim * length (verts vdR r) /\
  forall i d, i < length (verts vdR r) -> d < dim ->
    (nth (dim * i + d) (fold_left (fun a s => pstep s r a) l acc) 0 ==
     nth (dim * i + d) acc 0 + lsum (fun s => contr dim vdS items s (nth i (verts vdR r) 0%nat) d) l)%Q.
Proof using Hd LS IS IR.
  induction l as [|s l IH]; intros acc Hl La; cbn [fold_left lsum].
  - split; auto. intros i d _ _. ring.
  - destruct (pstep_ok s r acc) as (_ & L1 & V1); [apply Hl; left; auto|auto|].
    destruct (IH (pstep s r acc)) as (L2 & V2); [intros x Hx; apply Hl; right; auto|auto|]. split; auto.
    intros i d Hi Hdd. rewrite (V2 i d Hi Hdd), (V1 i d Hi Hdd). ring.
Qed.
Lemma cmap_empty r : cmap vdR vdS n r = [] <-> forall s, s < n -> ~ meet vdS s vdR r.
Proof using Type.
  clear. unfold cmap. split.
  - intros H s Hs M. apply map_eq_nil in H. apply meet_sym, shareb_meet in M.
    assert (X : In s (filter (shareb vdR r vdS) (seq 0 n))) by (apply filter_In; split; auto; apply in_seq; lia).
    rewrite H in X. destruct X.
  - intros H. rewrite filter_none; auto. intros s Hs. apply in_seq in Hs. destruct (shareb vdR r vdS s) eqn:E; auto.
    apply shareb_meet, meet_sym in E. destruct (H s); auto. lia.
Qed.
Lemma acc0_len r : r < m -> length (acc0 r) = dim * length (verts vdR r).
Proof using LR. intros Hr. unfold acc0. pose proof (LR r Hr). destruct (_ || _); rewrite ?repeat_length; auto. Qed.
Lemma ins_lt r s : In s (ins edges r) -> s < n.
Proof using Type.
  clear. unfold ins. intros H. apply in_map_iff in H as ((x, y) & <- & H). apply filter_In in H as (H & _). apply in_edges in H. apply H.
Qed.
Lemma p2p_sums r : r < m -> (exists s, s < n /\ meet vdS s vdR r) -> receives_sums n vdS vdR items dim r (p2pResult r).
Proof using Hd LS LR IS IR.
  intros Hr (s0 & Hs0 & Hm). destruct (fold_steps r (ins edges r) (acc0 r) (ins_lt r) (acc0_len r Hr)) as (L & V).
  split; auto. intros i d Hi Hdd. unfold p2pResult. rewrite (V i d Hi Hdd). unfold acc0.
  destruct (isEmpty (cmap vdR vdS n r)) eqn:E.
  { destruct (cmap vdR vdS n r) eqn:E'; [|discriminate E]. destruct (proj1 (cmap_empty r) E' s0 Hs0 Hm). }
  rewrite (empty_items m dim vdR bufs r Hd LR Hr). cbn [orb].
  destruct (verts vdR r) as [|v0 vs] eqn:Ev; [cbn in Hi; lia|]. cbn [isEmpty]. rewrite zeros_nth, <- Ev.
  rewrite ins_edges by auto. rewrite lsum_filter.
  - unfold sent_for. rewrite Qplus_0_l. apply sumQ_ext. intros j _. reflexivity.
  - intros s Hs Es. unfold contr. apply sumQ_zero. intros j Hj.
    destruct (Nat.eqb_spec (nth j (verts vdS s) 0) (nth i (verts vdR r) 0)) as [Ej|]; [|reflexivity].
    assert (X : shareb vdS s vdR r = true); [|congruence]. apply shareb_meet.
    exists (nth j (verts vdS s) 0). split; [apply nth_In, Hj|]. rewrite Ej. apply nth_In. rewrite Ev. exact Hi.
Qed.
Lemma p2p_untouched r : r < m -> (forall s, s < n -> ~ meet vdS s vdR r) -> p2pResult r = bufs r.
Proof using Type.
  clear. intros Hr H. unfold p2pResult, acc0. rewrite ins_edges by auto.
  rewrite filter_none by (intros s Hs; apply in_seq in Hs; destruct (shareb vdS s vdR r) eqn:E; auto; apply shareb_meet in E; destruct (H s); auto; lia).
  rewrite (proj2 (cmap_empty r)) by auto. reflexivity.
Qed.
Lemma send_leads s : s < n -> forall b' , p2pSend b' (cmap vdS vdR m s) (items s) dim =
  sendMappings b' (map (fun r => (r, idxS s r)) (outs edges s)) (items s) dim.
Proof using Hd LS.
  intros Hs b'. rewrite outs_edges by auto. fold (cmap vdS vdR m s). unfold p2pSend.
  assert (X : isEmpty (items s) = true -> cmap vdS vdR m s = []).
  { intros H. rewrite (empty_items n dim vdS items s Hd LS Hs) in H. unfold cmap. rewrite filter_none; auto. intros r _.
    unfold shareb. destruct (verts vdS s); [reflexivity|discriminate H]. }
  unfold cmap, idxS in *. destruct (map _ _); cbn [isEmpty orb]; auto. destruct (isEmpty (items s)); auto. discriminate (X eq_refl).
Qed.
Lemma recv_leads r : r < m -> forall b, p2pReceive b (cmap vdR vdS n r) (bufs r) dim =
  receiveMappings b (map (fun s => (s, idxR s r)) (ins edges r)) (acc0 r) dim.
Proof using Hd LR.
  intros Hr b. rewrite ins_edges by auto.
  assert (E : filter (fun s => shareb vdS s vdR r) (seq 0 n) = filter (shareb vdR r vdS) (seq 0 n)).
  { apply filter_ext. intros s. apply shareb_sym. }
  rewrite E. change (map (fun s => (s, idxR s r)) (filter (shareb vdR r vdS) (seq 0 n))) with (cmap vdR vdS n r).
  unfold p2pReceive, acc0.
  assert (X : isEmpty (bufs r) = true -> cmap vdR vdS n r = []).
  { intros H. rewrite (empty_items m dim vdR bufs r Hd LR Hr) in H. unfold cmap. rewrite filter_none; auto. intros s _.
    unfold shareb. destruct (verts vdR r); [reflexivity|discriminate H]. }
  destruct (cmap vdR vdS n r) as [|e l]; cbn [isEmpty orb]; [reflexivity|].
  destruct (isEmpty (bufs r)); [discriminate (X eq_refl)|reflexivity].
Qed.
(** the data exchange itself, sender at [b], receiver at [b'] *)
Lemma exchange_runs T b b' {A} (RS : nat -> proc packet A -> Prop) (RR : nat -> list Q -> proc packet A -> Prop) P :
  b + n <= T -> b' + m <= T -> (b + n <= b' \/ b' + m <= b) ->
  (forall s, s < n -> leads (p2pSend b' (cmap vdS vdR m s) (items s) dim) (P (b + s)) (fun _ X => RS s X)) ->
  (forall r, r < m -> leads (p2pReceive b (cmap vdR vdS n r) (bufs r) dim) (P (b' + r)) (RR r)) ->
  exists Q, runs T P Q /\ (forall s, s < n -> RS s (Q (b + s))) /\ (forall r, r < m -> RR r (p2pResult r) (Q (b' + r))).
Proof using Hd LS LR IS IR.
  intros Hb Hb' Dj HS HR.
  destruct (bip_runs T b n b' m dim items idxS idxR (fun r => dim * length (verts vdR r)) pbuf pstep Hb Hb' Dj) with
    (RS := RS) (RR := RR) (E := edges) (acc := acc0) (P := P) as (Q & U1 & U2 & U3 & _).
  - intros s r Hs Hr. apply (pbuf_ok s r Hs).
  - intros s r Hs Hr. destruct (pbuf_ok s r Hs) as (_ & X & _). rewrite X, idx_len. lia.
  - intros s r acc Hs Hr La. destruct (pstep_ok s r acc Hs La) as (X1 & X2 & _). auto.
  - apply in_edges.
  - apply acc0_len.
  - intros s Hs. rewrite <- send_leads by auto. apply HS, Hs.
  - intros r Hr. rewrite <- recv_leads by auto. apply HR, Hr.
  - exists Q. auto.
Qed.
End P2P.
