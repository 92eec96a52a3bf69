From Coq Require Import ZArith QArith Bool List Arith Lia.
From Verif Require Import M_Net M_Time M_Wave M_Mesh M_Comm M_Serial S_Term S_Mesh P_Net P_Term.
Import ListNotations.
Open Scope nat_scope.

(** * Ranges *)
Lemma sizeOf_nat {A} (l : list A) : Z.to_nat (sizeOf l) = length l.
Proof. unfold sizeOf. lia. Qed.
Lemma sizeOf_pos {A} (l : list A) : (0 <? sizeOf l)%Z = nonempty l.
Proof. unfold sizeOf. destruct l; cbn [nonempty length]; [reflexivity|]. apply Z.ltb_lt. lia. Qed.
Lemma sizeOf_nonneg {A} (l : list A) : (0 <=? sizeOf l)%Z = true.
Proof. unfold sizeOf. apply Z.leb_le. lia. Qed.

Lemma talk_int i j z : talk i j (sendInt j z) (recvInt i) tt z.
Proof. cbn. repeat constructor. Qed.
Lemma talk_ints i j l n : n = length l -> talk i j (sendInts j l) (recvInts i n) tt l.
Proof. intros ->. cbn. constructor. cbn. rewrite Nat.eqb_refl. constructor. Qed.
Lemma talk_dbl i j z : talk i j (sendDbl j z) (recvDbl i) tt z.
Proof. cbn. repeat constructor. Qed.
Lemma talk_dbls i j l n : n = length l -> talk i j (sendDbls j l) (recvDbls i n) tt l.
Proof. intros ->. cbn. constructor. cbn. rewrite Nat.eqb_refl. constructor. Qed.
Lemma talk_rangeInt i j l : talk i j (sendRangeInt j l) (receiveRangeInt i) tt l.
Proof.
  unfold sendRangeInt, receiveRangeInt. eapply talk_bind; [apply talk_int|]. cbv beta.
  rewrite sizeOf_nonneg. cbn [check bind]. rewrite sizeOf_pos. destruct l as [|x l]; cbn [nonempty].
  - constructor.
  - apply talk_ints. apply sizeOf_nat.
Qed.
Lemma talk_rangeDbl i j l : talk i j (sendRangeDbl j l) (receiveRangeDbl i) tt l.
Proof.
  unfold sendRangeDbl, receiveRangeDbl. eapply talk_bind; [apply talk_int|]. cbv beta.
  rewrite sizeOf_nonneg. cbn [check bind]. rewrite sizeOf_pos. destruct l as [|x l]; cbn [nonempty].
  - constructor.
  - apply talk_dbls. apply sizeOf_nat.
Qed.

(** * Stamples *)
Section St.
Context {V : Type}.
Implicit Types vec slice : list V.
Lemma putSlice_spec T tid n slice : forall cnt vid vec,
  tid < T -> vid + cnt = n -> n <= length slice -> length vec = T * n ->
  exists vec', putSlice T tid vid cnt slice vec = Some vec' /\ length vec' = T * n /\
    forall v t, v < n -> t < T ->
      nth_error vec' (v * T + t) = if (t =? tid) && (vid <=? v) then nth_error slice v else nth_error vec (v * T + t).
Proof.
  induction cnt as [|cnt IH]; intros vid vec Ht Hn Hs Hl; cbn [putSlice].
  - exists vec. split; [reflexivity|]. split; [auto|]. intros v t Hv Ht'.
    destruct (Nat.leb_spec vid v); [lia|]. rewrite andb_false_r. reflexivity.
  - destruct (nth_error slice vid) as [x|] eqn:Ex; [|apply nth_error_None in Ex; lia].
    assert (B : vid * T + tid < length vec) by (rewrite Hl; nia).
    destruct (Nat.ltb_spec (vid * T + tid) (length vec)); [|lia].
    destruct (IH (S vid) (upd (vid * T + tid) x vec) Ht) as (vec' & E & L & X); [lia|lia|rewrite upd_length; auto|].
    exists vec'. split; [exact E|]. split; [exact L|]. intros v t Hv Ht'. rewrite X by auto.
    destruct (Nat.eqb_spec t tid) as [->|Nt]; cbn [andb].
    + destruct (Nat.eq_dec v vid) as [->|Nv].
      * rewrite Nat.leb_refl. destruct (Nat.leb_spec (S vid) vid); [lia|]. rewrite nth_upd_eq by auto. congruence.
      * assert ((S vid <=? v) = (vid <=? v)) as -> by (destruct (Nat.leb_spec (S vid) v), (Nat.leb_spec vid v); lia).
        destruct (vid <=? v); auto. apply nth_upd_ne. nia.
    + apply nth_upd_ne. intros E'. apply Nt. 
      assert (v = vid) by nia. nia.
Qed.
Lemma putSlices_spec T n : forall slices tid vec,
  tid + length slices = T -> (forall s, In s slices -> n <= length s) -> length vec = T * n ->
  exists vec', putSlices T tid n slices vec = Some vec' /\ length vec' = T * n /\
    forall v t, v < n -> t < T ->
      nth_error vec' (v * T + t) =
        if tid <=? t then match nth_error slices (t - tid) with Some s => nth_error s v | None => None end
        else nth_error vec (v * T + t).
Proof.
  induction slices as [|s r IH]; intros tid vec Ht Hs Hl; cbn [putSlices].
  - exists vec. split; [reflexivity|]. split; [auto|]. intros v t Hv Ht'.
    cbn in Ht. destruct (Nat.leb_spec tid t); [lia|]. reflexivity.
  - cbn [length] in Ht.
    destruct (putSlice_spec T tid n s n 0 vec) as (v1 & E1 & L1 & X1); [lia|lia|apply Hs; left; auto|auto|].
    rewrite E1. destruct (IH (S tid) v1) as (v2 & E2 & L2 & X2); [lia|intros x Hx; apply Hs; right; auto|auto|].
    exists v2. split; [exact E2|]. split; [exact L2|]. intros v t Hv Ht'. rewrite X2 by auto.
    destruct (Nat.leb_spec tid t) as [H|H].
    + destruct (Nat.eq_dec t tid) as [->|N].
      * destruct (Nat.leb_spec (S tid) tid); [lia|]. rewrite X1 by auto. rewrite Nat.eqb_refl, Nat.sub_diag. reflexivity.
      * destruct (Nat.leb_spec (S tid) t); [|lia]. replace (t - tid) with (S (t - S tid)) by lia. reflexivity.
    + destruct (Nat.leb_spec (S tid) t); [lia|]. rewrite X1 by auto.
      destruct (Nat.eqb_spec t tid); [lia|]. reflexivity.
Qed.
Lemma getSlice_spec T tid slice vec : forall cnt vid,
  vid + cnt = length slice ->
  (forall v, v < length slice -> nth_error vec (v * T + tid) = nth_error slice v) ->
  getSlice T tid vid cnt vec = Some (skipn vid slice).
Proof.
  induction cnt as [|cnt IH]; intros vid Hc H; cbn [getSlice].
  - rewrite skipn_all2 by lia. reflexivity.
  - rewrite H by lia. destruct (nth_error slice vid) as [x|] eqn:E; [|apply nth_error_None in E; lia].
    rewrite IH by (auto; lia). f_equal.
    clear - E. revert vid E. induction slice as [|y r IH]; intros [|vid] E; cbn in *; try discriminate.
    + congruence.
    + apply IH in E. exact E.
Qed.
Lemma packed T n junk (slices : list (list V)) :
  T = length slices -> (forall s, In s slices -> length s = n) ->
  exists vec, putSlices T 0 n slices (repeat junk (T * n)) = Some vec /\ length vec = T * n /\
    forall tid s, nth_error slices tid = Some s -> getSlice T tid 0 n vec = Some s.
Proof.
  intros HT Hs.
  destruct (putSlices_spec T n slices 0 (repeat junk (T * n))) as (vec & E & L & X).
  - lia.
  - intros s H. rewrite (Hs s H). auto.
  - apply repeat_length.
  - exists vec. split; [exact E|]. split; [exact L|]. intros tid s H.
    pose proof (Hs s (nth_error_In _ _ H)) as Ls.
    rewrite (getSlice_spec T tid s vec n 0); auto.
    intros v Hv. assert (tid < T) by (subst T; apply nth_error_Some; congruence).
    rewrite X by (auto; lia). cbn [Nat.leb]. rewrite Nat.sub_0_r, H. reflexivity.
Qed.
End St.

From Verif Require Import M_WaveCache S_Wave P_Wave S_Serial.

Section StWave.
Context {V : Type}.
Notation sample := (gsample (V:=V)).
Lemma set_app eps (w : wave sample) t x : (0 <= eps)%Z -> ordered eps (w ++ [(t, x)]) -> w_set eps w t x = Some (w ++ [(t, x)]).
Proof.
  intros E0 O. pose proof (ordered_ord eps _ O) as O'. unfold w_set.
  destruct w as [|(u, y) r]; [reflexivity|].
  assert (B : forall v, In v (map fst ((u, y) :: r)) -> (v + eps < t)%Z).
  { intros v Hv. apply in_map_iff in Hv as (p & <- & Hp). apply In_nth_error in Hp as (i & Hi).
    apply (O i (length ((u, y) :: r)) p (t, x)).
    - apply nth_error_Some. congruence.
    - rewrite nth_error_app1; auto. apply nth_error_Some. congruence.
    - rewrite nth_error_app2, Nat.sub_diag by lia. reflexivity. }
  rewrite override_none by auto.
  unfold smallerEquals, smaller. pose proof (B u (or_introl eq_refl)).
  destruct (Z.leb_spec (u - t) eps); [|lia].
  destruct (last_cons r (u, y)) as (q & _ & Hq & ->).
  pose proof (B (fst q) (in_map fst _ _ Hq)).
  destruct (Z.ltb_spec (fst q - t) (- eps)); [reflexivity|lia].
Qed.
Lemma ordered_prefix eps (w w' : wave sample) : ordered eps (w ++ w') -> ordered eps w.
Proof.
  intros O i j p q L Hi Hj. apply (O i j p q L).
  - rewrite nth_error_app1; auto. apply nth_error_Some. congruence.
  - rewrite nth_error_app1; auto. apply nth_error_Some. congruence.
Qed.
Lemma getSlices_spec eps T d s (w : wave sample) : (0 <= eps)%Z -> ordered eps w -> fits d w ->
  (forall tid x, nth_error w tid = Some x -> getSlice T tid 0 (ds_size d) (se_values s) = Some (sm_values (snd x))) ->
  (forall tid x g, nth_error w tid = Some x -> ds_grads d = Some g -> getSlice T tid 0 g (se_grads s) = Some (sm_grads (snd x))) ->
  forall r pre, w = pre ++ r -> getSlices eps T (length pre) (map fst r) d s pre = Some w.
Proof.
  intros E0 O F HV HG. induction r as [|(t, x) r IH]; intros pre E; cbn [getSlices map].
  - subst. rewrite app_nil_r. reflexivity.
  - assert (N : nth_error w (length pre) = Some (t, x)).
    { rewrite E, nth_error_app2, Nat.sub_diag by lia. reflexivity. }
    rewrite (HV _ _ N).
    assert (G : (match ds_grads d with None => Some [] | Some g => getSlice T (length pre) 0 g (se_grads s) end) = Some (sm_grads x)).
    { destruct (F (t, x)) as (_ & F2); [rewrite E; apply in_or_app; right; left; auto|]. cbn [snd] in F2.
      destruct (ds_grads d) as [g|] eqn:Eg; [apply (HG _ _ _ N eq_refl)|rewrite F2; reflexivity]. }
    rewrite G. cbn [fst snd]. assert (MkGS (sm_values x) (sm_grads x) = x) as -> by (destruct x; reflexivity).
    rewrite set_app; auto.
    + specialize (IH (pre ++ [(t, x)])). rewrite app_length in IH. cbn [length] in IH. rewrite Nat.add_1_r in IH.
      apply IH. rewrite E, <- app_assoc. reflexivity.
    + apply (ordered_prefix eps _ r). rewrite <- app_assoc. cbn [app]. rewrite <- E. exact O.
Qed.
Lemma roundtrip eps junk d (w old : wave sample) : (0 <= eps)%Z -> ordered eps w -> fits d w ->
  exists s, serialize junk d w = Some s /\ se_steps s = length w /\
    length (se_values s) = length w * ds_size d /\
    (forall g, ds_grads d = Some g -> length (se_grads s) = length w * g) /\
    (ds_grads d = None -> se_grads s = []) /\
    deserializeInto eps (map fst w) d s old = Some w.
Proof.
  intros E0 O F. unfold serialize.
  destruct (packed (length w) (ds_size d) junk (map (fun p => sm_values (snd p)) w)) as (vec & E1 & L1 & X1).
  { rewrite map_length. reflexivity. }
  { intros s Hs. apply in_map_iff in Hs as (p & <- & Hp). apply (F p Hp). }
  rewrite E1.
  assert (HV : forall tid x, nth_error w tid = Some x -> getSlice (length w) tid 0 (ds_size d) vec = Some (sm_values (snd x))).
  { intros tid x H. apply X1. rewrite nth_error_map, H. reflexivity. }
  destruct (ds_grads d) as [g|] eqn:Eg.
  - destruct (packed (length w) g junk (map (fun p => sm_grads (snd p)) w)) as (gv & E2 & L2 & X2).
    { rewrite map_length. reflexivity. }
    { intros s Hs. apply in_map_iff in Hs as (p & <- & Hp). destruct (F p Hp) as (_ & H). rewrite Eg in H. exact H. }
    rewrite E2. eexists. split; [reflexivity|]. cbn [se_steps se_values se_grads].
    split; [reflexivity|]. split; [exact L1|]. split; [congruence|]. split; [congruence|].
    unfold deserializeInto. cbn [se_steps se_values]. rewrite map_length, L1, !Nat.eqb_refl. cbn [andb].
    apply (getSlices_spec eps (length w) d _ w E0 O F) with (pre := []); cbn [se_values se_grads]; auto.
    intros tid x g' H Eg'. replace g' with g by congruence. apply X2. rewrite nth_error_map, H. reflexivity.
  - eexists. split; [reflexivity|]. cbn [se_steps se_values se_grads].
    split; [reflexivity|]. split; [exact L1|]. split; [congruence|]. split; [reflexivity|].
    unfold deserializeInto. cbn [se_steps se_values]. rewrite map_length, L1, !Nat.eqb_refl. cbn [andb].
    apply (getSlices_spec eps (length w) d _ w E0 O F) with (pre := []); cbn [se_values se_grads]; auto.
    congruence.
Qed.
Lemma talk_substeps eps junk d (w old : wave sample) : (0 <= eps)%Z -> ordered eps w -> fits d w -> w <> [] ->
  talk 0 1 (sendSubsteps junk 1 d w) (receiveSubsteps eps 0 d old) tt w.
Proof.
  intros E0 O F N. destruct (roundtrip eps junk d w old E0 O F) as (s & E1 & E2 & E3 & E4 & E5 & E6).
  unfold sendSubsteps, receiveSubsteps. destruct w as [|p r]; [congruence|]. remember (p :: r) as w eqn:Ew.
  cbn [bind send recv]. constructor. cbn [bind].
  assert ((0 <? sizeOf w)%Z = true) as -> by (rewrite sizeOf_pos, Ew; reflexivity).
  cbn [check bind]. constructor. cbn [bind]. rewrite E1.
  assert (Z.eqb (sizeOf (map fst w)) (sizeOf w) = true) as -> by (unfold sizeOf; rewrite map_length; apply Z.eqb_refl).
  cbn [check bind]. unfold recvVals. cbn [bind send recv].
  constructor. cbn [bind]. rewrite map_length, E3, Nat.eqb_refl. cbn [bind].
  destruct (ds_grads d) as [g|] eqn:Eg.
  - cbn [bind send recv]. constructor. cbn [bind]. rewrite (E4 g eq_refl), Nat.eqb_refl. cbn [bind].
    assert (MkSer (length w) (se_values s) (se_grads s) = s) as -> by (destruct s; cbn in *; congruence).
    rewrite E6. constructor.
  - cbn [bind].
    assert (MkSer (length w) (se_values s) [] = s) as -> by (destruct s; cbn in *; rewrite E5, E2 by auto; reflexivity).
    rewrite E6. constructor.
Qed.
End StWave.
