From Coq Require Import ZArith QArith List Arith Lia Bool Sorted FinFun.
From Verif Require Import M_Net M_Comm M_M2N S_Term S_Intra S_M2N P_Net P_Term P_Serial P_SerPart P_Intra.
Import ListNotations.
Open Scope nat_scope.

(** * Sums *)
Lemma sumQ_ext f g n : (forall i, (i < n)%nat -> (f i == g i)%Q) -> (sumQ f n == sumQ g n)%Q.
Proof. induction n as [|n IH]; intros H; cbn [sumQ]; [reflexivity|]. rewrite IH, (H n) by auto. reflexivity. Qed.
Lemma sumQ_front f n : (sumQ f (S n) == f 0%nat + sumQ (fun i => f (S i)) n)%Q.
Proof.
  induction n as [|n IH]; [cbn; ring|].
  change (sumQ f (S (S n))) with (sumQ f (S n) + f (S n))%Q. rewrite IH.
  change (sumQ (fun i => f (S i)) (S n)) with (sumQ (fun i => f (S i)) n + f (S n))%Q. ring.
Qed.
Lemma sumQ_zero f n : (forall i, (i < n)%nat -> (f i == 0)%Q) -> (sumQ f n == 0)%Q.
Proof. induction n as [|n IH]; intros H; cbn [sumQ]; [reflexivity|]. rewrite IH, (H n) by auto. ring. Qed.

(** * Blocks *)
Lemma upd_nth {A} (d : A) x l : forall i k, i < length l -> nth k (upd i x l) d = if k =? i then x else nth k l d.
Proof.
  induction l as [|y l IH]; intros i k H; cbn in H; [lia|].
  destruct i as [|i]; destruct k as [|k]; cbn [upd nth Nat.eqb]; auto. apply IH. lia.
Qed.
Lemma add_n_len src sf b dst df : length (add_n src sf b dst df) = length dst.
Proof.
  unfold add_n. generalize (seq 0 b). intros l. revert dst. induction l as [|d l IH]; intros dst; cbn [fold_left]; auto.
  rewrite IH, upd_length. reflexivity.
Qed.
Lemma copy_n_len src sf b dst df : length (copy_n src sf b dst df) = length dst.
Proof.
  unfold copy_n. generalize (seq 0 b). intros l. revert dst. induction l as [|d l IH]; intros dst; cbn [fold_left]; auto.
  rewrite IH, upd_length. reflexivity.
Qed.
Lemma add_n_S src sf b dst df : add_n src sf (S b) dst df =
  upd (df + b) (nth (df + b) (add_n src sf b dst df) 0 + nth (sf + b) src 0)%Q (add_n src sf b dst df).
Proof. unfold add_n. rewrite seq_S, fold_left_app. reflexivity. Qed.
Lemma copy_n_S src sf b dst df : copy_n src sf (S b) dst df = upd (df + b) (nth (sf + b) src 0%Q) (copy_n src sf b dst df).
Proof. unfold copy_n. rewrite seq_S, fold_left_app. reflexivity. Qed.
Lemma add_n_nth src sf dst df k : forall b, df + b <= length dst ->
  nth k (add_n src sf b dst df) 0%Q = if (df <=? k) && (k <? df + b) then (nth k dst 0 + nth (sf + (k - df)) src 0)%Q else nth k dst 0%Q.
Proof.
  induction b as [|b IH]; intros H.
  - replace ((df <=? k) && (k <? df + 0)) with false; [reflexivity|].
    symmetry. apply andb_false_iff. destruct (Nat.leb_spec df k); auto. right. apply Nat.ltb_ge. lia.
  - rewrite add_n_S, upd_nth by (rewrite add_n_len; lia). destruct (Nat.eqb_spec k (df + b)) as [->|N].
    + rewrite IH by lia. rewrite Nat.ltb_irrefl, andb_false_r.
      replace (df <=? df + b) with true by (symmetry; apply Nat.leb_le; lia).
      replace (df + b <? df + S b) with true by (symmetry; apply Nat.ltb_lt; lia). cbn [andb].
      replace (df + b - df) with b by lia. reflexivity.
    + rewrite IH by lia. replace (k <? df + S b) with (k <? df + b); [reflexivity|].
      destruct (Nat.ltb_spec k (df + b)); destruct (Nat.ltb_spec k (df + S b)); auto; lia.
Qed.
Lemma copy_n_nth src sf dst df k : forall b, df + b <= length dst ->
  nth k (copy_n src sf b dst df) 0%Q = if (df <=? k) && (k <? df + b) then nth (sf + (k - df)) src 0%Q else nth k dst 0%Q.
Proof.
  induction b as [|b IH]; intros H.
  - replace ((df <=? k) && (k <? df + 0)) with false; [reflexivity|].
    symmetry. apply andb_false_iff. destruct (Nat.leb_spec df k); auto. right. apply Nat.ltb_ge. lia.
  - rewrite copy_n_S, upd_nth by (rewrite copy_n_len; lia). destruct (Nat.eqb_spec k (df + b)) as [->|N].
    + replace (df <=? df + b) with true by (symmetry; apply Nat.leb_le; lia).
      replace (df + b <? df + S b) with true by (symmetry; apply Nat.ltb_lt; lia). cbn [andb].
      replace (df + b - df) with b by lia. reflexivity.
    + rewrite IH by lia. replace (k <? df + S b) with (k <? df + b); [reflexivity|].
      destruct (Nat.ltb_spec k (df + b)); destruct (Nat.ltb_spec k (df + S b)); auto; lia.
Qed.
Lemma in_block dim v v' d : d < dim -> ((dim * v' <=? dim * v + d) && (dim * v + d <? dim * v' + dim)) = (v' =? v).
Proof.
  intros H. destruct (Nat.eqb_spec v' v) as [->|N].
  - apply andb_true_iff. split; [apply Nat.leb_le; lia|apply Nat.ltb_lt; lia].
  - apply andb_false_iff. destruct (lt_dec v v') as [L|L].
    + left. apply Nat.leb_gt. nia.
    + right. apply Nat.ltb_ge. nia.
Qed.
Lemma block_le dim v N : v < N -> dim * v + dim <= dim * N.
Proof. nia. Qed.

Lemma addBlocks_ok dim src N : forall l i dst, length dst = dim * N -> dim * (i + length l) <= length src ->
  (forall v, In v l -> v < N) ->
  exists res, addBlocks i src l dim dst = Some res /\ length res = dim * N /\
    forall v d, d < dim ->
      (nth (dim * v + d) res 0 == nth (dim * v + d) dst 0 +
        sumQ (fun j => if nth j l 0%nat =? v then nth (dim * (i + j) + d) src 0%Q else 0%Q) (length l))%Q.
Proof.
  induction l as [|w l IH]; intros i dst Ld Ls Hv.
  - exists dst. cbn [addBlocks length sumQ]. split; auto. split; auto. intros v d _. ring.
  - cbn [addBlocks]. cbn [length] in Ls.
    assert (Hw : w < N) by (apply Hv; left; auto). pose proof (block_le dim w N Hw) as B.
    replace (dim * i + dim <=? length src) with true by (symmetry; apply Nat.leb_le; nia).
    replace (dim * w + dim <=? length dst) with true by (symmetry; apply Nat.leb_le; lia). cbn [andb].
    destruct (IH (S i) (add_n src (dim * i) dim dst (dim * w))) as (res & E & L & R).
    { rewrite add_n_len. auto. } { nia. } { intros v H. apply Hv. right. auto. }
    exists res. split; auto. split; auto. intros v d Hd. rewrite (R v d Hd).
    rewrite add_n_nth by lia. rewrite in_block by auto.
    cbn [length]. rewrite sumQ_front. cbn [nth].
    assert (X : (sumQ (fun j => if nth j l 0%nat =? v then nth (dim * (S i + j) + d) src 0%Q else 0%Q) (length l) ==
                 sumQ (fun i0 => if nth i0 l 0%nat =? v then nth (dim * (i + S i0) + d) src 0%Q else 0%Q) (length l))%Q).
    { apply sumQ_ext. intros j _. replace (S i + j) with (i + S j) by lia. reflexivity. }
    rewrite X. destruct (Nat.eqb_spec w v) as [->|N'].
    + replace (dim * i + (dim * v + d - dim * v)) with (dim * (i + 0) + d) by (replace (i + 0) with i by lia; lia). ring.
    + ring.
Qed.
Lemma copyBlocks_ok dim src N : forall l i dst, length src = dim * N -> length dst = dim * (i + length l) ->
  (forall v, In v l -> v < N) ->
  exists res, copyBlocks i src l dim dst = Some res /\ length res = length dst /\
    (forall j d, j < length l -> d < dim -> nth (dim * (i + j) + d) res 0%Q = nth (dim * nth j l 0 + d) src 0%Q) /\
    (forall k, k < dim * i -> nth k res 0%Q = nth k dst 0%Q).
Proof.
  induction l as [|w l IH]; intros i dst Ls Ld Hv.
  - exists dst. cbn [copyBlocks length]. split; auto. split; auto. split; [intros j d H; lia|auto].
  - cbn [copyBlocks]. cbn [length] in Ld.
    assert (Hw : w < N) by (apply Hv; left; auto). pose proof (block_le dim w N Hw) as B.
    replace (dim * w + dim <=? length src) with true by (symmetry; apply Nat.leb_le; lia).
    replace (dim * i + dim <=? length dst) with true by (symmetry; apply Nat.leb_le; nia). cbn [andb].
    destruct (IH (S i) (copy_n src (dim * w) dim dst (dim * i))) as (res & E & L & R & K).
    { auto. } { rewrite copy_n_len. rewrite Ld. nia. } { intros v H. apply Hv. right. auto. }
    exists res. rewrite copy_n_len in L. split; auto. split; auto.
    assert (F : dim * i + dim <= length dst) by nia. split.
    + intros j d Hj Hd. destruct j as [|j].
      * rewrite K by nia. rewrite copy_n_nth by lia. replace (i + 0) with i by lia. rewrite in_block by auto.
        rewrite Nat.eqb_refl. cbn [nth]. f_equal. lia.
      * replace (i + S j) with (S i + j) by lia. rewrite R by (cbn [length] in *; lia). reflexivity.
    + intros k Hk. rewrite K by nia. rewrite copy_n_nth by lia.
      replace (dim * i <=? k) with false by (symmetry; apply Nat.leb_gt; lia). reflexivity.
Qed.

(** * Distributions *)
Lemma verts_some vd r l : vfind r vd = Some l -> verts vd r = l.
Proof. unfold verts. intros ->. reflexivity. Qed.
Lemma vfind_in vd r : In r (map fst vd) -> exists l, vfind r vd = Some l.
Proof.
  induction vd as [|(k, l) t IH]; cbn [map fst vfind In]; [tauto|]. destruct (Nat.eqb_spec k r) as [E|E]; eauto.
  intros [H|H]; [congruence|auto].
Qed.
Lemma vfind_key vd r l : vfind r vd = Some l -> In r (map fst vd).
Proof.
  induction vd as [|(k, x) t IH]; cbn [map fst vfind In]; [discriminate|]. destruct (Nat.eqb_spec k r) as [E|E]; auto.
Qed.

(** * Ranks of a participant *)
Definition procs (b n : nat) : list nat := map (Nat.add b) (secondaries n).
Lemma procs_ok b n : NoDup (procs b n) /\ ~ In b (procs b n) /\ forall p, In p (procs b n) <-> b < p < b + n.
Proof.
  unfold procs. split; [|split].
  - apply FinFun.Injective_map_NoDup; [intros x y; lia|apply secondaries_ok].
  - intros H. apply in_map_iff in H as (x & H & Hx). unfold secondaries in Hx. apply in_seq in Hx. lia.
  - intros p. rewrite in_map_iff. split.
    + intros (x & H & Hx). unfold secondaries in Hx. apply in_seq in Hx. lia.
    + intros H. exists (p - b). split; [lia|]. unfold secondaries. apply in_seq. lia.
Qed.

(** [phase_fold] for processes numbered by [g] *)
Lemma phase_fold_g {M S C} n z (g : nat -> nat) (f : nat -> S -> proc M S) (q : nat -> proc M C) next c (I : S -> Prop) l :
  NoDup (map g l) -> ~ In z (map g l) -> z < n -> (forall r, In r l -> g r < n) ->
  (forall r s, In r l -> I s -> talk z (g r) (f r s) (q (g r)) (next r s) (c (g r)) /\ I (next r s)) ->
  forall s, I s -> phase n z (map g l) (foldRanks l f s) q (fold_left (fun s r => next r s) l s) c.
Proof.
  induction l as [|r l IH]; intros Nd Nz Hz Hn T s Is A P R0 R E0 E.
  - exists P. cbn in *. split; [apply runs_refl; auto|]. split; auto. split; [intros r []|auto].
  - cbn [map] in *. inversion Nd as [|x l' Nr Nd']; subst. cbn [foldRanks] in E0. apply leads_bind in E0.
    destruct (T r s (or_introl eq_refl) Is) as (T1 & I1).
    assert (Nrz : g r <> z) by (intros X; apply Nz; left; auto).
    destruct (runs_talk n z (g r) _ _ _ _ T1 P _ (R (g r)) Hz (Hn r (or_introl eq_refl)) (not_eq_sym Nrz) E0 (E (g r) (or_introl eq_refl)))
      as (X & Y & U1 & U2 & U3).
    set (P' := putp (g r) Y (putp z X P)) in *.
    destruct (IH Nd' (fun H => Nz (or_intror H)) Hz (fun x Hx => Hn x (or_intror Hx))
                (fun x y Hx => T x y (or_intror Hx)) (next r s) I1 A P' R0 R) as (Q & V1 & V2 & V3 & V4).
    + unfold P'. rewrite putp_ne, putp_eq; auto.
    + intros x Hx. unfold P'. rewrite !putp_ne; [apply E; right; auto| |]; intros ->; [apply Nz; right; auto|contradiction].
    + exists Q. split; [eapply runs_trans; eauto|]. split; [exact V2|]. split.
      * intros x [<-|Hx]; [|apply V3, Hx]. rewrite V4 by auto. unfold P'. rewrite putp_eq by auto. exact U3.
      * intros i Hi Hr. rewrite V4; [|auto|intros H; apply Hr; right; auto]. unfold P'.
        rewrite !putp_ne; auto. intros ->. apply Hr. left; auto.
Qed.

(** * Gather-scatter *)
Lemma empty_items n dim vd items r : 0 < dim -> sized vd n dim items -> r < n -> isEmpty (items r) = isEmpty (verts vd r).
Proof.
  intros Hd L Hr. pose proof (L r Hr) as Lr. destruct (items r) as [|x i]; destruct (verts vd r) as [|y l]; cbn in *; auto; lia.
Qed.
Section Gather.
Variables (T b n N dim : nat) (vd : distribution) (items : nat -> list Q).
Hypothesis Hn : 0 < n.
Hypothesis Hb : b + n <= T.
Hypothesis Hd : 0 < dim.
Hypothesis D : distributes vd n N.
Hypothesis L : sized vd n dim items.
Definition gnext (r : nat) (s : list Q) : list Q :=
  match vfind r vd with
  | None => s
  | Some l => match addBlocks 0 (items r) l dim s with Some x => x | None => s end
  end.
Definition contr (r v d : nat) : Q :=
  sumQ (fun j => if nth j (verts vd r) 0 =? v then nth (dim * j + d) (items r) 0%Q else 0%Q) (length (verts vd r)).
Lemma gnext_ok r s : r < n -> length s = dim * N ->
  length (gnext r s) = dim * N /\
  (forall l, vfind r vd = Some l -> addBlocks 0 (items r) l dim s = Some (gnext r s)) /\
  forall v d, d < dim -> (nth (dim * v + d) (gnext r s) 0 == nth (dim * v + d) s 0 + contr r v d)%Q.
Proof using D L.
  clear T b Hb Hd Hn.
  intros Hr Ls. unfold gnext, contr. pose proof (L r Hr) as Lr. unfold verts in *. destruct (vfind r vd) as [l|] eqn:E.
  - destruct (addBlocks_ok dim (items r) N l 0 s Ls) as (res & E1 & E2 & E3); [cbn; lia| |].
    { intros v Hv. apply (ds_vertices _ _ _ D r). rewrite (verts_some _ _ _ E). exact Hv. }
    rewrite E1. split; auto. split; [intros l0 El0; injection El0 as <-; exact E1|]. exact E3.
  - split; auto. split; [discriminate|]. intros v d _. cbn. ring.
Qed.
Definition gathered (k : nat) : list Q := fold_left (fun s r => gnext r s) (secondaries k) (gnext 0 (repeat 0%Q (N * dim))).
Lemma zeros_nth k i : nth i (repeat 0%Q k) 0%Q = 0%Q.
Proof. revert i. induction k as [|k IH]; intros [|i]; cbn; auto. Qed.
Lemma gathered_ok k : 0 < k <= n -> length (gathered k) = dim * N /\
  forall v d, d < dim -> (nth (dim * v + d) (gathered k) 0 == sumQ (fun r => contr r v d) k)%Q.
Proof using D L Hn.
  clear T b Hb Hd.
  induction k as [|k IH]; intros H; [lia|]. destruct k as [|k].
  - destruct (gnext_ok 0 (repeat 0%Q (N * dim))) as (A & _ & B); [lia|rewrite repeat_length; lia|].
    unfold gathered. cbn [secondaries Nat.sub seq fold_left]. split; auto. intros v d Hv. rewrite (B v d Hv), zeros_nth.
    cbn [sumQ]. reflexivity.
  - unfold gathered. rewrite secondaries_S by lia. rewrite fold_left_app. fold (gathered (S k)). cbn [fold_left].
    destruct IH as (A & B); [lia|]. destruct (gnext_ok (S k) (gathered (S k))) as (A' & _ & B'); [lia|auto|].
    split; auto. intros v d Hv. rewrite (B' v d Hv), (B v d Hv). reflexivity.
Qed.
(** everything of gsSend up to the message to the other participant *)
Lemma phase_gather peer :
  exists p, gsSend b n peer 0 N vd (items 0) dim = bind p (fun g => sendRangeDbl peer g) /\
    phase T b (procs b n) p (fun q => gsSend b n peer (q - b) N vd (items (q - b)) dim) (gathered n) (fun _ => tt).
Proof using D L Hn Hb Hd.
  destruct (procs_ok b n) as (Nd & Nz & Iff).
  destruct (vfind_in vd 0 (ds_first _ _ _ D)) as (own & Eo).
  destruct (gnext_ok 0 (repeat 0%Q (N * dim))) as (A & B & _); [lia|rewrite repeat_length; lia|].
  eexists. split.
  - unfold gsSend. cbn [isSecondary Nat.eqb negb]. rewrite Eo. cbn [orErr bind]. rewrite (B own Eo). cbn [orErr bind]. reflexivity.
  - unfold gathered.
    apply (phase_fold_g T b (Nat.add b) _ _ gnext (fun _ => tt) (fun s => length s = dim * N)); auto; [lia| |].
    + intros r Hr. unfold secondaries in Hr. apply in_seq in Hr. lia.
    + intros r s Hr Is. unfold secondaries in Hr. apply in_seq in Hr. assert (Hrn : r < n) by lia.
      replace (b + r - b) with r by lia. unfold gsSend.
      replace (isSecondary r) with true by (unfold isSecondary; destruct (Nat.eqb_spec r 0); [lia|reflexivity]).
      rewrite (empty_items n dim vd items) by auto. pose proof (L r Hrn) as Lr.
      destruct (gnext_ok r s Hrn Is) as (A' & B' & _). split; [|exact A'].
      unfold verts in *. destruct (vfind r vd) as [l|] eqn:El.
      * destruct l as [|x l]; cbn [isEmpty negb].
        -- specialize (B' [] eq_refl). cbn [addBlocks] in B'. injection B' as <-. constructor.
        -- apply talk_sym. eapply talk_bind_r; [apply talk_dbls; lia|]. rewrite (B' _ eq_refl). reflexivity.
      * cbn [isEmpty negb]. unfold gnext. rewrite El. constructor.
Qed.
End Gather.

Section Scatter.
Variables (T b n N dim peer : nat) (vd : distribution) (bufs : nat -> list Q) (G : list Q).
Hypothesis Hn : 0 < n.
Hypothesis Hb : b + n <= T.
Hypothesis Hd : 0 < dim.
Hypothesis D : distributes vd n N.
Hypothesis L : sized vd n dim bufs.
Hypothesis LG : length G = dim * N.
Definition scattered (r : nat) : list Q :=
  match copyBlocks 0 G (verts vd r) dim (if r =? 0 then bufs 0 else repeat 0%Q (length (verts vd r) * dim)) with Some x => x | None => [] end.
Lemma scattered_ok r : r < n ->
  copyBlocks 0 G (verts vd r) dim (if r =? 0 then bufs 0 else repeat 0%Q (length (verts vd r) * dim)) = Some (scattered r) /\
  length (scattered r) = dim * length (verts vd r) /\
  forall i d, i < length (verts vd r) -> d < dim -> nth (dim * i + d) (scattered r) 0%Q = nth (dim * nth i (verts vd r) 0 + d) G 0%Q.
Proof using D L Hn LG.
  clear T b Hb Hd.
  intros Hr. unfold scattered.
  destruct (copyBlocks_ok dim G N (verts vd r) 0 (if r =? 0 then bufs 0 else repeat 0%Q (length (verts vd r) * dim)) LG) as (x & E & E1 & E2 & _).
  - destruct (Nat.eqb_spec r 0) as [->|]; [rewrite (L 0 Hn); reflexivity|rewrite repeat_length; lia].
  - intros v Hv. apply (ds_vertices _ _ _ D r v Hv).
  - rewrite E. split; auto. split; [|exact E2]. rewrite E1.
    destruct (Nat.eqb_spec r 0) as [->|]; [apply (L 0 Hn)|rewrite repeat_length; lia].
Qed.
Lemma phase_scatter :
  exists p, gsReceive b n peer 0 N vd (bufs 0) dim = bind (receiveRangeDbl peer) p /\
    phase T b (procs b n) (p G) (fun q => gsReceive b n peer (q - b) N vd (bufs (q - b)) dim) (scattered 0) (fun q => scattered (q - b)).
Proof using D L Hn Hb Hd LG.
  destruct (procs_ok b n) as (Nd & Nz & Iff).
  destruct (vfind_in vd 0 (ds_first _ _ _ D)) as (own & Eo).
  eexists. split; [reflexivity|]. cbv beta.
  rewrite LG. rewrite (Nat.mul_comm N dim), Nat.eqb_refl. cbn [check bind]. rewrite Eo. cbn [orErr bind].
  destruct (scattered_ok 0 Hn) as (E0 & _ & _). rewrite (verts_some _ _ _ Eo) in E0. cbn [Nat.eqb] in E0. rewrite E0. cbn [orErr bind].
  eapply (phase_bind_z _ _ _ _ _ (fold_left (fun (_ : unit) (_ : nat) => tt) (secondaries n) tt)); [|reflexivity]. unfold forRanks.
  apply (phase_fold_g T b (Nat.add b) _ (fun q => gsReceive b n peer (q - b) N vd (bufs (q - b)) dim) (fun _ _ => tt) (fun q => scattered (q - b)) (fun _ => True)); auto; [lia| |].
  - intros r Hr. unfold secondaries in Hr. apply in_seq in Hr. lia.
  - intros r s Hr _. split; auto. unfold secondaries in Hr. apply in_seq in Hr. assert (Hrn : r < n) by lia.
    replace (b + r - b) with r by lia. unfold gsReceive.
    replace (isSecondary r) with true by (unfold isSecondary; destruct (Nat.eqb_spec r 0); [lia|reflexivity]).
    rewrite (empty_items n dim vd bufs) by auto. pose proof (L r Hrn) as Lr.
    destruct (scattered_ok r Hrn) as (E & E1 & _). destruct (Nat.eqb_spec r 0) as [|_]; [lia|].
    destruct (vfind r vd) as [l|] eqn:El.
    + rewrite (verts_some _ _ _ El) in *. destruct l as [|x l].
      * cbn [isEmpty negb]. cbn [length] in *. rewrite Nat.mul_0_r in *.
        destruct (bufs r); [|discriminate Lr]. destruct (scattered r); [|discriminate E1]. constructor.
      * cbn [isEmpty negb]. rewrite E. cbn [orErr bind].
        eapply talk_bind_r; [apply talk_rangeDbl|]. cbv beta.
        assert (NE : isEmpty (scattered r) = false) by (destruct (scattered r); [cbn [length] in E1; lia|reflexivity]).
        rewrite NE. cbn [negb check bind]. unfold copyTo. rewrite E1, Lr, Nat.leb_refl.
        rewrite skipn_all2 by lia. rewrite app_nil_r. reflexivity.
    + unfold verts in *. rewrite El in *. cbn [isEmpty negb]. cbn [length] in *. rewrite Nat.mul_0_r in *.
      destruct (bufs r); [|discriminate Lr]. destruct (scattered r); [|discriminate E1]. constructor.
Qed.
End Scatter.

Section GS.
Variables (n m N dim : nat) (vdS vdR : distribution) (items bufs : nat -> list Q).
Hypothesis Hn : 0 < n.
Hypothesis Hm : 0 < m.
Hypothesis Hd : 0 < dim.
Hypothesis DS : distributes vdS n N.
Hypothesis DR : distributes vdR m N.
Hypothesis LS : sized vdS n dim items.
Hypothesis LR : sized vdR m dim bufs.
(** sender at [b], receiver at [b'] *)
Lemma gs_runs T b b' {A} (P : nat -> proc packet A) (ns : A) (rep : list Q -> A) :
  b + n <= T -> b' + m <= T -> (b + n <= b' \/ b' + m <= b) ->
  (forall r, r < n -> P (b + r) = bind (gsSend b n b' r N vdS (items r) dim) (fun _ => PRet ns)) ->
  (forall r, r < m -> P (b' + r) = bind (gsReceive b' m b r N vdR (bufs r) dim) (fun x => PRet (rep x))) ->
  exists Q, runs T P Q /\ (forall r, r < n -> Q (b + r) = PRet ns) /\
    (forall r, r < m -> Q (b' + r) = PRet (rep (scattered dim vdR bufs (gathered N dim vdS items n) r))).
Proof.
  intros Hb Hb' Dj Ps Pr.
  destruct (procs_ok b n) as (_ & _ & Iff). destruct (procs_ok b' m) as (_ & _ & Iff').
  destruct (gathered_ok n N dim vdS items Hn DS LS n) as (LG & _); [lia|].
  set (G := gathered N dim vdS items n) in *.
  destruct (phase_gather T b n N dim vdS items Hn Hb Hd DS LS b') as (pg & Eg & Hg).
  destruct (phase_scatter T b' m N dim b vdR bufs G Hm Hb' Hd DR LR LG) as (ps & Es & Hs).
  destruct (Hg A P (fun g X => leads (sendRangeDbl b' g) X (fun _ X => X = PRet ns)) (fun _ _ X => X = PRet ns)) as (P1 & U1 & U2 & U3 & U4).
  - pose proof (Ps 0 Hn) as E0. rewrite Nat.add_0_r in E0. rewrite E0. apply (leads_bind pg (fun g => sendRangeDbl b' g)).
    rewrite <- Eg. eapply leads_mono; [|apply leads_intro]. cbn. intros [] X ->. reflexivity.
  - intros p Hp. apply Iff in Hp. replace (P p) with (P (b + (p - b))) by (f_equal; lia). rewrite Ps by lia.
    eapply leads_mono; [|apply leads_intro]. cbn. intros [] X ->. reflexivity.
  - assert (K : forall r, r < m -> P1 (b' + r) = P (b' + r)).
    { intros r Hr. apply U4; [lia|]. intros H. apply Iff in H. lia. }
    destruct (runs_talk T b b' _ _ tt G (talk_rangeDbl b b' G) P1 (fun _ X => X = PRet ns)
                (fun g X => leads (ps g) X (fun x X => X = PRet (rep x)))) as (X & Y & V1 & V2 & V3); [lia|lia|lia|exact U2| |].
    { apply (leads_bind (receiveRangeDbl b) ps). rewrite <- Es. pose proof (Pr 0 Hm) as E0. rewrite <- (K 0 Hm), Nat.add_0_r in E0. rewrite E0. apply leads_intro. }
    set (P2 := putp b' Y (putp b X P1)) in *.
    destruct (Hs A P2 (fun x X => X = PRet (rep x)) (fun _ x X => X = PRet (rep x))) as (P3 & W1 & W2 & W3 & W4).
    { unfold P2. rewrite putp_eq by auto. exact V3. }
    { intros p Hp. apply Iff' in Hp. unfold P2. rewrite !putp_ne by lia.
      replace (P1 p) with (P1 (b' + (p - b'))) by (f_equal; lia). rewrite K, Pr by lia. apply leads_intro. }
    exists P3. split; [eapply runs_trans; [exact U1|eapply runs_trans; [exact V1|exact W1]]|]. split.
    + intros r Hr. rewrite W4 by (try (intros H; apply Iff' in H); lia). unfold P2. rewrite putp_ne by lia.
      destruct r as [|r]; [rewrite putp_eq by lia; exact V2|]. rewrite putp_ne by lia. apply (U3 (b + S r)). apply Iff. lia.
    + intros r Hr. destruct r as [|r]; [rewrite Nat.add_0_r; exact W2|].
      rewrite (W3 (b' + S r)) by (apply Iff'; lia). replace (b' + S r - b') with (S r) by lia. reflexivity.
Qed.
Lemma gs_sums r : r < m -> receives_sums n vdS vdR items dim r (scattered dim vdR bufs (gathered N dim vdS items n) r).
Proof.
  intros Hr. destruct (gathered_ok n N dim vdS items Hn DS LS n) as (LG & V); [lia|].
  destruct (scattered_ok m N dim vdR bufs _ Hm DR LR LG r Hr) as (_ & A & B). split; auto.
  intros i d Hi Hdd. rewrite (B i d Hi Hdd). apply V, Hdd.
Qed.
End GS.
