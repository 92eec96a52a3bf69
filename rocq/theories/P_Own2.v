From Coq Require Import ZArith QArith List Arith Lia Bool Sorted.
From Verif Require Import M_Net M_Mesh M_Box M_Comm M_M2N M_Part S_Box S_Term S_Part P_Net P_Term P_Serial P_Box P_P2P P_P2PRun P_Mail P_Own.
Import ListNotations.
Open Scope nat_scope.

(** * The neighbours *)
Definition box0 : box := MkBox [] [].
Lemma pushTo_ok g : forall K s (f : nat -> list nat), NoDup K -> In s K ->
  pushTo s g (map (fun k => (k, f k)) K) = map (fun k => (k, if k =? s then f k ++ [g] else f k)) K.
Proof.
  induction K as [|k K IH]; intros s f Nd Hs; [destruct Hs|]. inversion Nd as [|? ? Nk Nd']; subst. cbn [map pushTo].
  destruct (Nat.eqb_spec k s) as [->|Ne].
  - f_equal. apply map_ext_in. intros x Hx. destruct (Nat.eqb_spec x s); [subst; contradiction|reflexivity].
  - f_equal. apply IH; auto. destruct Hs; [congruence|auto].
Qed.
Lemma pushAll_ok g K : NoDup K -> forall l (f : nat -> list nat), NoDup l -> (forall s, In s l -> In s K) ->
  fold_left (fun m s => pushTo s g m) l (map (fun k => (k, f k)) K) = map (fun k => (k, if mem k l then f k ++ [g] else f k)) K.
Proof.
  intros NK. induction l as [|s l IH]; intros f Nd Hl; [reflexivity|]. inversion Nd as [|? ? Ns Nd']; subst. cbn [fold_left].
  rewrite pushTo_ok by (auto; apply Hl; left; auto). rewrite (IH (fun k => if k =? s then f k ++ [g] else f k)) by (auto; intros x Hx; apply Hl; right; auto).
  apply map_ext. intros k. f_equal. unfold mem at 2. cbn [existsb]. destruct (Nat.eqb_spec k s) as [->|]; cbn [orb]; [|reflexivity].
  assert (E : mem s l = false) by (apply mem_false; exact Ns). rewrite E. reflexivity.
Qed.
Lemma isEmpty_filter {A} (p : A -> bool) l : isEmpty (filter p l) = negb (existsb p l).
Proof. induction l as [|x l IH]; [reflexivity|]. cbn. destruct (p x); [reflexivity|exact IH]. Qed.
Lemma says_for (f : nat -> proc packet unit) (o : nat -> list packet) : forall l, (forall s, In s l -> says (f s) (map (pair s) (o s)) tt) ->
  says (forRanks l f) (flat_map (fun s => map (pair s) (o s)) l) tt.
Proof.
  induction l as [|s l IH]; intros H; cbn [forRanks flat_map]; [constructor|]. eapply says_bind; [apply H; left; auto|]. apply IH. intros; apply H; right; auto.
Qed.
Lemma says_entries (f : nat -> list nat -> proc packet unit) (L : nat -> list nat) (o : nat -> list packet) : forall l, (forall s, In s l -> says (f s (L s)) (map (pair s) (o s)) tt) ->
  says (forEntries (map (fun s => (s, L s)) l) f) (flat_map (fun s => map (pair s) (o s)) l) tt.
Proof.
  induction l as [|s l IH]; intros H; cbn [map forEntries flat_map]; [constructor|]. eapply says_bind; [apply H; left; auto|]. apply IH. intros; apply H; right; auto.
Qed.
Lemma takes_fold {S} (f : nat -> S -> proc packet S) (o : nat -> list packet) (next : nat -> S -> S) : forall l st,
  (forall s st, In s l -> takes (f s st) (map (pair s) (o s)) (next s st)) ->
  takes (foldRanks l f st) (flat_map (fun s => map (pair s) (o s)) l) (fold_left (fun st s => next s st) l st).
Proof.
  induction l as [|s l IH]; intros st H; cbn [foldRanks flat_map fold_left]; [constructor|].
  eapply takes_bind; [apply H; left; auto|]. apply IH. intros; apply H; right; auto.
Qed.
Lemma mail_pairs (o : nat -> list packet) j : forall l, NoDup l -> mail j (flat_map (fun s => map (pair s) (o s)) l) = if mem j l then o j else [].
Proof.
  assert (P : forall s (k : list packet), mail j (map (pair s) k) = if s =? j then k else []).
  { intros s k. induction k as [|x k IH]; cbn [map]; [destruct (s =? j); reflexivity|]. rewrite mail_cons, IH. destruct (s =? j); reflexivity. }
  induction l as [|s l IH]; intros Nd; [reflexivity|]. inversion Nd as [|? ? Ns Nd']; subst. cbn [flat_map]. rewrite mail_app, P, IH by exact Nd'.
  unfold mem at 2. cbn [existsb]. rewrite (Nat.eqb_sym j s). destruct (Nat.eqb_spec s j) as [->|]; cbn [orb]; [|reflexivity].
  assert (E : mem j l = false) by (apply mem_false; exact Ns). rewrite E, app_nil_r. reflexivity.
Qed.
Lemma fold_append {A B} (f : A -> B) l : forall acc, fold_left (fun acc s => acc ++ [f s]) l acc = acc ++ map f l.
Proof. induction l as [|x l IH]; intros acc; cbn; [rewrite app_nil_r; reflexivity|]. rewrite IH, <- app_assoc. reflexivity. Qed.
Lemma combine_seq : forall (l : list box) a, combine (seq a (length l)) l = map (fun s => (s, nth (s - a) l box0)) (seq a (length l)).
Proof.
  induction l as [|b l IH]; intros a; [reflexivity|]. cbn [length seq combine map]. rewrite Nat.sub_diag. f_equal.
  rewrite IH. apply map_ext_in. intros s Hs. apply in_seq in Hs. replace (s - a) with (S (s - S a)) by lia. reflexivity.
Qed.
Lemma filter_map_pair {A B} (f : A -> B) (p : B -> bool) l : filter p (map f l) = map f (filter (fun x => p (f x)) l).
Proof. induction l as [|x l IH]; cbn; [reflexivity|]. destruct (p (f x)); cbn; rewrite IH; reflexivity. Qed.
Section Two.
Variables (n d : nat) (boxes : list box) (m : nat -> mesh).
Hypotheses (Nb : length boxes = n) (Leg : forall b, In b boxes -> legal d b)
  (Co : forall r v, r < n -> In v (m_verts (m r)) -> length (v_coords v) = d)
  (Srt : forall r, r < n -> StronglySorted Z.lt (map v_glob (m_verts (m r))))
  (Pos : forall r v, r < n -> In v (m_verts (m r)) -> (0 <= v_glob v)%Z).
Definition bx (s : nat) : box := nth s boxes box0.
Definition ks (r : nat) : list nat := filter (fun s => negb (s =? r) && overlapping (bx r) (bx s)) (seq 0 n).
Lemma bx_legal s : s < n -> legal d (bx s).
Proof. intros H. apply Leg, nth_In. lia. Qed.
Lemma ks_in r s : In s (ks r) <-> s < n /\ s <> r /\ overlapping (bx r) (bx s) = true.
Proof.
  unfold ks. rewrite filter_In, in_seq, andb_true_iff, negb_true_iff, Nat.eqb_neq. split; intuition lia.
Qed.
Lemma ks_sym r s : r < n -> In s (ks r) -> In r (ks s).
Proof. rewrite !ks_in. intros Hr (A & B & C). rewrite overlapping_sym. auto. Qed.
Lemma ks_nodup r : NoDup (ks r).
Proof. apply NoDup_filter, seq_NoDup. Qed.
Lemma neighbours_ks r : neighbours r boxes (bx r) = map (fun s => (s, bx s)) (ks r).
Proof.
  unfold neighbours. rewrite combine_seq, Nb, filter_map_pair. cbn [fst snd]. unfold ks.
  rewrite (map_ext_in (fun s => (s, nth (s - 0) boxes box0)) (fun s => (s, bx s))) by (intros; rewrite Nat.sub_0_r; reflexivity).
  f_equal. apply filter_ext. intros s. rewrite Nat.sub_0_r. reflexivity.
Qed.

(** * The scan of the vertices *)
Definition isin (s : nat) (v : vertex) : bool := match contains (bx s) (v_coords v) with Some x => x | None => false end.
Lemma isin_ok s v : s < n -> length (v_coords v) = d -> contains (bx s) (v_coords v) = Some (isin s v) /\ (isin s v = true <-> inside (v_coords v) (bx s)).
Proof.
  intros Hs Hv. destruct (bx_legal s Hs) as (L1 & L2 & _). assert (C : contains (bx s) (v_coords v) = Some (isin s v)).
  { unfold isin, contains, b_dim. rewrite L1, Hv, Nat.eqb_refl. reflexivity. }
  split; [exact C|]. rewrite <- (contains_ok (bx s)) by (unfold b_dim; congruence). rewrite C. split; congruence.
Qed.
Lemma sharing_ok v : length (v_coords v) = d -> forall l, (forall s, In s l -> s < n) ->
  sharing (map (fun s => (s, bx s)) l) (v_coords v) = Some (filter (fun s => isin s v) l).
Proof.
  intros Hv. induction l as [|s l IH]; intros H; [reflexivity|]. cbn [map sharing filter].
  rewrite (proj1 (isin_ok s v (H s (or_introl eq_refl)) Hv)). rewrite IH by (intros x Hx; apply H; right; auto). destruct (isin s v); reflexivity.
Qed.
Definition num (v : vertex) : nat := Z.to_nat (v_glob v).
(** shared with a neighbour of [r] *)
Definition shared (r : nat) (v : vertex) : bool := existsb (fun s => isin s v) (ks r).
Definition lone (r : nat) (vs : list vertex) : Z := Z.of_nat (length (filter (fun v => v_tag v && negb (shared r v)) vs)).
Definition listed (s : nat) (vs : list vertex) : list nat := map num (filter (fun v => v_tag v && isin s v) vs).
Fixpoint ent (r i : nat) (vs : list vertex) : list (nat * nat) :=
  match vs with [] => [] | v :: t => if v_tag v && shared r v then (i, num v) :: ent r (S i) t else ent r (S i) t end.
Lemma scan_ok r : forall vs i T c G L (f : nat -> list nat), (forall v, In v vs -> length (v_coords v) = d) ->
  scanVertices (map (fun s => (s, bx s)) (ks r)) i vs (MkScan T c G L (map (fun k => (k, f k)) (ks r))) =
  Some (MkScan (T ++ map (fun v => if v_tag v then 1 else 0)%Z vs) (c + lone r vs)%Z (G ++ map snd (ent r i vs)) (L ++ map fst (ent r i vs))
               (map (fun k => (k, f k ++ listed k vs)) (ks r))).
Proof.
  induction vs as [|v vs IH]; intros i T c G L f Hv.
  - cbn. rewrite !app_nil_r. unfold lone. cbn. rewrite Z.add_0_r. do 2 f_equal. apply map_ext. intros k. rewrite app_nil_r. reflexivity.
  - cbn [scanVertices]. destruct (v_tag v) eqn:Et.
    + rewrite sharing_ok by (try (apply Hv; left; auto); intros s Hs; apply ks_in in Hs; tauto). cbn [sc_send sc_tags sc_count sc_global sc_local].
      rewrite pushAll_ok.
      2: apply ks_nodup. 2: apply NoDup_filter, ks_nodup. 2: { intros s Hs. apply filter_In in Hs. tauto. }
      rewrite isEmpty_filter. fold (shared r v). cbn [ent]. rewrite Et. cbn [andb].
      assert (Hv' : forall x, In x vs -> length (v_coords x) = d) by (intros; apply Hv; right; auto).
      assert (El : map (fun k => (k, (if mem k (filter (fun s => isin s v) (ks r)) then f k ++ [num v] else f k) ++ listed k vs)) (ks r) =
                   map (fun k => (k, f k ++ listed k (v :: vs))) (ks r)).
      { apply map_ext_in. intros k Hk. f_equal. unfold listed. cbn [filter]. rewrite Et. cbn [andb].
        destruct (isin k v) eqn:Ei.
        - assert (mem k (filter (fun s => isin s v) (ks r)) = true) as -> by (apply mem_in, filter_In; auto). cbn [map]. rewrite <- app_assoc. reflexivity.
        - assert (mem k (filter (fun s => isin s v) (ks r)) = false) as -> by (apply mem_false; rewrite filter_In; intros (_ & C); congruence). reflexivity. }
      destruct (shared r v) eqn:Es; cbn [negb].
      * rewrite IH by exact Hv'. cbv beta. fold (num v). rewrite El. unfold lone. cbn [filter map]. rewrite Et, Es. cbn [andb negb map fst snd]. rewrite <- !app_assoc. reflexivity.
      * rewrite IH by exact Hv'. cbv beta. fold (num v). rewrite El. unfold lone. cbn [filter map]. rewrite Et, Es. cbn [andb negb map fst snd length]. rewrite <- !app_assoc. do 2 f_equal. lia.
    + cbn [sc_send sc_tags sc_count sc_global sc_local]. rewrite IH by (intros; apply Hv; right; auto). cbn [map ent]. rewrite Et. cbn [andb]. unfold lone, listed. cbn [filter]. rewrite Et. cbn [andb].
      rewrite <- !app_assoc. reflexivity.
Qed.

(** * The two exchanges *)
Definition cnt (r : nat) : Z := lone r (m_verts (m r)).
Definition sentTo (r s : nat) : list nat := listed s (m_verts (m r)).
Lemma mail_match (o i : nat -> nat -> list packet) : (forall a b, i b a = o a b) -> forall a b, a < n -> b < n ->
  mail a (flat_map (fun s => map (pair s) (i b s)) (ks b)) = mail b (flat_map (fun s => map (pair s) (o a s)) (ks a)).
Proof.
  intros E a b Ha Hb. rewrite !mail_pairs by apply ks_nodup. destruct (mem a (ks b)) eqn:E1, (mem b (ks a)) eqn:E2; auto.
  - exfalso. apply mem_in in E1. apply mem_false in E2. apply E2, ks_sym; auto.
  - exfalso. apply mem_in in E2. apply mem_false in E1. apply E1, ks_sym; auto.
Qed.
Lemma in_pairs (o : nat -> list packet) r dd x : In (dd, x) (flat_map (fun s => map (pair s) (o s)) (ks r)) -> dd < n /\ dd <> r.
Proof.
  intros H. apply in_flat_map in H. destruct H as (s & Hs & H). apply in_map_iff in H. destruct H as (y & E & _). injection E as <- _.
  apply ks_in in Hs. tauto.
Qed.
Definition listMsg (l : list nat) : list packet := KInt (sizeOf l) :: if isEmpty l then [] else [KInts (toInts l)].
Definition receivedAt (r : nat) : list (nat * list nat) :=
  fold_left (fun acc s => if isEmpty (sentTo s r) then acc else acc ++ [(s, sentTo s r)]) (ks r) [].
Definition scanned (r : nat) : scan :=
  MkScan (tagsOf (m r)) (cnt r) (map snd (ent r 0 (m_verts (m r)))) (map fst (ent r 0 (m_verts (m r)))) (map (fun k => (k, sentTo r k)) (ks r)).
Definition owners2 (r : nat) : list Z :=
  fold_left (yieldTo r (cnt r) (scanned r) (map (fun s => (s, cnt s)) (ks r))) (receivedAt r) (tagsOf (m r)).

Lemma own2_run : reaches (astep once) (ranks n (fun r => createOwnerInformation2 r boxes (bx r) (m r)), emptych n)
  (ranks n (fun r => orErr (setOwnerInformation (owners2 r) (m r)) (EAssert 266)), emptych n).
Proof.
  set (P1 := fun r => bind (forRanks (ks r) (fun s => sendInt s (cnt r))) (fun _ =>
     bind (foldRanks (ks r) (fun s acc => bind (recvInt s) (fun c => PRet (acc ++ [(s, c)]))) []) (fun counts =>
     bind (forEntries (map (fun k => (k, sentTo r k)) (ks r)) (fun s l => bind (sendInt s (sizeOf l)) (fun _ => if isEmpty l then PRet tt else sendInts s (toInts l)))) (fun _ =>
     bind (foldRanks (ks r) (fun s acc => bind (recvInt s) (fun receiveSize => if Z.eqb receiveSize 0 then PRet acc else
                bind (recvInts s (Z.to_nat receiveSize)) (fun l => PRet (acc ++ [(s, ofInts l)])))) []) (fun received =>
     orErr (setOwnerInformation (fold_left (yieldTo r (cnt r) (scanned r) counts) received (tagsOf (m r))) (m r)) (EAssert 266)))))).
  assert (E : ranks n (fun r => createOwnerInformation2 r boxes (bx r) (m r)) = ranks n P1).
  { apply ranks_ext. intros r Hr. unfold createOwnerInformation2. rewrite neighbours_ks.
    assert (E1 : map (fun e : nat * box => (fst e, @nil nat)) (map (fun s => (s, bx s)) (ks r)) = map (fun k => (k, [])) (ks r)) by (rewrite map_map; reflexivity).
    rewrite E1. rewrite (scan_ok r (m_verts (m r)) 0 [] 0%Z [] [] (fun _ => [])) by (intros v Hv; apply (Co r); auto).
    cbn [app orErr bind sc_count sc_send sc_tags]. rewrite Z.add_0_l. rewrite !map_map. cbn [fst]. rewrite !map_id. reflexivity. }
  rewrite E. clear E. eapply reaches_trans.
  - apply (exchange n (fun r => forRanks (ks r) (fun s => sendInt s (cnt r)))
      (fun r => foldRanks (ks r) (fun s acc => bind (recvInt s) (fun c => PRet (acc ++ [(s, c)]))) []) _
      (fun r => flat_map (fun s => map (pair s) [KInt (cnt r)]) (ks r)) (fun r => flat_map (fun s => map (pair s) [KInt (cnt s)]) (ks r))
      (fun r => map (fun s => (s, cnt s)) (ks r))).
    + intros r Hr. apply (says_for _ (fun _ => [KInt (cnt r)])). intros s _. repeat constructor.
    + intros r Hr. rewrite <- (app_nil_l (map (fun s => (s, cnt s)) (ks r))), <- fold_append.
      apply (takes_fold _ (fun s => [KInt (cnt s)]) (fun s acc => acc ++ [(s, cnt s)])). intros s st _. repeat constructor.
    + intros r dd x Hr. apply (in_pairs (fun _ => [KInt (cnt r)])).
    + intros r dd x Hr. apply (in_pairs (fun s => [KInt (cnt s)])).
    + intros i j Hi Hj. apply (mail_match (fun a _ => [KInt (cnt a)]) (fun _ a => [KInt (cnt a)])); auto.
  - apply (exchange n (fun r => forEntries (map (fun k => (k, sentTo r k)) (ks r)) (fun s l => bind (sendInt s (sizeOf l)) (fun _ => if isEmpty l then PRet tt else sendInts s (toInts l))))
      (fun r => foldRanks (ks r) (fun s acc => bind (recvInt s) (fun receiveSize => if Z.eqb receiveSize 0 then PRet acc else
                bind (recvInts s (Z.to_nat receiveSize)) (fun l => PRet (acc ++ [(s, ofInts l)])))) [])
      (fun r received => orErr (setOwnerInformation (fold_left (yieldTo r (cnt r) (scanned r) (map (fun s => (s, cnt s)) (ks r))) received (tagsOf (m r))) (m r)) (EAssert 266))
      (fun r => flat_map (fun s => map (pair s) (listMsg (sentTo r s))) (ks r)) (fun r => flat_map (fun s => map (pair s) (listMsg (sentTo s r))) (ks r))
      receivedAt).
    + intros r Hr. apply (says_entries _ (sentTo r) (fun s => listMsg (sentTo r s))). intros s _. unfold listMsg.
      destruct (sentTo r s); cbn [isEmpty map]; repeat constructor.
    + intros r Hr. apply (takes_fold _ (fun s => listMsg (sentTo s r)) (fun s acc => if isEmpty (sentTo s r) then acc else acc ++ [(s, sentTo s r)])).
      intros s st _. unfold listMsg. destruct (sentTo s r) as [|x l] eqn:El; cbn [isEmpty map].
      * repeat constructor.
      * apply takes_recv. cbn [bind]. assert (Ez : Z.eqb (sizeOf (x :: l)) 0 = false) by (apply Z.eqb_neq; unfold sizeOf; cbn [length]; lia). rewrite Ez.
        unfold recvInts, recv. cbn [bind]. apply takes_recv. cbn [bind].
        unfold sizeOf. rewrite Nat2Z.id. unfold toInts at 1. rewrite map_length, Nat.eqb_refl. cbn [bind]. rewrite ofInts_toInts. constructor.
    + intros r dd x Hr. apply (in_pairs (fun s => listMsg (sentTo r s))).
    + intros r dd x Hr. apply (in_pairs (fun s => listMsg (sentTo s r))).
    + intros i j Hi Hj. apply (mail_match (fun a b => listMsg (sentTo a b)) (fun b a => listMsg (sentTo a b))); auto.
Qed.

(** * The decision *)
Definition beats (s r : nat) : bool := (cnt s <? cnt r)%Z || (Z.eqb (cnt s) (cnt r) && (s <? r)).
Definition yielded (r : nat) (l : list nat) (v : vertex) : bool := shared r v && existsb (fun s => beats s r && mem (num v) (sentTo s r)) l.
Definition stage (r : nat) (l : list nat) : list Z := map (fun v => if v_tag v && negb (yielded r l v) then 1%Z else 0%Z) (m_verts (m r)).
Lemma ent_in r : forall vs k i g, In (i, g) (ent r k vs) <-> exists v, k <= i /\ nth_error vs (i - k) = Some v /\ v_tag v = true /\ shared r v = true /\ g = num v.
Proof.
  induction vs as [|v vs IH]; intros k i g; cbn [ent].
  - split; [intros []|]. intros (v & _ & E & _). destruct (i - k); discriminate.
  - assert (X : (exists w, S k <= i /\ nth_error vs (i - S k) = Some w /\ v_tag w = true /\ shared r w = true /\ g = num w) \/ (i = k /\ v_tag v = true /\ shared r v = true /\ g = num v)
       <-> (exists w, k <= i /\ nth_error (v :: vs) (i - k) = Some w /\ v_tag w = true /\ shared r w = true /\ g = num w)).
    { split.
      - intros [(w & A & B & C)|(-> & A)].
        + exists w. split; [lia|]. replace (i - k) with (S (i - S k)) by lia. auto.
        + exists v. rewrite Nat.sub_diag. auto.
      - intros (w & A & B & C). destruct (Nat.eq_dec i k) as [->|Ne].
        + rewrite Nat.sub_diag in B. injection B as <-. right. auto.
        + left. exists w. replace (i - k) with (S (i - S k)) in B by lia. split; [lia|auto]. }
    rewrite <- X. destruct (v_tag v && shared r v) eqn:E.
    + apply andb_prop in E. destruct E as (E1 & E2). cbn [In]. rewrite IH. split.
      * intros [H|H]; [injection H as <- <-; auto|auto].
      * intros [H|(-> & _ & _ & ->)]; auto.
    + rewrite IH. split; [auto|]. intros [H|(_ & A & B & _)]; [exact H|]. rewrite A, B in E. discriminate.
Qed.
Lemma num_sorted : forall vs (p : vertex -> bool), StronglySorted Z.lt (map v_glob vs) -> (forall v, In v vs -> (0 <= v_glob v)%Z) -> StronglySorted lt (map num (filter p vs)).
Proof.
  induction vs as [|v vs IH]; intros p H Hp; cbn [map filter]; [constructor|]. cbn [map] in H. inversion H as [|? ? H1 H2]; subst.
  assert (IH' := IH p H1 (fun x Hx => Hp x (or_intror Hx))). destruct (p v); [|exact IH']. cbn [map]. constructor; auto.
  apply Forall_forall. intros x Hx. apply in_map_iff in Hx. destruct Hx as (w & <- & Hw). apply filter_In in Hw. destruct Hw as (Hw & _).
  rewrite Forall_forall in H2. specialize (H2 (v_glob w) (in_map v_glob _ _ Hw)). specialize (Hp v (or_introl eq_refl)). unfold num. lia.
Qed.
Lemma ent_snd r : forall vs k, map snd (ent r k vs) = map num (filter (fun v => v_tag v && shared r v) vs).
Proof. induction vs as [|v vs IH]; intros k; cbn [ent filter]; [reflexivity|]. destruct (v_tag v && shared r v); cbn [map]; rewrite IH; reflexivity. Qed.
Lemma pos_fst l : forall (E : list (nat * nat)) i, map (fun k => nth (k - i) (map fst E) 0) (posIn i (map snd E) l) = map fst (filter (fun e => mem (snd e) l) E).
Proof.
  induction E as [|e E IH]; intros i; [reflexivity|]. cbn [map posIn filter].
  assert (X : map (fun k => nth (k - i) (fst e :: map fst E) 0) (posIn (S i) (map snd E) l) = map fst (filter (fun e => mem (snd e) l) E)).
  { rewrite <- (IH (S i)). apply map_ext_in. intros k Hk. apply posIn_range in Hk. replace (k - i) with (S (k - S i)) by lia. reflexivity. }
  destruct (mem (snd e) l); cbn [map]; [rewrite Nat.sub_diag; cbn [nth]; f_equal|]; exact X.
Qed.
Lemma fold_map {A B C} (f : A -> B) (g : C -> B -> C) l : forall t, fold_left (fun t k => g t (f k)) l t = fold_left g (map f l) t.
Proof. induction l as [|x l IH]; intros t; cbn; auto. Qed.
Lemma upds_nth : forall is (t : list Z) i, nth_error (fold_left (fun t k => upd k 0%Z t) is t) i =
  if mem i is then match nth_error t i with Some _ => Some 0%Z | None => None end else nth_error t i.
Proof.
  induction is as [|k is IH]; intros t i; [reflexivity|]. cbn [fold_left]. rewrite IH. unfold mem at 2. cbn [existsb]. fold (mem i is).
  destruct (Nat.eqb_spec i k) as [->|Ne]; cbn [orb].
  - destruct (nth_error t k) eqn:E.
    + rewrite nth_upd_eq by (apply nth_error_Some; congruence). destruct (mem k is); reflexivity.
    + assert (E' : nth_error (upd k 0%Z t) k = None) by (apply nth_error_None; rewrite upd_length; apply nth_error_None, E). rewrite E'. destruct (mem k is); reflexivity.
  - rewrite nth_upd_ne by auto. reflexivity.
Qed.
Lemma count_at r s : In s (ks r) -> match find (fun x => fst x =? s) (map (fun s => (s, cnt s)) (ks r)) with Some x => snd x | None => 0%Z end = cnt s.
Proof.
  induction (ks r) as [|k l IH]; intros H; [destruct H|]. cbn [map find fst]. destruct (Nat.eqb_spec k s) as [->|]; [reflexivity|]. apply IH. destruct H; [congruence|auto].
Qed.
Lemma yield_step r s l : r < n -> In s (ks r) -> yieldTo r (cnt r) (scanned r) (map (fun s => (s, cnt s)) (ks r)) (stage r l) (s, sentTo s r) = stage r (l ++ [s]).
Proof.
  intros Hr Hs. unfold yieldTo. cbn [fst snd]. rewrite count_at by exact Hs. assert (Hsn : s < n) by (apply ks_in in Hs; tauto).
  assert (B : ((cnt s <? cnt r)%Z || Z.eqb (cnt r) (cnt s) && (s <? r)) = beats s r) by (unfold beats; rewrite (Z.eqb_sym (cnt r)); reflexivity).
  rewrite B. destruct (beats s r) eqn:Eb.
  - cbn [scanned sc_local sc_global]. rewrite sii_pos.
    2: { rewrite ent_snd. apply num_sorted; [apply Srt, Hr|intros v; apply Pos, Hr]. } 2: { unfold sentTo, listed. apply num_sorted; [apply Srt, Hsn|intros v; apply Pos, Hsn]. }
    rewrite (fold_map (fun k => nth k (map fst (ent r 0 (m_verts (m r)))) 0) (fun t i => upd i 0%Z t)).
    assert (Ep := pos_fst (sentTo s r) (ent r 0 (m_verts (m r))) 0).
    rewrite (map_ext (fun k => nth k (map fst (ent r 0 (m_verts (m r)))) 0) (fun k => nth (k - 0) (map fst (ent r 0 (m_verts (m r)))) 0)) by (intros; rewrite Nat.sub_0_r; reflexivity).
    rewrite Ep. apply nth_error_eq. intros i. rewrite upds_nth. unfold stage. rewrite !nth_error_map.
    destruct (nth_error (m_verts (m r)) i) as [v|] eqn:Ev; cbn [option_map]; [|destruct (mem i _); reflexivity].
    unfold yielded. rewrite existsb_app. cbn [existsb]. rewrite Eb, orb_false_r. cbn [andb].
    destruct (mem i (map fst (filter (fun e => mem (snd e) (sentTo s r)) (ent r 0 (m_verts (m r)))))) eqn:Ei.
    + apply mem_in, in_map_iff in Ei. destruct Ei as ([i' g] & Ei & H). cbn in Ei. subst i'. apply filter_In in H. destruct H as (H & Hg). cbn [snd] in Hg.
      apply ent_in in H. destruct H as (w & _ & E & Ht & Hsh & ->). rewrite Nat.sub_0_r, Ev in E. injection E as <-.
      rewrite Hsh, Hg, orb_true_r. cbn [negb andb]. rewrite andb_false_r. reflexivity.
    + destruct (v_tag v) eqn:Ht; [|reflexivity]. destruct (shared r v) eqn:Hsh; [|reflexivity]. cbn [andb].
      destruct (mem (num v) (sentTo s r)) eqn:Hg; [|rewrite orb_false_r; reflexivity]. exfalso. apply mem_false in Ei. apply Ei. apply in_map_iff.
      exists (i, num v). split; [reflexivity|]. apply filter_In. split; [|exact Hg]. apply ent_in. exists v. rewrite Nat.sub_0_r. split; [lia|auto].
  - unfold stage. apply map_ext. intros v. unfold yielded. rewrite existsb_app. cbn [existsb]. rewrite Eb. cbn [andb orb]. rewrite orb_false_r. reflexivity.
Qed.
Lemma received_fold {T} (Y : T -> nat * list nat -> T) r : (forall t s, Y t (s, []) = t) -> forall l acc t,
  fold_left Y (fold_left (fun acc s => if isEmpty (sentTo s r) then acc else acc ++ [(s, sentTo s r)]) l acc) t =
  fold_left (fun t s => Y t (s, sentTo s r)) l (fold_left Y acc t).
Proof.
  intros HY. induction l as [|s l IH]; intros acc t; [reflexivity|]. cbn [fold_left]. rewrite IH.
  destruct (sentTo s r) as [|x y] eqn:E; cbn [isEmpty]; [rewrite HY; reflexivity|]. rewrite fold_left_app. reflexivity.
Qed.
Lemma owners2_ok r : r < n -> owners2 r = stage r (ks r).
Proof.
  intros Hr. unfold owners2, receivedAt. rewrite received_fold.
  - cbn [fold_left]. assert (G : forall l l', (forall s, In s l -> In s (ks r)) ->
      fold_left (fun t s => yieldTo r (cnt r) (scanned r) (map (fun s => (s, cnt s)) (ks r)) t (s, sentTo s r)) l (stage r l') = stage r (l' ++ l)).
    { induction l as [|s l IH]; intros l' H; cbn [fold_left]; [rewrite app_nil_r; reflexivity|].
      rewrite yield_step by (auto; apply H; left; auto). rewrite IH by (intros x Hx; apply H; right; auto). rewrite <- app_assoc. reflexivity. }
    etransitivity; [|exact (G (ks r) [] (fun s H => H))]. f_equal.
    unfold stage, tagsOf. apply map_ext. intros v. unfold yielded. cbn [existsb]. rewrite andb_false_r. cbn [negb]. rewrite andb_true_r. reflexivity.
  - intros t s. unfold yieldTo. cbn [fst snd]. destruct (sc_global (scanned r)); cbn; destruct (_ || _)%bool; reflexivity.
Qed.
Definition owner2 (r : nat) (v : vertex) : bool := v_tag v && negb (yielded r (ks r) v).
Definition mo2 (r : nat) : mesh := setVerts (m r) (map (fun v => setOwner (owner2 r v) v) (m_verts (m r))).
Lemma set2_ok r : r < n -> setOwnerInformation (owners2 r) (m r) = Some (mo2 r).
Proof.
  intros Hr. rewrite owners2_ok by exact Hr. unfold setOwnerInformation, stage, mo2. fold (owner2 r).
  assert (G : forall vs, setOwners (map (fun v => if owner2 r v then 1%Z else 0%Z) vs) vs = Some (map (fun v => setOwner (owner2 r v) v) vs)).
  { induction vs as [|v vs IH]; [reflexivity|]. cbn [map setOwners]. rewrite IH. destruct (owner2 r v); reflexivity. }
  unfold owner2 in G. rewrite G. reflexivity.
Qed.
Theorem own2_ends : all_end_buffered n (fun r => createOwnerInformation2 r boxes (bx r) (m r)) mo2.
Proof.
  apply ends_buffered_intro. assert (E := own2_run). rewrite (ranks_ext n (fun r => orErr (setOwnerInformation (owners2 r) (m r)) (EAssert 266)) (fun r => PRet (mo2 r))) in E; [exact E|].
  intros r Hr. rewrite set2_ok by exact Hr. reflexivity.
Qed.
Lemma mo2_in r w : In w (m_verts (mo2 r)) <-> exists v, In v (m_verts (m r)) /\ w = setOwner (owner2 r v) v.
Proof. unfold mo2. cbn. rewrite in_map_iff. split; intros (v & A & B); exists v; auto. Qed.
Lemma own2_needs r g : owns mo2 r g -> needs m r g.
Proof.
  intros (w & Hw & <- & Ho). apply mo2_in in Hw. destruct Hw as (v & Hv & ->). cbn in Ho. apply andb_prop in Ho. exists v. intuition.
Qed.
Definition needsb (g : Z) (r : nat) : bool := existsb (fun v => Z.eqb (v_glob v) g && v_tag v) (m_verts (m r)).
Lemma needsb_ok r g : needsb g r = true <-> needs m r g.
Proof.
  unfold needsb, needs. rewrite existsb_exists. split; intros (v & A & B).
  - apply andb_prop in B. destruct B as (B & C). apply Z.eqb_eq in B. exists v. auto.
  - destruct B as (B & C). exists v. split; [exact A|]. rewrite C, B, Z.eqb_refl. reflexivity.
Qed.
Lemma least (P : nat -> bool) : forall k, (exists r, r < k /\ P r = true) -> exists r, r < k /\ P r = true /\ forall s, s < k -> P s = true -> s <> r -> beats s r = false /\ beats r s = true.
Proof.
  induction k as [|k IH]; intros (r0 & Hr0 & E0); [lia|].
  assert (T : forall a b, beats a b = false -> a <> b -> beats b a = true).
  { unfold beats. intros a b H Ne. apply orb_false_iff in H. destruct H as (H1 & H2). apply Z.ltb_ge in H1. apply orb_true_iff.
    destruct (Z.eqb_spec (cnt a) (cnt b)) as [Ec|Ec]; [right|left; apply Z.ltb_lt; lia]. cbn [andb] in H2. apply Nat.ltb_ge in H2.
    rewrite <- Ec, Z.eqb_refl. cbn [andb]. apply Nat.ltb_lt. lia. }
  assert (A : forall a b, beats a b = true -> beats b a = false).
  { unfold beats. intros a b H. apply orb_true_iff in H. apply orb_false_iff. destruct H as [H|H].
    - apply Z.ltb_lt in H. split; [apply Z.ltb_ge; lia|]. destruct (Z.eqb_spec (cnt b) (cnt a)); [lia|reflexivity].
    - apply andb_prop in H. destruct H as (H1 & H2). apply Z.eqb_eq in H1. apply Nat.ltb_lt in H2. split; [apply Z.ltb_ge; lia|].
      rewrite H1, Z.eqb_refl. cbn [andb]. apply Nat.ltb_ge. lia. }
  assert (Tr : forall a b c, beats a b = true -> beats b c = true -> beats a c = true).
  { unfold beats. intros a b c H1 H2. apply orb_true_iff in H1. apply orb_true_iff in H2. apply orb_true_iff. rewrite !andb_true_iff, !Z.ltb_lt, !Z.eqb_eq, !Nat.ltb_lt in *. lia. }
  destruct (existsb P (seq 0 k)) eqn:Ex.
  - apply existsb_exists in Ex. destruct Ex as (r1 & Hr1 & E1). apply in_seq in Hr1.
    destruct IH as (r & Hr & Er & Hb); [exists r1; split; [lia|auto]|].
    destruct (P k && beats k r) eqn:Ek.
    + apply andb_prop in Ek. destruct Ek as (Pk & Bk). exists k. split; [lia|]. split; [exact Pk|]. intros s Hs Ps Ns.
      assert (B : beats k s = true).
      { destruct (Nat.eq_dec s r) as [->|]; [exact Bk|]. apply (Tr k r s); [exact Bk|]. apply Hb; auto. lia. }
      split; [apply A, B|exact B].
    + exists r. split; [lia|]. split; [exact Er|]. intros s Hs Ps Ns. destruct (Nat.eq_dec s k) as [->|].
      * rewrite Ps in Ek. cbn [andb] in Ek. split; [exact Ek|]. apply T; auto.
      * apply Hb; auto. lia.
  - exists k. assert (Hk : forall s, s < k -> P s = true -> False).
    { intros s Hs Ps. assert (existsb P (seq 0 k) = true) by (apply existsb_exists; exists s; split; [apply in_seq; lia|exact Ps]). congruence. }
    assert (r0 = k) by (destruct (Nat.eq_dec r0 k); auto; exfalso; apply (Hk r0); [lia|auto]). subst r0.
    split; [lia|]. split; [exact E0|]. intros s Hs Ps Ns. exfalso. apply (Hk s); [lia|auto].
Qed.
Lemma sent_needs s r v : r < n -> s < n -> (0 <= v_glob v)%Z -> In (num v) (sentTo s r) -> exists w, In w (m_verts (m s)) /\ v_tag w = true /\ v_glob w = v_glob v /\ isin r w = true.
Proof.
  intros Hr Hs Hv H. unfold sentTo, listed in H. apply in_map_iff in H. destruct H as (w & E & H). apply filter_In in H. destruct H as (Hw & H).
  apply andb_prop in H. destruct H as (H1 & H2). exists w. split; [exact Hw|]. split; [exact H1|]. split; [|exact H2].
  specialize (Pos s w Hs Hw). unfold num in E. lia.
Qed.
Theorem own2_some g : (exists r, r < n /\ needs m r g) -> exists r, r < n /\ owns mo2 r g.
Proof.
  intros (r0 & Hr0 & N0). destruct (least (needsb g) n) as (r & Hr & Er & Hb); [exists r0; split; [exact Hr0|apply needsb_ok, N0]|].
  exists r. split; [exact Hr|]. apply needsb_ok in Er. destruct Er as (v & Hv & Eg & Ht). exists (setOwner (owner2 r v) v).
  split; [apply mo2_in; eauto|]. split; [exact Eg|]. cbn. unfold owner2. rewrite Ht. cbn [andb]. apply negb_true_iff.
  unfold yielded. apply andb_false_iff. right. destruct (existsb _ _) eqn:Ex; [|reflexivity]. exfalso. apply existsb_exists in Ex. destruct Ex as (s & Hs & E).
  apply andb_prop in E. destruct E as (E1 & E2). apply mem_in in E2. apply ks_in in Hs. destruct Hs as (Hs & Ne & _).
  destruct (sent_needs s r v Hr Hs (Pos r v Hr Hv) E2) as (w & Hw & Tw & Gw & _).
  assert (needsb g s = true) by (apply needsb_ok; exists w; split; [exact Hw|]; split; congruence). destruct (Hb s Hs H Ne). congruence.
Qed.
Hypotheses (Inside : forall r v, r < n -> In v (m_verts (m r)) -> v_tag v = true -> inside (v_coords v) (bx r))
  (Same : forall r s v w, r < n -> s < n -> In v (m_verts (m r)) -> In w (m_verts (m s)) -> v_glob v = v_glob w -> v_coords v = v_coords w).
Lemma own2_least g r r' : r < n -> r' < n -> r' <> r -> needs m r g -> beats r r' = true -> ~ owns mo2 r' g.
Proof.
  intros Hr Hr' Ne (v & Hv & Eg & Ht) B (u & Hu & Gu & Ho). apply mo2_in in Hu. destruct Hu as (w & Hw & ->). cbn in Gu, Ho.
  unfold owner2 in Ho. apply andb_prop in Ho. destruct Ho as (Tw & Ho). apply negb_true_iff in Ho. unfold yielded in Ho.
  assert (Ec : v_coords v = v_coords w) by (apply (Same r r'); auto; congruence).
  assert (I1 : inside (v_coords w) (bx r)) by (rewrite <- Ec; apply Inside; auto).
  assert (I2 : inside (v_coords w) (bx r')) by (apply Inside; auto).
  assert (O : overlapping (bx r') (bx r) = true) by (apply (overlapping_ok d); eauto using bx_legal).
  assert (K : In r (ks r')) by (apply ks_in; auto).
  assert (S1 : isin r w = true) by (apply isin_ok; auto; apply (Co r'); auto).
  assert (S2 : isin r' v = true) by (apply isin_ok; auto; [apply (Co r); auto|rewrite Ec; exact I2]).
  assert (Y : shared r' w = true) by (unfold shared; apply existsb_exists; exists r; auto). rewrite Y in Ho. cbn [andb] in Ho.
  assert (X : existsb (fun s => beats s r' && mem (num w) (sentTo s r')) (ks r') = true).
  { apply existsb_exists. exists r. split; [exact K|]. rewrite B. cbn [andb]. apply mem_in. unfold sentTo, listed. apply in_map_iff. exists v.
    split; [unfold num; congruence|]. apply filter_In. rewrite Ht, S2. auto. }
  congruence.
Qed.
Lemma count_sorted (P : vertex -> bool) g : forall vs, StronglySorted Z.lt (map v_glob vs) -> length (filter (fun v => Z.eqb (v_glob v) g && P v) vs) <= 1.
Proof.
  induction vs as [|v vs IH]; intros H; cbn [filter]; [cbn; lia|]. cbn [map] in H. inversion H as [|? ? H1 H2]; subst. specialize (IH H1).
  destruct (Z.eqb_spec (v_glob v) g) as [E|]; cbn [andb]; [|exact IH]. destruct (P v); [|exact IH]. cbn [length].
  assert (filter (fun v => Z.eqb (v_glob v) g && P v) vs = []) as ->; [|cbn; lia].
  clear - H2 E. induction vs as [|w vs IH]; [reflexivity|]. cbn [map] in H2. inversion H2 as [|? ? H3 H4]; subst. cbn [filter].
  destruct (Z.eqb_spec (v_glob w) (v_glob v)); [lia|]. cbn [andb]. apply IH, H4.
Qed.
Lemma flat_filter (P : vertex -> bool) (f : nat -> list vertex) k : forall a, length (filter P (flat_map f (seq a k))) = list_sum (map (fun r => length (filter P (f r))) (seq a k)).
Proof. induction k as [|k IH]; intros a; [reflexivity|]. cbn [seq flat_map map list_sum fold_right]. rewrite filter_app, app_length, IH. reflexivity. Qed.
Lemma sum_one (f : nat -> nat) r : forall k a, a <= r < a + k -> f r = 1 -> (forall s, a <= s < a + k -> s <> r -> f s = 0) -> list_sum (map f (seq a k)) = 1.
Proof.
  assert (Z : forall k a, (forall s, a <= s < a + k -> f s = 0) -> list_sum (map f (seq a k)) = 0).
  { induction k as [|k IH]; intros a H; [reflexivity|]. change (f a + list_sum (map f (seq (S a) k)) = 0). rewrite (H a) by lia. apply IH. intros; apply H; lia. }
  induction k as [|k IH]; intros a Ha Hr H; [lia|]. change (f a + list_sum (map f (seq (S a) k)) = 1).
  destruct (Nat.eq_dec a r) as [->|Ne].
  - rewrite Hr, Z; [reflexivity|]. intros s Hs. apply H; lia.
  - rewrite (H a) by lia. apply IH; auto; [lia|]. intros s Hs. apply H. lia.
Qed.
Theorem own2_one g : (exists r, r < n /\ needs m r g) -> one_owner n mo2 g.
Proof.
  intros E. destruct (own2_some g E) as (r & Hr & O).
  assert (Only : forall s, s < n -> s <> r -> ~ owns mo2 s g).
  { intros s Hs Ne Os. destruct (least (needsb g) n) as (k & Hk & Ek & Hb).
    { destruct E as (r0 & Hr0 & N0). exists r0. split; [exact Hr0|apply needsb_ok, N0]. }
    apply needsb_ok in Ek. destruct (Nat.eq_dec s k) as [->|Nk].
    - apply (own2_least g k r); auto. apply Hb; auto. apply needsb_ok, own2_needs, O.
    - apply (own2_least g k s); auto. apply Hb; auto. apply needsb_ok, own2_needs, Os. }
  assert (L : length (filter (fun v => Z.eqb (v_glob v) g && v_owner v) (everywhere n (fun r => m_verts (mo2 r)))) = 1).
  { unfold everywhere. rewrite flat_filter. apply (sum_one _ r); [lia| |].
    - assert (U : length (filter (fun v => Z.eqb (v_glob v) g && v_owner v) (m_verts (mo2 r))) <= 1).
      { apply count_sorted. unfold mo2. cbn. rewrite map_map. cbn. apply Srt, Hr. }
      destruct O as (v & Hv & Eg & Ho). assert (In v (filter (fun v => Z.eqb (v_glob v) g && v_owner v) (m_verts (mo2 r)))) by (apply filter_In; rewrite Eg, Z.eqb_refl, Ho; auto).
      destruct (filter _ _); [contradiction|]. cbn [length] in *. lia.
    - intros s Hs Ne. destruct (filter _ _) as [|v l] eqn:Ef; [reflexivity|]. exfalso. apply (Only s); [lia|exact Ne|].
      assert (H : In v (v :: l)) by (left; auto). rewrite <- Ef in H. apply filter_In in H. destruct H as (H & H').
      apply andb_prop in H'. destruct H' as (H1 & H2). apply Z.eqb_eq in H1. exists v. auto. }
  unfold one_owner. destruct (filter _ _) as [|v [|]]; cbn in L; try lia. exists v. reflexivity.
Qed.
End Two.
