(** C34, C35: data between the ranks of two participants. *)
From Coq Require Import ZArith QArith List Arith Lia Bool Sorted.
From Verif Require Import M_Net M_Comm M_M2N S_Term S_Intra S_M2N P_Net P_Term P_M2N P_P2P P_P2PRun.
Import ListNotations.
Open Scope nat_scope.

(** C34.  Processes 0 .. n-1 are the ranks of the sender, n .. n+m-1 those of the
    receiver. *)
Theorem C34_gather_scatter_delivers_sums :
  forall n m N dim vdS vdR items bufs, 0 < n -> 0 < m -> 0 < dim ->
  distributes vdS n N -> distributes vdR m N -> sized vdS n dim items -> sized vdR m dim bufs ->
  exists res,
    two_end n m (fun s => gsSend 0 n n s N vdS (items s) dim) (fun r => gsReceive n m 0 r N vdR (bufs r) dim) res /\
    forall r, r < m -> receives_sums n vdS vdR items dim r (res r).
Proof.
  intros n m N dim vdS vdR items bufs Hn Hm Hd DS DR LS LR.
  exists (scattered dim vdR bufs (gathered N dim vdS items n)). split; [|intros r Hr; apply (gs_sums n m N); auto].
  unfold two_end.
  destruct (gs_runs n m N dim vdS vdR items bufs Hn Hm Hd DS DR LS LR (n + m) 0 n
    (fun k => if k <? n then quiet (gsSend 0 n n k N vdS (items k) dim) else report (gsReceive n m 0 (k - n) N vdR (bufs (k - n)) dim))
    None Some) as (Q & R & Q1 & Q2); try lia.
  - intros r Hr. cbn [Nat.add]. destruct (Nat.ltb_spec r n); [reflexivity|lia].
  - intros r Hr. destruct (Nat.ltb_spec (n + r) n); [lia|]. replace (n + r - n) with r by lia. reflexivity.
  - apply all_end_intro. eapply runs_ext; [reflexivity| |exact R]. intros i Hi. cbn beta.
    destruct (Nat.ltb_spec i n) as [L|L]; [apply (Q1 i L)|].
    replace i with (n + (i - n)) at 1 by lia. apply Q2. lia.
Qed.
Print Assumptions C34_gather_scatter_delivers_sums.

(** * Point-to-point *)
Theorem C35_matching_layouts :
  forall n m N vdA vdB, distributes vdA n N -> distributes vdB m N -> increasing vdA -> increasing vdB ->
  exists msA msB,
    (forall s, s < n -> buildCommunicationMap vdA vdB s = Some (msA s)) /\
    (forall r, r < m -> buildCommunicationMap vdB vdA r = Some (msB r)) /\
    forall s r, s < n -> r < m ->
      (In r (map fst (msA s)) <-> meet vdA s vdB r) /\ (In s (map fst (msB r)) <-> meet vdA s vdB r) /\
      forall i j, In (r, i) (msA s) -> In (s, j) (msB r) ->
        map (fun k => nth k (verts vdA s) 0) i = map (fun k => nth k (verts vdB r) 0) j /\
        forall v, In v (map (fun k => nth k (verts vdA s) 0) i) <-> In v (verts vdA s) /\ In v (verts vdB r).
Proof.
  intros n m N vdA vdB DA DB IA IB. exists (cmap vdA vdB m), (cmap vdB vdA n).
  split; [intros s _; apply (build_ok _ _ _ N); auto|]. split; [intros r _; apply (build_ok _ _ _ N); auto|].
  intros s r Hs Hr.
  assert (K : forall vd vd' k a b, b < k -> (In b (map fst (cmap vd vd' k a)) <-> meet vd a vd' b)).
  { intros vd vd' k a b Hb. unfold cmap. rewrite map_map. cbn [fst]. rewrite map_id, filter_In, in_seq, shareb_meet. intuition lia. }
  split; [apply K, Hr|]. split; [rewrite (K vdB vdA n r s Hs); apply meet_sym|].
  intros i j Hi Hj. apply in_map_iff in Hi as (x & E & _). injection E as -> <-.
  apply in_map_iff in Hj as (y & E & _). injection E as -> <-.
  split; [apply posIn_match; auto|]. intros v.
  pose proof (posIn_verts (verts vdB r) (verts vdA s) 0) as E.
  assert (E' : map (fun k => nth k (verts vdA s) 0) (posIn 0 (verts vdA s) (verts vdB r)) = filter (fun x => mem x (verts vdB r)) (verts vdA s)).
  { rewrite <- E. apply map_ext. intros k. rewrite Nat.sub_0_r. reflexivity. }
  rewrite E', filter_In, mem_in. reflexivity.
Qed.
Print Assumptions C35_matching_layouts.

(** the programs of both sides: connect, then send or receive once.  The vertex
    distributions are known to the primary ranks; [local] is what the secondary
    ranks hold before. *)
Section Programs.
Variables (n m dim : nat) (vdA vdB : distribution) (localA localB : nat -> distribution).
Definition acceptSend (items : nat -> list Q) (s : nat) : proc packet unit :=
  bind (p2pConnect true 0 n n s (if s =? 0 then vdA else localA s)) (fun ms => p2pSend n ms (items s) dim).
Definition acceptReceive (bufs : nat -> list Q) (s : nat) : proc packet (list Q) :=
  bind (p2pConnect true 0 n n s (if s =? 0 then vdA else localA s)) (fun ms => p2pReceive n ms (bufs s) dim).
Definition requestSend (items : nat -> list Q) (r : nat) : proc packet unit :=
  bind (p2pConnect false n m 0 r (if r =? 0 then vdB else localB r)) (fun ms => p2pSend 0 ms (items r) dim).
Definition requestReceive (bufs : nat -> list Q) (r : nat) : proc packet (list Q) :=
  bind (p2pConnect false n m 0 r (if r =? 0 then vdB else localB r)) (fun ms => p2pReceive 0 ms (bufs r) dim).
End Programs.

(** the acceptor sends *)
Theorem C35_point_to_point_delivers_sums :
  forall n m N dim vdA vdB localA localB items bufs, 0 < n -> 0 < m -> 0 < dim ->
  distributes vdA n N -> distributes vdB m N -> increasing vdA -> increasing vdB ->
  sized vdA n dim items -> sized vdB m dim bufs ->
  exists res,
    two_end n m (acceptSend n dim vdA localA items) (requestReceive n m dim vdB localB bufs) res /\
    forall r, r < m ->
      ((exists s, s < n /\ meet vdA s vdB r) -> receives_sums n vdA vdB items dim r (res r)) /\
      ((forall s, s < n -> ~ meet vdA s vdB r) -> res r = bufs r).
Proof.
  intros n m N dim vdA vdB lA lB items bufs Hn Hm Hd DA DB IA IB LA LB.
  exists (p2pResult n m dim vdA vdB items bufs). split.
  - apply all_end_intro.
    destruct (connect_runs (n + m) 0 n n m vdA vdB lA lB (cmap vdA vdB m) (cmap vdB vdA n) Hn Hm) with
      (P := fun k => if k <? n then quiet (B := list Q) (acceptSend n dim vdA lA items k) else report (requestReceive n m dim vdB lB bufs (k - n)))
      (R := fun s ms X => leads (p2pSend n ms (items s) dim) X (fun _ Y => Y = PRet (@None (list Q))))
      (R' := fun r ms X => leads (p2pReceive 0 ms (bufs r) dim) X (fun x Y => Y = PRet (Some x)))
      as (Q & U1 & U2 & U3); try lia.
    + apply DA. + apply DB.
    + intros s _. apply (build_ok _ _ _ N); auto.
    + intros r _. apply (build_ok _ _ _ N); auto.
    + intros s Hs. cbn [Nat.add]. destruct (Nat.ltb_spec s n); [|lia]. apply leads_bind. apply leads_intro.
    + intros r Hr. destruct (Nat.ltb_spec (n + r) n); [lia|]. replace (n + r - n) with r by lia. apply leads_bind. apply leads_intro.
    + destruct (exchange_runs n m dim vdA vdB items Hd IA IB LA bufs LB (n + m) 0 n (fun _ Y => Y = PRet None) (fun r x Y => Y = PRet (Some x)) Q)
        as (Q' & V1 & V2 & V3); try lia.
      * intros s Hs. apply U2, Hs.
      * intros r Hr. apply U3, Hr.
      * eapply runs_trans; [exact U1|]. eapply runs_ext; [reflexivity| |exact V1]. intros i Hi. cbn beta.
        destruct (Nat.ltb_spec i n) as [L|L]; [apply (V2 i L)|].
        replace i with (n + (i - n)) at 1 by lia. apply V3. lia.
  - intros r Hr. split; [intros H; apply p2p_sums; auto|intros H; apply p2p_untouched; auto].
Qed.
Print Assumptions C35_point_to_point_delivers_sums.

(** the requester sends *)
Theorem C35_point_to_point_delivers_sums_back :
  forall n m N dim vdA vdB localA localB items bufs, 0 < n -> 0 < m -> 0 < dim ->
  distributes vdA n N -> distributes vdB m N -> increasing vdA -> increasing vdB ->
  sized vdB m dim items -> sized vdA n dim bufs ->
  exists res,
    two_end' n m (acceptReceive n dim vdA localA bufs) (requestSend n m dim vdB localB items) res /\
    forall r, r < n ->
      ((exists s, s < m /\ meet vdB s vdA r) -> receives_sums m vdB vdA items dim r (res r)) /\
      ((forall s, s < m -> ~ meet vdB s vdA r) -> res r = bufs r).
Proof.
  intros n m N dim vdA vdB lA lB items bufs Hn Hm Hd DA DB IA IB LB LA.
  exists (p2pResult m n dim vdB vdA items bufs). split.
  - apply all_end_intro.
    destruct (connect_runs (n + m) 0 n n m vdA vdB lA lB (cmap vdA vdB m) (cmap vdB vdA n) Hn Hm) with
      (P := fun k => if k <? n then report (acceptReceive n dim vdA lA bufs k) else quiet (B := list Q) (requestSend n m dim vdB lB items (k - n)))
      (R := fun s ms X => leads (p2pReceive n ms (bufs s) dim) X (fun x Y => Y = PRet (Some x)))
      (R' := fun r ms X => leads (p2pSend 0 ms (items r) dim) X (fun _ Y => Y = PRet (@None (list Q))))
      as (Q & U1 & U2 & U3); try lia.
    + apply DA. + apply DB.
    + intros s _. apply (build_ok _ _ _ N); auto.
    + intros r _. apply (build_ok _ _ _ N); auto.
    + intros s Hs. cbn [Nat.add]. destruct (Nat.ltb_spec s n); [|lia]. apply leads_bind. apply leads_intro.
    + intros r Hr. destruct (Nat.ltb_spec (n + r) n); [lia|]. replace (n + r - n) with r by lia. apply leads_bind. apply leads_intro.
    + destruct (exchange_runs m n dim vdB vdA items Hd IB IA LB bufs LA (n + m) n 0 (fun _ Y => Y = PRet None) (fun r x Y => Y = PRet (Some x)) Q)
        as (Q' & V1 & V2 & V3); try lia.
      * intros s Hs. apply U3, Hs.
      * intros r Hr. apply U2, Hr.
      * eapply runs_trans; [exact U1|]. eapply runs_ext; [reflexivity| |exact V1]. intros i Hi. cbn beta.
        destruct (Nat.ltb_spec i n) as [L|L]; [apply (V3 i L)|].
        replace i with (n + (i - n)) at 1 by lia. apply V2. lia.
  - intros r Hr. split; [intros H; apply p2p_sums; auto|intros H; apply p2p_untouched; auto].
Qed.
Print Assumptions C35_point_to_point_delivers_sums_back.

(** both schemes give the same values, if every receiving rank that has vertices
    has one that is sent *)
Theorem C35_same_as_gather_scatter :
  forall n m N dim vdA vdB localA localB items bufs, 0 < n -> 0 < m -> 0 < dim ->
  distributes vdA n N -> distributes vdB m N -> increasing vdA -> increasing vdB ->
  sized vdA n dim items -> sized vdB m dim bufs ->
  (forall r, r < m -> verts vdB r <> [] -> exists s, s < n /\ meet vdA s vdB r) ->
  exists res res',
    two_end n m (fun s => gsSend 0 n n s N vdA (items s) dim) (fun r => gsReceive n m 0 r N vdB (bufs r) dim) res /\
    two_end n m (acceptSend n dim vdA localA items) (requestReceive n m dim vdB localB bufs) res' /\
    forall r, r < m -> length (res r) = length (res' r) /\ forall i, (nth i (res r) 0 == nth i (res' r) 0)%Q.
Proof.
  intros n m N dim vdA vdB lA lB items bufs Hn Hm Hd DA DB IA IB LA LB Cov.
  destruct (C34_gather_scatter_delivers_sums n m N dim vdA vdB items bufs Hn Hm Hd DA DB LA LB) as (res & R1 & R2).
  destruct (C35_point_to_point_delivers_sums n m N dim vdA vdB lA lB items bufs Hn Hm Hd DA DB IA IB LA LB) as (res' & R1' & R2').
  exists res, res'. split; auto. split; auto. intros r Hr. destruct (R2 r Hr) as (L & V).
  assert (X : receives_sums n vdA vdB items dim r (res' r)).
  { destruct (R2' r Hr) as (Y & Z). destruct (verts vdB r) as [|v l] eqn:E.
    - assert (res' r = bufs r) as ->.
      { apply Z. intros s _ (v & _ & H). rewrite E in H. destruct H. }
      split; [rewrite (LB r Hr); reflexivity|]. rewrite E. cbn. intros i d Hi. lia.
    - apply Y. apply Cov; auto. rewrite E. discriminate. }
  destruct X as (L' & V'). split; [congruence|]. intros i.
  destruct (lt_dec i (dim * length (verts vdB r))) as [Hi|Hi].
  - rewrite (Nat.div_mod i dim) by lia.
    assert (i / dim < length (verts vdB r)) by (apply Nat.div_lt_upper_bound; lia).
    assert (i mod dim < dim) by (apply Nat.mod_upper_bound; lia). rewrite V, V' by auto. reflexivity.
  - rewrite !nth_overflow by lia. reflexivity.
Qed.
Print Assumptions C35_same_as_gather_scatter.

(** Without that condition the schemes differ: a rank none of whose vertices is
    sent keeps the content of its buffer with point-to-point communication, and
    gets zeros with gather-scatter communication. *)
Theorem C35_same_as_gather_scatter_refuted :
  exists n m N dim vdA vdB items bufs res res',
    0 < n /\ 0 < m /\ 0 < dim /\ distributes vdA n N /\ distributes vdB m N /\ increasing vdA /\ increasing vdB /\
    sized vdA n dim items /\ sized vdB m dim bufs /\
    two_end n m (fun s => gsSend 0 n n s N vdA (items s) dim) (fun r => gsReceive n m 0 r N vdB (bufs r) dim) res /\
    two_end n m (acceptSend n dim vdA (fun _ => []) items) (requestReceive n m dim vdB (fun _ => []) bufs) res' /\
    exists r i, r < m /\ ~ (nth i (res r) 0 == nth i (res' r) 0)%Q.
Proof.
  set (vdA := [(0, [0])]). set (vdB := [(0, [0]); (1, [1])]).
  set (items := fun r : nat => if r =? 0 then [5%Q] else []). set (bufs := fun r : nat => if r <? 2 then [7%Q] else []).
  assert (SS : forall x : nat, StronglySorted lt [x]) by (intros x; repeat constructor).
  assert (vA : forall r, verts vdA r = if 0 =? r then [0] else []).
  { intros r. unfold vdA. rewrite verts_cons. destruct (0 =? r); reflexivity. }
  assert (vB : forall r, verts vdB r = if 0 =? r then [0] else if 1 =? r then [1] else []).
  { intros r. unfold vdB. rewrite !verts_cons. destruct (0 =? r); [reflexivity|]. destruct (1 =? r); reflexivity. }
  assert (DA : distributes vdA 1 2).
  { split; [apply SS|intros r [<-|[]]; cbn; lia|left; auto|]. intros r v. rewrite vA. destruct (0 =? r); [intros [<-|[]]; lia|intros []]. }
  assert (DB : distributes vdB 2 2).
  { split; [repeat constructor|intros r [<-|[<-|[]]]; cbn; lia|left; auto|].
    intros r v. rewrite vB. destruct (0 =? r); [intros [<-|[]]; lia|]. destruct (1 =? r); [intros [<-|[]]; lia|intros []]. }
  assert (IA : increasing vdA) by (intros r; rewrite vA; destruct (0 =? r); [apply SS|constructor]).
  assert (IB : increasing vdB) by (intros r; rewrite vB; destruct (0 =? r); [apply SS|]; destruct (1 =? r); [apply SS|constructor]).
  assert (LA : sized vdA 1 1 items) by (intros r Hr; assert (r = 0) as -> by lia; reflexivity).
  assert (LB : sized vdB 2 1 bufs).
  { intros r Hr. assert (r = 0 \/ r = 1) as [-> | ->] by lia; reflexivity. }
  destruct (C34_gather_scatter_delivers_sums 1 2 2 1 vdA vdB items bufs) as (res & R1 & R2); auto.
  destruct (C35_point_to_point_delivers_sums 1 2 2 1 vdA vdB (fun _ => []) (fun _ => []) items bufs) as (res' & R1' & R2'); auto.
  exists 1, 2, 2, 1, vdA, vdB, items, bufs, res, res'.
  do 3 (split; [lia|]). do 2 (split; [assumption|]). do 2 (split; [assumption|]). do 2 (split; [assumption|]).
  split; [exact R1|]. split; [exact R1'|].
  exists 1, 0. split; [lia|]. destruct (R2' 1) as (_ & H); [lia|]. rewrite H.
  - destruct (R2 1) as (_ & V); [lia|]. specialize (V 0 0). cbn [Nat.mul Nat.add] in V. rewrite V; [|cbn; lia|lia].
    vm_compute. discriminate.
  - intros s Hs. assert (s = 0) as -> by lia. intros (v & H1 & H2). cbn in H1, H2. lia.
Qed.
Print Assumptions C35_same_as_gather_scatter_refuted.

(** a non-trivial case: two sending ranks share vertex 1, three receiving ranks,
    one of them without vertices *)
Definition exA : distribution := [(0, [0; 1]); (1, [1; 3])].
Definition exB : distribution := [(0, [1; 2]); (2, [0; 1; 3])].
Definition exItems (s : nat) : list Q := if s =? 0 then [1; 2; 3; 4]%Q else if s =? 1 then [10; 20; 30; 40]%Q else [].
Definition exBufs (r : nat) : list Q := if r =? 0 then [9; 9; 9; 9]%Q else if r =? 2 then [9; 9; 9; 9; 9; 9]%Q else [].
Lemma ex_sorted : increasing exA /\ increasing exB.
Proof.
  assert (S2 : forall x y, x < y -> StronglySorted lt [x; y]) by (intros x y H; repeat constructor; exact H).
  split; intros r; unfold exA, exB; rewrite !verts_cons.
  - destruct (0 =? r); [apply S2; lia|]. destruct (1 =? r); [apply S2; lia|constructor].
  - destruct (0 =? r); [apply S2; lia|]. destruct (2 =? r); [|constructor]. repeat constructor; lia.
Qed.
Lemma ex_dist : distributes exA 2 4 /\ distributes exB 3 4.
Proof.
  split; split.
  - repeat constructor.
  - intros r [<-|[<-|[]]]; cbn; lia.
  - left; auto.
  - intros r v. unfold exA. rewrite !verts_cons. destruct (0 =? r); [intros [<-|[<-|[]]]; lia|].
    destruct (1 =? r); [intros [<-|[<-|[]]]; lia|intros []].
  - repeat constructor.
  - intros r [<-|[<-|[]]]; cbn; lia.
  - left; auto.
  - intros r v. unfold exB. rewrite !verts_cons. destruct (0 =? r); [intros [<-|[<-|[]]]; lia|].
    destruct (2 =? r); [intros [<-|[<-|[<-|[]]]]; lia|intros []].
Qed.
Lemma ex_sized : sized exA 2 2 exItems /\ sized exB 3 2 exBufs.
Proof.
  split; intros r Hr.
  - assert (r = 0 \/ r = 1) as [-> | ->] by lia; reflexivity.
  - assert (r = 0 \/ r = 1 \/ r = 2) as [-> | [-> | ->]] by lia; reflexivity.
Qed.
Example point_to_point_case :
  buildCommunicationMap exA exB 1 = Some [(0, [0]); (2, [0; 1])] /\ buildCommunicationMap exB exA 2 = Some [(0, [0; 1]); (1, [1; 2])] /\
  exists res, two_end 2 3 (acceptSend 2 2 exA (fun _ => []) exItems) (requestReceive 2 3 2 exB (fun _ => []) exBufs) res /\
    (nth 0%nat (res 0%nat) 0 == 13)%Q /\ (nth 1%nat (res 0%nat) 0 == 24)%Q /\ (nth 2%nat (res 0%nat) 0 == 0)%Q /\ (nth 5%nat (res 2%nat) 0 == 40)%Q /\ res 1 = [].
Proof.
  split; [reflexivity|]. split; [reflexivity|].
  destruct (C35_point_to_point_delivers_sums 2 3 4 2 exA exB (fun _ => []) (fun _ => []) exItems exBufs) as (res & R & V);
    [lia|lia|lia|apply ex_dist|apply ex_dist|apply ex_sorted|apply ex_sorted|apply ex_sized|apply ex_sized|].
  exists res. split; [exact R|].
  destruct (V 0) as (V0 & _); [lia|]. destruct V0 as (_ & V0). { exists 0. split; [lia|]. exists 1. cbn. auto. }
  destruct (V 2) as (V2 & _); [lia|]. destruct V2 as (_ & V2). { exists 0. split; [lia|]. exists 1. cbn. auto. }
  destruct (V 1) as (_ & V1); [lia|].
  split; [rewrite (V0 0 0) by (cbn; lia); reflexivity|]. split; [rewrite (V0 0 1) by (cbn; lia); reflexivity|].
  split; [rewrite (V0 1 0) by (cbn; lia); reflexivity|]. split; [rewrite (V2 2 1) by (cbn; lia); reflexivity|].
  apply V1. intros s _ (v & _ & H). destruct H.
Qed.
Example gather_scatter_case :
  exists res, two_end 2 3 (fun s => gsSend 0 2 2 s 4 exA (exItems s) 2) (fun r => gsReceive 2 3 0 r 4 exB (exBufs r) 2) res /\
    (nth 0%nat (res 0%nat) 0 == 13)%Q /\ (nth 5%nat (res 2%nat) 0 == 40)%Q.
Proof.
  destruct (C34_gather_scatter_delivers_sums 2 3 4 2 exA exB exItems exBufs) as (res & R & V);
    [lia|lia|lia|apply ex_dist|apply ex_dist|apply ex_sized|apply ex_sized|].
  exists res. split; [exact R|]. destruct (V 0) as (_ & V0); [lia|]. destruct (V 2) as (_ & V2); [lia|].
  split; [rewrite (V0 0 0) by (cbn; lia); reflexivity|rewrite (V2 2 1) by (cbn; lia); reflexivity].
Qed.
