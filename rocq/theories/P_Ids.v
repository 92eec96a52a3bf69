(** Proofs about [M_Ids]. *)
From Coq Require Import Bool String List Arith ZArith Lia FinFun.
From Verif Require Import M_Ids S_Ids.
Import ListNotations.

Lemma bind_ok {A B} (x : res A) (f : A -> res B) v : bindR x f = Ok v <-> exists a, x = Ok a /\ f a = Ok v.
Proof. destruct x; cbn; split; try discriminate; try (intros (? & ? & ?); congruence). intros H. eauto. Qed.
Lemma find_spec z l : find z l = true <-> In z l.
Proof. unfold find. rewrite existsb_exists. split; [intros (x & H & E); apply Z.eqb_eq in E; subst; exact H|intros H; exists z; split; [exact H|apply Z.eqb_refl]]. Qed.
Lemma find_no z l : find z l = false <-> ~ In z l.
Proof. rewrite <- find_spec. destruct (find z l); split; congruence. Qed.
Lemma insert_in z l y : In y (insert z l) <-> y = z \/ In y l.
Proof.
  induction l as [|x l IH]; cbn; [intuition congruence|]. destruct (Z.ltb_spec z x); [cbn; intuition congruence|]. destruct (Z.eqb_spec z x); [cbn; subst; intuition congruence|]. cbn. rewrite IH. intuition congruence.
Qed.
Lemma insert_length z l : length (insert z l) <= S (length l).
Proof. induction l as [|x l IH]; cbn; [lia|]. destruct (z <? x)%Z; [cbn; lia|]. destruct (z =? x)%Z; cbn; lia. Qed.

(** all numbers below the limit are taken *)
Definition inv (m : manager) : Prop := (0 <= lowerLimit m)%Z /\ forall z, (0 <= z < lowerLimit m)%Z -> In z (ids m).
Lemma fresh_inv : inv fresh.
Proof. split; cbn; lia. Qed.
Lemma inv_length m : inv m -> (lowerLimit m <= Z.of_nat (length (ids m)))%Z.
Proof.
  intros (P & A). assert (I : incl (first_numbers (Z.to_nat (lowerLimit m))) (ids m)).
  { intros z Hz. apply in_map_iff in Hz. destruct Hz as (k & <- & Hk). apply in_seq in Hk. apply A. lia. }
  apply NoDup_incl_length in I; [unfold first_numbers in I; rewrite map_length, seq_length in I; lia|]. unfold first_numbers. apply FinFun.Injective_map_NoDup; [intros a b; lia|apply seq_NoDup].
Qed.
Lemma search_spec l : forall fuel limit r, search fuel l limit = Some (Ok r) -> (limit < r)%Z /\ ~ In (r - 1)%Z l /\ forall z, (limit <= z < r - 1)%Z -> In z l.
Proof.
  induction fuel as [|f IH]; intros limit r; cbn [search]; [discriminate|]. unfold increment. destruct (limit <? _)%Z; [|discriminate]. destruct (find limit l) eqn:F.
  - intros H. apply IH in H. destruct H as (H1 & H2 & H3). split; [lia|]. split; [exact H2|]. intros z Hz. destruct (Z.eq_dec z limit) as [->|]; [apply find_spec, F|apply H3; lia].
  - intros H. injection H as <-. replace (limit + 1 - 1)%Z with limit by lia. split; [lia|]. split; [apply find_no, F|intros; lia].
Qed.
(** getFreeID gives the smallest number that is not taken *)
Lemma free_spec m m' z : inv m -> getFreeID m = Ok (m', z) ->
  inv m' /\ ~ In z (ids m) /\ (0 <= z)%Z /\ (forall y, (0 <= y < z)%Z -> In y (ids m)) /\ (forall y, In y (ids m') <-> y = z \/ In y (ids m)) /\ length (ids m') <= S (length (ids m)).
Proof.
  intros (P & A). unfold getFreeID. destruct (search _ _ _) as [r|] eqn:S; [|discriminate]. rewrite bind_ok. intros (limit & -> & H). injection H as <- <-.
  apply search_spec in S. destruct S as (S1 & S2 & S3). cbn [ids lowerLimit].
  assert (B : forall y, (0 <= y < limit - 1)%Z -> In y (ids m)) by (intros y Hy; destruct (Z_lt_le_dec y (lowerLimit m)); [apply A; lia|apply S3; lia]).
  split; [|split; [exact S2|split; [lia|split; [exact B|split; [intros y; apply insert_in|apply insert_length]]]]].
  split; cbn [ids lowerLimit]; [lia|]. intros y Hy. apply insert_in. destruct (Z.eq_dec y (limit - 1)); [left; assumption|right; apply B; lia].
Qed.
(** the loop ends, and the number is an int *)
Lemma search_total l : forall fuel limit, NoDup (filter (fun z => (limit <=? z)%Z) (nodup Z.eq_dec l)) -> length (filter (fun z => (limit <=? z)%Z) (nodup Z.eq_dec l)) < fuel -> (limit + Z.of_nat fuel <= 2 ^ 31 - 1)%Z ->
  exists r, search fuel l limit = Some (Ok r).
Proof.
  induction fuel as [|f IH]; intros limit N L B; [lia|]. cbn [search]. unfold increment. destruct (Z.ltb_spec limit (2 ^ 31 - 1)); [|lia]. destruct (find limit l) eqn:F; [|eauto].
  apply find_spec in F. apply IH; [apply NoDup_filter, NoDup_nodup| |lia].
  assert (I : incl (limit :: filter (fun z => (limit + 1 <=? z)%Z) (nodup Z.eq_dec l)) (filter (fun z => (limit <=? z)%Z) (nodup Z.eq_dec l))).
  { intros z [<-|Hz]; apply filter_In; [split; [apply nodup_In, F|apply Z.leb_refl]|]. apply filter_In in Hz. destruct Hz as (Hz & Lz). apply Z.leb_le in Lz. split; [exact Hz|apply Z.leb_le; lia]. }
  apply NoDup_incl_length in I; [cbn [length] in I; lia|]. constructor; [|apply NoDup_filter, NoDup_nodup]. intros C. apply filter_In in C. destruct C as (_ & C). apply Z.leb_le in C. lia.
Qed.
Lemma search_more l : forall f1 f2 limit r, f1 <= f2 -> search f1 l limit = Some r -> search f2 l limit = Some r.
Proof.
  induction f1 as [|f1 IH]; intros f2 limit r L; [discriminate|]. destruct f2 as [|f2]; [lia|]. cbn [search]. destruct (increment limit); auto. destruct (find limit l); auto. apply IH. lia.
Qed.
Lemma free_total m : inv m -> (2 * Z.of_nat (length (ids m)) + 1 <= 2 ^ 31 - 1)%Z -> exists p, getFreeID m = Ok p.
Proof.
  intros I B. pose proof (inv_length m I) as L. unfold getFreeID. destruct (search_total (ids m) (S (length (ids m))) (lowerLimit m)) as (r & ->); [apply NoDup_filter, NoDup_nodup| |lia|cbn; eauto].
  assert (F : forall (f : Z -> bool) l, length (filter f l) <= length l) by (intros f l; induction l as [|x l IHl]; cbn; [lia|]; destruct (f x); cbn; lia).
  assert (D : length (nodup Z.eq_dec (ids m)) <= length (ids m)) by (apply NoDup_incl_length; [apply NoDup_nodup|]; intros z Hz; apply nodup_In in Hz; exact Hz).
  specialize (F (fun z => (lowerLimit m <=? z)%Z) (nodup Z.eq_dec (ids m))). lia.
Qed.

(** what is in use after one more answer *)
Lemma use_snoc l a z : in_use (l ++ [a]) (S (length l)) z <-> match a with Done => False | Number y => z = y \/ in_use l (length l) z | Inserted y true => z = y \/ in_use l (length l) z | Inserted y false => in_use l (length l) z end.
Proof.
  assert (L : nth_error (l ++ [a]) (length l) = Some a) by (rewrite nth_error_app2, Nat.sub_diag by lia; reflexivity).
  assert (P : forall i, i < length l -> nth_error (l ++ [a]) i = nth_error l i) by (intros i Hi; apply nth_error_app1; exact Hi).
  assert (Old : a <> Done -> in_use l (length l) z -> in_use (l ++ [a]) (S (length l)) z).
  { intros Na (i & Hi & H & K). exists i. split; [lia|]. rewrite P by exact Hi. split; [exact H|]. intros k Hk. destruct (Nat.eq_dec k (length l)) as [->|]; [rewrite L; congruence|rewrite P by lia; apply K; lia]. }
  assert (New : a = Number z \/ a = Inserted z true -> in_use (l ++ [a]) (S (length l)) z).
  { intros H. exists (length l). split; [lia|]. rewrite L. split; [destruct H as [->| ->]; auto|intros k Hk; lia]. }
  assert (Inv : in_use (l ++ [a]) (S (length l)) z -> (a = Number z \/ a = Inserted z true) \/ (a <> Done /\ in_use l (length l) z)).
  { intros (i & Hi & H & K). destruct (Nat.eq_dec i (length l)) as [->|N].
    - rewrite L in H. left. destruct H as [H|H]; injection H as ->; auto.
    - right. rewrite P in H by lia. split; [intros ->; apply (K (length l)); [lia|exact L]|]. exists i. split; [lia|]. split; [exact H|]. intros k Hk. rewrite <- P by lia. apply K. lia. }
  destruct a as [y|y []|].
  - split; [intros H; apply Inv in H; destruct H as [[H|H]|[_ H]]; [left; congruence|discriminate H|right; exact H]|intros [->|H]; [apply New; auto|apply Old; [discriminate|exact H]]].
  - split; [intros H; apply Inv in H; destruct H as [[H|H]|[_ H]]; [discriminate H|left; congruence|right; exact H]|intros [->|H]; [apply New; auto|apply Old; [discriminate|exact H]]].
  - split; [intros H; apply Inv in H; destruct H as [[H|H]|[_ H]]; [discriminate H|discriminate H|exact H]|intros H; apply Old; [discriminate|exact H]].
  - split; [|contradiction]. intros H. apply Inv in H. destruct H as [[H|H]|[H _]]; [discriminate H|discriminate H|congruence].
Qed.
Lemma use_app l r j z : j <= length l -> (in_use (l ++ r) j z <-> in_use l j z).
Proof.
  intros L. assert (P : forall i, i < length l -> nth_error (l ++ r) i = nth_error l i) by (intros i Hi; apply nth_error_app1; exact Hi).
  split; intros (i & Hi & H & K); exists i; (split; [exact Hi|]); [rewrite P in H by lia|rewrite P by lia]; (split; [exact H|]); intros k Hk; [rewrite <- P by lia|rewrite P by lia]; apply K, Hk.
Qed.

Definition good (l : list answer) (j : nat) (a : answer) : Prop :=
  match a with
  | Number z => (0 <= z)%Z /\ ~ in_use l j z /\ forall y, (0 <= y < z)%Z -> in_use l j y
  | Inserted z b => b = false <-> in_use l j z
  | Done => True
  end.
Lemma history_spec os : forall m pre l, inv m -> (forall z, In z (ids m) <-> in_use pre (length pre) z) -> history m os = Ok l ->
  length l = length os /\ forall j a, nth_error l j = Some a -> good (pre ++ l) (length pre + j) a.
Proof.
  induction os as [|o os IH]; intros m pre l I U; cbn [history]; [intros H; injection H as <-; split; [reflexivity|]; intros [|j] a H; discriminate H|].
  rewrite bind_ok. intros ((m1 & a1) & H1 & H). cbn [fst snd] in H. rewrite bind_ok in H. destruct H as (l1 & H2 & H). injection H as <-.
  assert (S1 : inv m1 /\ (forall z, In z (ids m1) <-> in_use (pre ++ [a1]) (S (length pre)) z) /\ good pre (length pre) a1).
  { destruct o as [|y|]; cbn [perform] in H1.
    - rewrite bind_ok in H1. destruct H1 as ((m2 & z) & F & H1). cbn [fst snd] in H1. injection H1 as <- <-. destruct (free_spec m m2 z I F) as (I2 & N & P & B & E & _).
      split; [exact I2|]. split; [intros y; rewrite use_snoc, E, U; reflexivity|]. cbn. split; [exact P|]. split; [rewrite <- U; exact N|intros y Hy; apply U, B, Hy].
    - unfold insertID in H1. destruct (find y (ids m)) eqn:F; cbn [fst snd] in H1; injection H1 as <- <-.
      + split; [exact I|]. split; [intros z; rewrite use_snoc; apply U|]. cbn. split; [intros _; apply U, find_spec, F|reflexivity].
      + destruct I as (P & A). split; [split; [exact P|]; intros z Hz; cbn [ids]; apply insert_in; right; apply A, Hz|]. split; [intros z; cbn [ids]; rewrite use_snoc, insert_in, U; reflexivity|].
        cbn. split; [discriminate|]. intros C. apply U, find_spec in C. congruence.
    - injection H1 as <- <-. split; [apply fresh_inv|]. split; [intros z; rewrite use_snoc; reflexivity|exact Logic.I]. }
  destruct S1 as (I1 & U1 & G1). destruct (IH m1 (pre ++ [a1]) l1 I1) as (L & G); [rewrite app_length; cbn [length]; rewrite Nat.add_1_r; exact U1|exact H2|].
  split; [cbn; congruence|]. intros [|j] a Ha; cbn [nth_error] in Ha.
  - injection Ha as <-. rewrite Nat.add_0_r. unfold good in *. destruct a1 as [z|z b|]; [|rewrite use_app by lia; exact G1|exact Logic.I].
    rewrite use_app by lia. destruct G1 as (P & N & B). split; [exact P|]. split; [exact N|]. intros y Hy. apply use_app; [lia|]. apply B, Hy.
  - specialize (G j a Ha). rewrite <- app_assoc in G. rewrite app_length in G. cbn [length] in G. replace (length pre + S j) with (length pre + 1 + j) by lia. exact G.
Qed.
Lemma history_total os : forall m, inv m -> (2 * Z.of_nat (length (ids m) + length os) <= 2 ^ 31 - 1)%Z -> exists l, history m os = Ok l.
Proof.
  induction os as [|o os IH]; intros m I B; cbn [history length] in *; [eauto|].
  assert (S1 : exists m1 a, perform m o = Ok (m1, a) /\ inv m1 /\ length (ids m1) <= S (length (ids m))).
  { destruct o as [|y|]; cbn [perform].
    - destruct (free_total m I) as ((m1 & z) & E); [lia|]. rewrite E. cbn. destruct (free_spec m m1 z I E) as (I1 & _ & _ & _ & _ & L). eauto 8.
    - unfold insertID. destruct (find y (ids m)); cbn; [exists m; eauto 8|]. eexists. eexists. split; [reflexivity|]. destruct I as (P & A). split; [split; [exact P|]; intros z Hz; apply insert_in; right; apply A, Hz|apply insert_length].
    - eexists. eexists. split; [reflexivity|]. split; [apply fresh_inv|cbn; lia]. }
  destruct S1 as (m1 & a & -> & I1 & L1). cbn. destruct (IH m1 I1) as (l & ->); [lia|]. cbn. eauto.
Qed.

(** without insertions: 0, 1, 2, ... *)
Definition counted (m : manager) (n : nat) : Prop := inv m /\ (forall z, In z (ids m) <-> (0 <= z < Z.of_nat n)%Z) /\ length (ids m) <= n.
Lemma counted_fresh : counted fresh 0.
Proof. split; [apply fresh_inv|]. split; [intros z; cbn; lia|cbn; lia]. Qed.
Lemma free_counted m n m' z : counted m n -> getFreeID m = Ok (m', z) -> z = Z.of_nat n /\ counted m' (S n).
Proof.
  intros (I & U & L) H. destruct (free_spec m m' z I H) as (I' & N & P & B & E & L'). rewrite U in N.
  assert (z = Z.of_nat n). { destruct (Z_lt_le_dec (Z.of_nat n) z) as [C|C]; [|lia]. specialize (B (Z.of_nat n) ltac:(lia)). apply U in B. lia. }
  split; [assumption|]. split; [exact I'|]. split; [intros y; rewrite E, U; lia|lia].
Qed.
Lemma first_snoc n k : first_numbers (n + k) = first_numbers n ++ map Z.of_nat (seq n k).
Proof. unfold first_numbers. rewrite seq_app, map_app. reflexivity. Qed.
Lemma use_counted known names : forall m n m' l, counted m n -> useData known m names = Ok (m', l) ->
  map fst l = names /\ map snd l = map Z.of_nat (seq n (length names)) /\ counted m' (n + length names) /\ forall x, In x names -> In x known.
Proof.
  induction names as [|x names IH]; intros m n m' l C; cbn [useData length]; [intros H; injection H as <- <-; rewrite Nat.add_0_r; split; [reflexivity|]; split; [reflexivity|]; split; [exact C|intros ? []]|].
  destruct (existsb _ known) eqn:K; [|discriminate]. rewrite bind_ok. intros ((m1 & z) & F & H). cbn [fst snd] in H. rewrite bind_ok in H. destruct H as ((m2 & l2) & H & E). cbn [fst snd] in E. injection E as <- <-.
  destruct (free_counted m n m1 z C F) as (-> & C1). destruct (IH m1 (S n) m2 l2 C1 H) as (I1 & I2 & I3 & I4). cbn [map seq fst snd]. rewrite I1, I2. split; [reflexivity|]. split; [reflexivity|]. split; [rewrite Nat.add_succ_r; exact I3|].
  intros y [<-|Hy]; [|apply I4, Hy]. apply existsb_exists in K. destruct K as (y & Hy & E). apply String.eqb_eq in E. subst. exact Hy.
Qed.
Lemma configure_counted known tags : forall s n k, counted (meshIDs s) n -> counted (dataIDs s) k -> forall s', configure known s tags = Ok s' ->
  exists new, meshes s' = meshes s ++ new /\ map m_name new = map fst tags /\ map (fun m => map fst (m_data m)) new = map snd tags
    /\ map m_id new = map Z.of_nat (seq n (length tags)) /\ map snd (concat (map m_data new)) = map Z.of_nat (seq k (length (concat (map snd tags)))) /\ forall t x, In t tags -> In x (snd t) -> In x known.
Proof.
  induction tags as [|(name, names) tags IH]; intros s n k Cm Cd s'; cbn [configure]; [intros H; injection H as <-; exists []; rewrite app_nil_r; repeat split; intros ? ? []|].
  rewrite bind_ok. intros ((m1 & z) & F & H). rewrite bind_ok in H. destruct H as ((d1 & l) & U & H). cbn [fst snd] in *. destruct (free_counted _ _ _ _ Cm F) as (-> & Cm1). destruct (use_counted _ _ _ _ _ _ Cd U) as (U1 & U2 & Cd1 & Uk).
  destruct (IH (State (meshes s ++ [Mesh name (Z.of_nat n) l]) m1 d1) (S n) (k + length names) Cm1 Cd1 s' H) as (new & E & N1 & N2 & N3 & N4 & N5). exists (Mesh name (Z.of_nat n) l :: new). cbn [meshes] in E.
  split; [rewrite E, <- app_assoc; reflexivity|]. cbn [map m_name m_id m_data fst snd concat length seq]. rewrite N1, N2, N3. split; [reflexivity|]. split; [rewrite U1; reflexivity|]. split; [reflexivity|].
  split; [rewrite map_app, N4, U2, app_length, seq_app, map_app; reflexivity|]. intros t x [<-|Ht]; [apply Uk|apply N5, Ht].
Qed.
Lemma use_total known names : forall m n, counted m n -> (2 * Z.of_nat (n + length names) <= 2 ^ 31 - 1)%Z -> (forall x, In x names -> In x known) -> exists p, useData known m names = Ok p.
Proof.
  induction names as [|x names IH]; intros m n C B K; cbn [useData length] in *; [eauto|].
  assert (Kx : existsb (String.eqb x) known = true) by (apply existsb_exists; exists x; split; [apply K; left; reflexivity|apply String.eqb_refl]). rewrite Kx.
  destruct (free_total m) as ((m1 & z) & F); [apply C|destruct C as (_ & _ & L); lia|]. rewrite F. cbn [bindR fst snd]. destruct (free_counted _ _ _ _ C F) as (_ & C1).
  destruct (IH m1 (S n) C1) as ((m2 & l) & ->); [lia|intros y Hy; apply K; right; exact Hy|]. cbn. eauto.
Qed.
Lemma configure_total known tags : forall s n k, counted (meshIDs s) n -> counted (dataIDs s) k -> (2 * Z.of_nat (n + length tags) <= 2 ^ 31 - 1)%Z -> (2 * Z.of_nat (k + length (concat (map snd tags))) <= 2 ^ 31 - 1)%Z ->
  (forall t x, In t tags -> In x (snd t) -> In x known) -> exists s', configure known s tags = Ok s'.
Proof.
  induction tags as [|(name, names) tags IH]; intros s n k Cm Cd Bm Bd K; cbn [configure]; [eauto|]. cbn [map concat snd length] in *. rewrite app_length in Bd.
  destruct (free_total (meshIDs s)) as ((m1 & z) & F); [apply Cm|destruct Cm as (_ & _ & L); lia|]. rewrite F. cbn [bindR fst snd]. destruct (free_counted _ _ _ _ Cm F) as (_ & Cm1).
  destruct (use_total known names (dataIDs s) k Cd) as ((d1 & l) & U); [lia|intros x Hx; apply (K (name, names) x); [left; reflexivity|exact Hx]|]. rewrite U. cbn [bindR fst snd]. destruct (use_counted _ _ _ _ _ _ Cd U) as (_ & _ & Cd1 & _).
  apply (IH _ (S n) (k + length names)); [exact Cm1|exact Cd1|lia|lia|]. intros t x Ht. apply K. right. exact Ht.
Qed.
