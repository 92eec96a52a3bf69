From Coq Require Import ZArith QArith List Arith Lia Bool.
From Verif Require Import M_Net M_Mesh M_M2N M_Part S_Part P_Net.
Import ListNotations.
Open Scope nat_scope.

Definition ind (g : list Z) (id : nat) : nat := if Z.eqb (nth id g 0%Z) 0 then 0 else 1.
Fixpoint ownCount (id : Z) (owners ids : list Z) : nat :=
  match owners, ids with
  | o :: os, i :: is => (if Z.eqb o 1 && Z.eqb i id then 1 else 0) + ownCount id os is
  | _, _ => 0
  end.
(** the owners of a rank are marked, tagged and only 0 or 1 *)
Fixpoint okOwners (g owners ids tags : list Z) : Prop :=
  match owners, ids, tags with
  | [], [], [] => True
  | o :: os, i :: is, t :: ts =>
      (0 <= i < Z.of_nat (length g))%Z /\ (o = 0%Z \/ o = 1%Z /\ t = 1%Z /\ ind g (Z.to_nat i) = 1) /\ okOwners g os is ts
  | _, _, _ => False
  end.
Definition grows (g g' : list Z) : Prop := length g' = length g /\ forall id, ind g id <= ind g' id.
Lemma ind_cases g id : ind g id = 0 \/ ind g id = 1.
Proof. unfold ind. destruct (nth id g 0 =? 0)%Z; auto. Qed.
Lemma grows_refl g : grows g g. Proof. split; auto. Qed.
Lemma grows_trans a b c : grows a b -> grows b c -> grows a c.
Proof. intros (A & B) (C & D). split; [congruence|]. intros id. eapply Nat.le_trans; [apply B|apply D]. Qed.
Lemma grows_ok g g' : grows g g' -> forall os is ts, okOwners g os is ts -> okOwners g' os is ts.
Proof.
  intros (L & G). induction os as [|o os IH]; intros [|i is] [|t ts] H; cbn [okOwners] in *; auto.
  destruct H as (H1 & H2 & H3). rewrite L. split; auto. split; auto. destruct H2 as [H2|(H2 & H4 & H5)]; auto.
  right. split; auto. split; auto. specialize (G (Z.to_nat i)). destruct (ind_cases g' (Z.to_nat i)); lia.
Qed.
Lemma nth_upd g k x id : k < length g -> nth id (upd k x g) 0%Z = if id =? k then x else nth id g 0%Z.
Proof.
  revert k id. induction g as [|y g IH]; intros [|k] [|id] H; cbn in *; try lia; auto. apply IH. lia.
Qed.
Lemma ind_upd g k x id : k < length g -> x <> 0%Z -> ind (upd k x g) id = if id =? k then 1 else ind g id.
Proof.
  intros H Hx. unfold ind. rewrite nth_upd by exact H. destruct (Nat.eqb_spec id k); auto.
  destruct (Z.eqb_spec x 0); [contradiction|reflexivity].
Qed.
Lemma upd_grows g k x : k < length g -> x <> 0%Z -> grows g (upd k x g).
Proof.
  intros H Hx. split; [apply upd_length|]. intros id. rewrite ind_upd by auto. destruct (id =? k); auto.
  destruct (ind_cases g id); lia.
Qed.
Lemma ownerAt_ok i g : (0 <= i < Z.of_nat (length g))%Z -> ownerAt i g = Some (nth (Z.to_nat i) g 0%Z).
Proof.
  intros H. unfold ownerAt. destruct (Z.ltb_spec i 0); [lia|]. apply nth_error_nth'. lia.
Qed.
(** one rank *)
Lemma ownRound_ok guess mark : mark <> 0%Z -> forall owners ids tags counter g, okOwners g owners ids tags ->
  exists os g', ownRound guess mark counter owners ids tags g = Some (os, g') /\ grows g g' /\ okOwners g' os ids tags /\
    (forall id, ownCount (Z.of_nat id) os ids + ind g id = ownCount (Z.of_nat id) owners ids + ind g' id) /\
    (guess = None -> forall i, (exists k, nth_error ids k = Some i /\ nth_error tags k = Some 1%Z) -> ind g' (Z.to_nat i) = 1).
Proof.
  intros Hm. induction owners as [|o os IH]; intros [|i is] [|t ts] counter g H; cbn [okOwners ownRound] in *; try contradiction.
  - exists [], g. split; auto. split; [apply grows_refl|]. split; auto. split; auto. intros _ i (k & Hk & _). destruct k; discriminate.
  - destruct H as (Hi & Ho & H). rewrite (ownerAt_ok i g Hi).
    destruct (Z.eqb_spec (nth (Z.to_nat i) g 0%Z) 0) as [E|E]; cbn [andb]; [destruct (Z.eqb_spec t 1) as [->|Nt]|].
    + (* the rank becomes the owner *)
      assert (Z0 : ind g (Z.to_nat i) = 0) by (unfold ind; rewrite E; reflexivity).
      assert (Ho0 : o = 0%Z) by (destruct Ho as [|(_ & _ & Hc)]; [auto|lia]). subst o.
      set (g1 := upd (Z.to_nat i) mark g).
      assert (Hk : Z.to_nat i < length g) by lia.
      assert (G1 : grows g g1) by (apply upd_grows; auto).
      assert (I1 : forall id, ind g1 id = if id =? Z.to_nat i then 1 else ind g id) by (intros; apply ind_upd; auto).
      assert (IHd : exists os' g', (if match guess with Some l => Z.eqb (counter + 1) l | None => false end then Some (1%Z :: os, g1)
                     else match ownRound guess mark (counter + 1) os is ts g1 with
                     | Some (os', g'') => Some (1%Z :: os', g'') | None => None end) = Some (1%Z :: os', g') /\ grows g1 g' /\ okOwners g' os' is ts /\
                (forall id, ownCount (Z.of_nat id) os' is + ind g1 id = ownCount (Z.of_nat id) os is + ind g' id) /\
                (guess = None -> forall i, (exists k, nth_error is k = Some i /\ nth_error ts k = Some 1%Z) -> ind g' (Z.to_nat i) = 1)).
      { destruct guess as [l|]; [destruct (counter + 1 =? l)%Z|].
        - exists os, g1. split; auto. split; [apply grows_refl|]. split; [eapply grows_ok; eauto|]. split; auto. discriminate.
        - destruct (IH is ts (counter + 1)%Z g1 (grows_ok _ _ G1 _ _ _ H)) as (os' & g' & E1 & R). rewrite E1. exists os', g'. split; auto.
        - destruct (IH is ts (counter + 1)%Z g1 (grows_ok _ _ G1 _ _ _ H)) as (os' & g' & E1 & R). rewrite E1. exists os', g'. split; auto. }
      destruct IHd as (os' & g' & E1 & G2 & K & D & T). exists (1%Z :: os'), g'. split; [exact E1|].
      split; [eapply grows_trans; eauto|]. 
      assert (J : ind g' (Z.to_nat i) = 1).
      { destruct G2 as (_ & G2). specialize (G2 (Z.to_nat i)). rewrite I1, Nat.eqb_refl in G2. destruct (ind_cases g' (Z.to_nat i)); lia. }
      split; [|split].
      * cbn [okOwners]. destruct G1 as (L1 & _), G2 as (L2 & _). rewrite L2, L1. split; auto.
      * intros id. cbn [ownCount]. specialize (D id). specialize (I1 id).
        destruct (Z.eqb_spec i (Z.of_nat id)) as [->|Ne]; cbn [Z.eqb Pos.eqb andb].
        -- rewrite Nat2Z.id in *. rewrite Nat.eqb_refl in I1. lia.
        -- destruct (Nat.eqb_spec id (Z.to_nat i)); [lia|]. lia.
      * intros Eg j (k & Hj & Ht). destruct k as [|k]; [cbn in Hj; injection Hj as <-; exact J|]. apply T; auto. exists k. auto.
    + destruct (IH is ts counter g H) as (os' & g' & E1 & G2 & K & D & T). rewrite E1.
      exists (o :: os'), g'. split; auto. split; auto. split; [|split].
      * cbn [okOwners]. destruct G2 as (L2 & G2). rewrite L2. split; auto. split; auto. destruct Ho as [|(H1 & H2 & H3)]; auto; contradiction.
      * intros id. cbn [ownCount]. specialize (D id). lia.
      * intros Eg j (k & Hj & Ht). destruct k as [|k]; [cbn in Ht; congruence|]. apply T; auto. exists k. auto.
    + destruct (IH is ts counter g H) as (os' & g' & E1 & G2 & K & D & T). rewrite E1.
      assert (J : ind g' (Z.to_nat i) = 1).
      { destruct G2 as (_ & G2). specialize (G2 (Z.to_nat i)). assert (ind g (Z.to_nat i) = 1) by (unfold ind; destruct (Z.eqb_spec (nth (Z.to_nat i) g 0%Z) 0); congruence).
        destruct (ind_cases g' (Z.to_nat i)); lia. }
      exists (o :: os'), g'. split; auto. split; auto. split; [|split].
      * cbn [okOwners]. destruct G2 as (L2 & G2). rewrite L2. split; auto. split; auto. destruct Ho as [|(H1 & H2 & H3)]; auto.
      * intros id. cbn [ownCount]. specialize (D id). lia.
      * intros Eg j (k & Hj & Ht). destruct k as [|k]; [cbn in Hj; injection Hj as <-; exact J|]. apply T; auto. exists k. auto.
Qed.
(** all ranks *)
Fixpoint ownTotal (id : Z) (l : list about) : nat :=
  match l with [] => 0 | a :: r => ownCount id (ab_owners a) (ab_ids a) + ownTotal id r end.
Definition okAll (g : list Z) (l : list about) : Prop := Forall (fun a => okOwners g (ab_owners a) (ab_ids a) (ab_tags a)) l.
Definition sameRanks (l l' : list about) : Prop := Forall2 (fun a b => ab_ids b = ab_ids a /\ ab_tags b = ab_tags a) l l'.
Definition wanted (l : list about) (i : Z) : Prop :=
  exists a k, In a l /\ nth_error (ab_ids a) k = Some i /\ nth_error (ab_tags a) k = Some 1%Z.
Lemma grows_okAll g g' l : grows g g' -> okAll g l -> okAll g' l.
Proof. intros G. apply Forall_impl. intros a. apply grows_ok, G. Qed.
Lemma ownRounds_ok guess mark : (forall r, mark r <> 0%Z) -> forall l rank g, okAll g l ->
  exists l' g', ownRounds guess mark rank l g = Some (l', g') /\ grows g g' /\ okAll g' l' /\ sameRanks l l' /\
    (forall id, ownTotal (Z.of_nat id) l' + ind g id = ownTotal (Z.of_nat id) l + ind g' id) /\
    (guess = None -> forall i, wanted l i -> ind g' (Z.to_nat i) = 1).
Proof.
  intros Hm. induction l as [|a l IH]; intros rank g H; cbn [ownRounds].
  - exists [], g. split; auto. split; [apply grows_refl|]. split; auto. split; [constructor|]. split; auto. intros _ i (a & k & [] & _).
  - inversion H as [|? ? Ha Hl]; subst.
    destruct (ownRound_ok guess (mark rank) (Hm rank) _ _ _ 0%Z g Ha) as (os & g1 & E1 & G1 & K1 & D1 & T1). rewrite E1.
    destruct (IH (S rank) g1 (grows_okAll _ _ _ G1 Hl)) as (l' & g2 & E2 & G2 & K2 & S2 & D2 & T2). rewrite E2.
    exists (MkAbout os (ab_ids a) (ab_tags a) :: l'), g2. split; auto. split; [eapply grows_trans; eauto|].
    split; [constructor; auto; eapply grows_ok; eauto|]. split; [constructor; auto|]. split.
    + intros id. cbn [ownTotal ab_owners ab_ids]. specialize (D1 id). specialize (D2 id). lia.
    + intros Eg i (b & k & [<-|Hb] & Hi & Ht).
      * assert (ind g1 (Z.to_nat i) = 1) by (apply T1; auto; exists k; auto). destruct G2 as (_ & G2). specialize (G2 (Z.to_nat i)).
        destruct (ind_cases g2 (Z.to_nat i)); lia.
      * apply T2; auto. exists b, k. auto.
Qed.
Lemma wanted_same l l' i : sameRanks l l' -> wanted l i -> wanted l' i.
Proof.
  intros H (a & k & Ha & Hi & Ht). induction H as [|x y l l' (E1 & E2) H IH]; [destruct Ha|].
  destruct Ha as [<-|Ha].
  - exists y, k. split; [left; auto|]. rewrite E1, E2. auto.
  - destruct (IH Ha) as (b & k' & Hb & R). exists b, k'. split; [right; auto|auto].
Qed.
Lemma sameRanks_trans a b c : sameRanks a b -> sameRanks b c -> sameRanks a c.
Proof.
  intros H. revert c. induction H as [|x y l l' (E1 & E2) H IH]; intros c Hc; inversion Hc as [|? z ? lz (F1 & F2)]; subst; constructor.
  - split; congruence.
  - apply IH. assumption.
Qed.
Lemma ind_zero N id : ind (repeat 0%Z N) id = 0.
Proof. unfold ind. rewrite nth_repeat. reflexivity. Qed.
Theorem decideOwners_ok N ranksAtInterface l : okAll (repeat 0%Z N) l -> (forall id, ownTotal (Z.of_nat id) l = 0) ->
  exists l' g, decideOwners N ranksAtInterface l = Some l' /\ okAll g l' /\ sameRanks l l' /\
    (forall id, ownTotal (Z.of_nat id) l' <= 1) /\ (forall i, (0 <= i)%Z -> wanted l i -> ownTotal i l' = 1).
Proof.
  intros H H0. unfold decideOwners.
  destruct (ownRounds_ok (Some (Z.of_nat N / ranksAtInterface)%Z) (fun _ => 1%Z) ltac:(discriminate) l 0 _ H) as (l1 & g1 & E1 & G1 & K1 & S1 & D1 & _). rewrite E1.
  destruct (ownRounds_ok None (fun rank => Z.of_nat rank + 1)%Z ltac:(intros r0; cbv beta; lia) l1 0 g1 K1) as (l2 & g2 & E2 & G2 & K2 & S2 & D2 & T2). rewrite E2.
  exists l2, g2. split; auto. split; auto. split; [eapply sameRanks_trans; eauto|].
  assert (D : forall id, ownTotal (Z.of_nat id) l2 = ind g2 id).
  { intros id. specialize (D1 id). specialize (D2 id). rewrite ind_zero, H0 in D1. lia. }
  split.
  - intros id. rewrite D. destruct (ind_cases g2 id); lia.
  - intros i Hi W. rewrite <- (Z2Nat.id i Hi). rewrite D. apply T2; auto. eapply wanted_same; eauto.
Qed.
