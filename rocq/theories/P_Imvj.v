(** Proofs about the IQN-IMVJ acceleration. *)
From Coq Require Import Field Field_theory Bool List Arith Lia.
From Verif Require Import S_Field P_Field M_Imvj S_Imvj.
From Verif Require M_QN.
Import ListNotations.

Section P.
Variable F : field.
Add Field KI : (K_theory F).
Notation vec := (nat -> F).

(** * Columns that belong together *)
Inductive synced (J : vec -> vec) : list vec -> list vec -> list vec -> Prop :=
| synced_nil : synced J [] [] []
| synced_cons v w t V W T : (forall e, t e = sub (w e) (J v e)) -> synced J V W T -> synced J (v :: V) (w :: W) (t :: T).

Lemma synced_length J V W T : synced J V W T -> length W = length V /\ length T = length V.
Proof. induction 1 as [|v w t V W T _ _ [A B]]; cbn [length]; [auto|]. split; congruence. Qed.
Lemma synced_nth J V W T : synced J V W T -> forall j, j < length V -> forall e, at_ T j e = sub (at_ W j e) (J (at_ V j) e).
Proof.
  induction 1 as [|v w t V W T A _ IH]; intros j Hj e; [inversion Hj|].
  destruct j as [|j]; [exact (A e)|]. apply IH. cbn [length] in Hj. lia.
Qed.
Lemma synced_removelast J V W T : synced J V W T -> synced J (removelast V) (removelast W) (removelast T).
Proof.
  induction 1 as [|v w t V W T A H IH]; [constructor|].
  destruct H as [|v' w' t' V W T A' H]; [constructor|]. change (synced J (v :: removelast (v' :: V)) (w :: removelast (w' :: W)) (t :: removelast (t' :: T))). constructor; assumption.
Qed.
Lemma remove_some {A} i (l l' : list A) : M_QN.removeColumnFromMatrix i l = Some l' -> i < length l /\ l' = firstn i l ++ skipn (S i) l.
Proof. unfold M_QN.removeColumnFromMatrix. destruct (i <? length l) eqn:E; [|discriminate]. intros [= <-]. apply Nat.ltb_lt in E. auto. Qed.
Lemma remove_length {A} i (l l' : list A) : M_QN.removeColumnFromMatrix i l = Some l' -> S (length l') = length l.
Proof. intros H. apply remove_some in H. destruct H as [H ->]. rewrite app_length, firstn_length, skipn_length. lia. Qed.
Lemma synced_remove J V W T : synced J V W T -> forall i, synced J (firstn i V ++ skipn (S i) V) (firstn i W ++ skipn (S i) W) (firstn i T ++ skipn (S i) T).
Proof.
  induction 1 as [|v w t V W T A H IH]; intros i; [rewrite !firstn_nil, !skipn_nil; constructor|].
  destruct i as [|i]; [exact H|]. cbn [firstn skipn app]. constructor; [exact A|]. apply IH.
Qed.
Lemma synced_ext J J' V W T : (forall y e, J y e = J' y e) -> synced J V W T -> synced J' V W T.
Proof. intros E. induction 1; constructor; auto. intros e. rewrite <- E. auto. Qed.
Lemma synced_build J V W : length W = length V -> synced J V W (map (fun '(v, w) => fun e => sub (w e) (J v e)) (combine V W)).
Proof.
  revert W. induction V as [|v V IH]; intros [|w W] L; try discriminate L; cbn [combine map]; constructor; [reflexivity|].
  apply IH. injection L as L. exact L.
Qed.

(** * Products *)
Lemma lowRank_synced n J V W T Z y e : synced J V W T -> add (J y e) (lowRank n (T, Z) y e) = multivector n J V W Z y e.
Proof.
  intros H. unfold multivector, lowRank. cbn [fst snd]. f_equal. destruct (synced_length _ _ _ _ H) as [_ ->].
  apply fsum_ext. intros j Hj. pose proof (synced_nth _ _ _ _ H j Hj e) as E. unfold at_ in *. rewrite E. reflexivity.
Qed.
Lemma apply_product n (p : pair F) y e : apply n (product p) y e = lowRank n p y e.
Proof.
  unfold apply, product, lowRank. transitivity (fsum n (fun k => fsum (length (fst p)) (fun j => mul (mul (nth j (fst p) (fun _ => zero) e) (nth j (snd p) (fun _ => zero) k)) (y k)))).
  - apply fsum_ext. intros k _. rewrite <- fsum_scale_r. reflexivity.
  - rewrite fsum_swap. apply fsum_ext. intros j _. unfold fdot. rewrite <- fsum_scale. apply fsum_ext. intros k _. ring.
Qed.
Lemma apply_plus n (A B : nat -> nat -> F) y e : apply n (plus A B) y e = add (apply n A y e) (apply n B y e).
Proof. unfold apply, plus. rewrite <- fsum_plus. apply fsum_ext. intros. ring. Qed.
Lemma chunk_app n (a : list (pair F)) b y e : chunkApply n (a ++ b) y e = add (chunkApply n a y e) (chunkApply n b y e).
Proof. induction a as [|p a IH]; cbn [app chunkApply]; [ring|]. rewrite IH. ring. Qed.
Lemma multivector_ext n J J' V W Z y e : (forall y e, J y e = J' y e) -> multivector (F:=F) n J V W Z y e = multivector n J' V W Z y e.
Proof. intros E. unfold multivector. rewrite E. f_equal. apply fsum_ext. intros. rewrite E. reflexivity. Qed.
Lemma multivector_secant n J V W Z : left_inverse (F:=F) n Z V -> length W = length V -> secant (multivector n J V W Z) V W.
Proof.
  intros [_ H] _ j Hj e. unfold multivector. rewrite (fsum_pick F _ j); [|exact Hj|].
  - rewrite H, Nat.eqb_refl by exact Hj. ring.
  - intros k Hk N. rewrite H by assumption. apply Nat.eqb_neq in N. rewrite N. ring.
Qed.
Lemma multivector_kernel n J V W Z y e : (forall j, j < length V -> fdot n (at_ Z j) y = zero) -> multivector (F:=F) n J V W Z y e = J y e.
Proof. intros H. unfold multivector. rewrite fsum_zero; [ring|]. intros j Hj. rewrite H by exact Hj. ring. Qed.

(** * The functions *)
Implicit Types (c : config F) (o : decisions F) (x xt : vec) (s t : imvj F).
Ltac bd H := match type of H with bind ?a _ = Some _ => let E := fresh "E" in destruct a eqn:E; cbn [bind] in H; [|discriminate H] end.

Lemma cols_some (s : imvj F) n : getLSSystemCols s = Some n -> length (s_V s) = n /\ length (s_W s) = n.
Proof.
  unfold getLSSystemCols. destruct (_ && _) eqn:E; [|discriminate]. intros [= <-]. apply andb_true_iff in E. destruct E as [A B].
  apply Nat.eqb_eq in A, B. auto.
Qed.
Lemma shift_some {A} (v : A) l l' : M_QN.shiftSetFirst v l = Some l' -> l' = v :: removelast l /\ l <> [].
Proof. destruct l; cbn; [discriminate|]. intros [= <-]. split; [reflexivity|discriminate]. Qed.

(** [t] has the Jacobian, the flags and the stored matrices of [s] *)
Definition kept (s t : imvj F) : Prop :=
  s_first t = s_first s /\ s_firstWindow t = s_firstWindow s /\ s_reset t = s_reset s /\ s_Jold t = s_Jold s /\ s_J t = s_J s /\ s_chunk t = s_chunk s /\ s_svd t = s_svd s.
Lemma kept_previous c s t : kept s t -> previous c t = previous c s.
Proof. intros (_ & _ & _ & A & _ & B & _). unfold previous. rewrite A, B. reflexivity. Qed.
Lemma kept_consistent c s t : kept s t -> consistent c t = consistent c s.
Proof. intros (_ & _ & _ & _ & _ & B & _). unfold consistent. rewrite B. reflexivity. Qed.
Lemma kept_refl s : kept s s. Proof. repeat split. Qed.
Lemma kept_trans s t u : kept s t -> kept t u -> kept s u.
Proof. unfold kept. intros A B. decompose [and] A. decompose [and] B. repeat split; congruence. Qed.

Lemma base_kept c x xt s t : updateBase c x xt s = Some t -> kept s t /\ s_Wt t = s_Wt s /\ s_lsV t = s_lsV s /\ s_lsW t = s_lsW s /\ s_lsCols t = s_lsCols s.
Proof.
  unfold updateBase. destruct (s_first s && _); [intros [= <-]; repeat split|]. destruct (s_first s); [intros [= <-]; repeat split|].
  intros H. bd H. destruct (negb _); [discriminate H|]. bd H. destruct (_ && _); [injection H as <-; repeat split|].
  bd H. bd H. bd H. injection H as <-. repeat split.
Qed.
(** the new columns *)
Definition diffR c x xt (s : imvj F) : vec := fun e => sub (residual c x xt e) (s_oldR s e).
Definition diffXt (xt : vec) (s : imvj F) : vec := fun e => sub (xt e) (s_oldXt s e).
Lemma base_columns c x xt s t : s_first s = false -> updateBase c x xt s = Some t ->
  length (s_V s) = length (s_W s) /\
  ((negb (length (s_V s) =? c_max c) && (length (s_V s) <=? rowsOf c) = true /\ s_V t = diffR c x xt s :: s_V s /\ s_W t = diffXt xt s :: s_W s) \/
   (negb (length (s_V s) =? c_max c) && (length (s_V s) <=? rowsOf c) = false /\ s_V s <> [] /\ s_V t = diffR c x xt s :: removelast (s_V s) /\ s_W t = diffXt xt s :: removelast (s_W s))).
Proof.
  intros H0 H. unfold updateBase in H. rewrite H0 in H. cbn [andb] in H. bd H. destruct (cols_some _ _ E) as [L1 L2]. destruct (negb (n <=? _)); [discriminate H|].
  bd H. subst n. split; [congruence|]. destruct (negb _ && _) eqn:B; [left; injection H as <-; auto|right].
  bd H. bd H. bd H. injection H as <-. apply shift_some in E1, E2. destruct E1 as [-> N], E2 as [-> _]. auto.
Qed.

Lemma storeLS_kept c v w s t : storeLS c v w s = Some t -> kept s t /\ s_Wt t = s_Wt s /\ s_V t = s_V s /\ s_W t = s_W s.
Proof.
  unfold storeLS. destruct (c_mode c) as [| |[|r| |] k]; try (intros [= <-]; repeat split).
  intros H. bd H. injection H as <-. repeat split.
Qed.

Lemma ud_kept c x xt s t : updateDifferenceMatrices c x xt s = Some t -> kept s t.
Proof.
  intros H. unfold updateDifferenceMatrices in H. bd H. destruct (base_kept _ _ _ _ _ E) as (K & _). destruct (isAlways c || _); [injection H as <-; exact K|].
  destruct (s_V i) as [|v V] eqn:EV; [discriminate H|]. destruct (s_W i) as [|w W] eqn:EW; [discriminate H|]. destruct (negb _); [discriminate H|].
  bd H. destruct (storeLS_kept _ _ _ _ _ E0) as (K' & _). apply (kept_trans _ _ _ K). destruct (negb _ && _); [injection H as <-; exact K'|].
  bd H. injection H as <-. exact K'.
Qed.
Lemma ud_first c x xt s t : s_first s = true -> updateDifferenceMatrices c x xt s = Some t ->
  s_V t = s_V s /\ s_W t = s_W s /\ s_Wt t = s_Wt s /\ s_cols t = s_cols s /\ (t = s \/ t = setOld s (residual c x xt) xt).
Proof.
  intros H0 H. unfold updateDifferenceMatrices in H. bd H. assert (K : s_first i = true) by (destruct (base_kept _ _ _ _ _ E) as ((-> & _) & _); exact H0).
  rewrite K, orb_true_r in H. injection H as <-. unfold updateBase in E. rewrite H0 in E. cbn [andb] in E. destruct (_ || _); injection E as <-; repeat split; auto.
Qed.
Lemma ud_always c x xt s t : isAlways c = true -> updateDifferenceMatrices c x xt s = Some t -> updateBase c x xt s = Some t.
Proof. intros A H. unfold updateDifferenceMatrices in H. bd H. rewrite A in H. exact H. Qed.
Lemma ud_columns c x xt s t : s_first s = false -> updateDifferenceMatrices c x xt s = Some t ->
  length (s_V s) = length (s_W s) /\
  ((negb (length (s_V s) =? c_max c) && (length (s_V s) <=? rowsOf c) = true /\ s_V t = diffR c x xt s :: s_V s /\ s_W t = diffXt xt s :: s_W s) \/
   (negb (length (s_V s) =? c_max c) && (length (s_V s) <=? rowsOf c) = false /\ s_V s <> [] /\ s_V t = diffR c x xt s :: removelast (s_V s) /\ s_W t = diffXt xt s :: removelast (s_W s))).
Proof.
  intros H0 H. unfold updateDifferenceMatrices in H. bd H.
  assert (K : s_V t = s_V i /\ s_W t = s_W i).
  { destruct (isAlways c || _); [injection H as <-; auto|].
    destruct (s_V i) as [|v V] eqn:EV; [discriminate H|]. destruct (s_W i) as [|w W] eqn:EW; [discriminate H|]. destruct (negb _); [discriminate H|].
    bd H. destruct (storeLS_kept _ _ _ _ _ E0) as (_ & _ & KV & KW). rewrite EV in KV. rewrite EW in KW. destruct (negb _ && _); [injection H as <-; auto|].
    bd H. injection H as <-. auto. }
  destruct K as [-> ->]. apply base_columns; assumption.
Qed.
Lemma ud_synced c x xt s t : isAlways c = false -> s_first s = false -> rowsOf c <= c_all c -> length (s_V s) <= rowsOf c ->
  updateDifferenceMatrices c x xt s = Some t -> synced (previous c s) (s_V s) (s_W s) (s_Wt s) -> synced (previous c t) (s_V t) (s_W t) (s_Wt t).
Proof.
  intros A H0 Hr Hl H Y. rewrite (kept_previous c s t) by (eapply ud_kept; eassumption). pose proof H as H'.
  unfold updateDifferenceMatrices in H. bd H. destruct (base_kept _ _ _ _ _ E) as (K & KT & _). destruct (base_columns _ _ _ _ _ H0 E) as [LW C].
  assert (F0 : s_first i = false) by (destruct K as (-> & _); exact H0). rewrite A, F0 in H. cbn [orb] in H.
  destruct (s_V i) as [|v V] eqn:EV; [discriminate H|]. destruct (s_W i) as [|w W] eqn:EW; [discriminate H|]. destruct (negb (consistent _ _)); [discriminate H|].
  bd H. destruct (storeLS_kept _ _ _ _ _ E0) as (_ & KT' & KV & KW). rewrite (kept_previous c s i K) in H.
  destruct (synced_length _ _ _ _ Y) as [_ LT]. rewrite KT', KT, LT in H.
  replace (length (s_V s) <=? c_all c) with true in H by (symmetry; apply Nat.leb_le; lia). replace (length (s_V s) <=? rowsOf c) with true in C by (symmetry; apply Nat.leb_le; lia).
  destruct C as [(B & CV & CW)|(B & N & CV & CW)]; rewrite B in H; injection CV as -> ->; injection CW as -> ->.
  - injection H as <-. cbn [s_V s_W s_Wt setWt]. rewrite KV, KW, EV, EW. constructor; [reflexivity|exact Y].
  - bd H. apply shift_some in E1. destruct E1 as [-> _]. injection H as <-. cbn [s_V s_W s_Wt setWt]. rewrite KV, KW, EV, EW. constructor; [reflexivity|]. apply synced_removelast, Y.
Qed.

(** ** Removing columns *)
Lemma removelast_length {A} (l : list A) : length (removelast l) = length l - 1.
Proof. induction l as [|a [|b l] IH]; [reflexivity|reflexivity|]. cbn [removelast length] in *. rewrite IH. lia. Qed.
Lemma rm_spec c i s t : removeMatrixColumn c i s = Some t ->
  kept s t /\ 1 < length (s_V s) /\ length (s_V t) < length (s_V s) /\
  (isAlways c = false -> s_reset s = false -> synced (previous c s) (s_V s) (s_W s) (s_Wt s) -> synced (previous c t) (s_V t) (s_W t) (s_Wt t)).
Proof.
  unfold removeMatrixColumn. destruct (_ || _) eqn:B; [discriminate|]. intros H. bd H. bd H. bd H. apply orb_false_iff in B. destruct B as [B _]. apply Nat.leb_gt in B.
  pose proof (remove_length _ _ _ E0) as L. injection H as <-. split; [repeat split|]. split; [exact B|]. split; [cbn [s_V setMatrices setWt]; lia|].
  intros A R Y. rewrite A, R in E. cbn [negb andb] in E. cbn [s_V s_W s_Wt setMatrices setWt]. apply remove_some in E, E0, E1. destruct E as [_ ->], E0 as [_ ->], E1 as [_ ->].
  apply synced_remove. exact Y.
Qed.
Lemma rms_spec c is : forall s t, removeMatrixColumns c is s = Some t ->
  kept s t /\ (length (s_V s) <= 1 -> t = s) /\ length (s_V t) <= length (s_V s) /\
  (isAlways c = false -> s_reset s = false -> synced (previous c s) (s_V s) (s_W s) (s_Wt s) -> synced (previous c t) (s_V t) (s_W t) (s_Wt t)).
Proof.
  induction is as [|i is IH]; intros s t H; cbn [removeMatrixColumns] in H.
  - injection H as <-. split; [apply kept_refl|]. auto.
  - bd H. destruct (rm_spec _ _ _ _ E) as (K & L & D & Y). destruct (IH _ _ H) as (K' & _ & D' & Y').
    split; [eapply kept_trans; eassumption|]. split; [lia|]. split; [lia|]. intros A R S0. apply Y'; [exact A|destruct K as (_ & _ & -> & _); exact R|auto].
Qed.
Lemma filter_spec c o s t : applyFilter c o s = Some t ->
  kept s t /\ (length (s_V s) <= 1 -> t = s) /\ length (s_V t) <= length (s_V s) /\
  (isAlways c = false -> s_reset s = false -> synced (previous c s) (s_V s) (s_W s) (s_Wt s) -> synced (previous c t) (s_V t) (s_W t) (s_Wt t)).
Proof. unfold applyFilter. destruct (_ && _); [discriminate|]. apply rms_spec. Qed.

Lemma build_spec c s t : buildWtil c s = Some t -> length (s_W s) = length (s_V s) ->
  s_V t = s_V s /\ s_W t = s_W s /\ s_reset t = false /\ s_first t = s_first s /\ s_firstWindow t = s_firstWindow s /\ s_chunk t = s_chunk s /\ s_Jold t = s_Jold s /\ s_svd t = s_svd s /\
  s_cols t = s_cols s /\ s_J t = s_J s /\
  previous c t = previous c s /\ synced (previous c t) (s_V t) (s_W t) (s_Wt t).
Proof.
  unfold buildWtil. destruct (consistent c s); [|discriminate]. intros [= <-] L. repeat split. apply synced_build. exact L.
Qed.
Lemma pinv_spec c o s Z : pseudoInverse c o s = Some Z -> Z = o_Z o /\ length Z = length (s_V s) /\ length (s_W s) = length (s_V s) /\ length (s_V s) <= rowsOf c.
Proof.
  unfold pseudoInverse. intros H. bd H. destruct (cols_some _ _ E) as [A B]. destruct (_ && _) eqn:C; [|discriminate H]. injection H as <-.
  apply andb_true_iff in C. destruct C as [C D]. apply Nat.eqb_eq in C. apply Nat.leb_le in D. repeat split; congruence || lia.
Qed.

(** ** The update *)
Lemma efficient_spec c Z r s u t : length (s_W s) = length (s_V s) ->
  (s_reset s = true \/ synced (previous c s) (s_V s) (s_W s) (s_Wt s)) ->
  computeNewtonUpdateEfficient c Z r s = Some (u, t) ->
  (forall e, u e = multivector (rowsOf c) (previous c s) (s_V s) (s_W s) Z (fun e => opp (r e)) e) /\
  s_V t = s_V s /\ s_W t = s_W s /\ s_cols t = s_cols s /\ s_first t = s_first s /\ s_firstWindow t = s_firstWindow s /\ s_chunk t = s_chunk s /\ s_Jold t = s_Jold s /\ s_svd t = s_svd s /\ previous c t = previous c s /\
  (s_first s && (c_reused c =? 0) && negb (c_force c) = false -> s_reset t = false /\ synced (previous c t) (s_V t) (s_W t) (s_Wt t)) /\
  (s_first s && (c_reused c =? 0) && negb (c_force c) = true -> s_reset t = true /\ s_Wt t = []).
Proof.
  intros L Y H. unfold computeNewtonUpdateEfficient in H. bd H.
  assert (A : s_V i = s_V s /\ s_W i = s_W s /\ s_cols i = s_cols s /\ s_reset i = false /\ s_first i = s_first s /\ s_firstWindow i = s_firstWindow s /\ s_chunk i = s_chunk s /\ s_Jold i = s_Jold s /\ s_svd i = s_svd s /\ previous c i = previous c s /\ synced (previous c i) (s_V i) (s_W i) (s_Wt i)).
  { destruct (s_reset s) eqn:R.
    - destruct (build_spec _ _ _ E L) as (E1 & E2 & E3 & E4 & E5 & E6 & E7 & E8 & E9 & E10 & E11 & E12). repeat split; assumption.
    - injection E as <-. destruct Y as [Y|Y]; [discriminate Y|]. repeat split; assumption. }
  destruct A as (AV & AW & AC & AR & AF & AFW & ACh & AJ & AS & AP & AY). bd H.
  assert (EP : p = (s_Wt i, Z)). { unfold times in E0. destruct (_ =? _); [injection E0 as <-; reflexivity|discriminate E0]. } subst p.
  destruct (negb _); [discriminate H|]. injection H as EU ET.
  split; [intros e; subst u; rewrite (lowRank_synced _ _ _ _ _ _ _ _ AY), AP, AV, AW; reflexivity|]. rewrite AF in ET.
  destruct (s_first s && (c_reused c =? 0) && negb (c_force c)); subst t; cbn [s_V s_W s_cols s_first s_firstWindow s_chunk s_Jold s_svd setWt s_reset s_Wt];
    repeat (split; [assumption|]); try (split; [exact AP|]); split; intros Q; try discriminate Q; split; try reflexivity; try assumption.
Qed.
Lemma always_spec c Z r s u t : length (s_W s) = length (s_V s) -> isAlways c = true -> computeNewtonUpdate c Z r s = Some (u, t) ->
  (forall e, u e = multivector (rowsOf c) (apply (rowsOf c) (s_Jold s)) (s_V s) (s_W s) Z (fun e => opp (r e)) e) /\
  (forall y e, apply (rowsOf c) (s_J t) y e = multivector (rowsOf c) (apply (rowsOf c) (s_Jold s)) (s_V s) (s_W s) Z y e) /\
  s_V t = s_V s /\ s_W t = s_W s /\ s_cols t = s_cols s /\ s_first t = s_first s /\ s_firstWindow t = s_firstWindow s /\ s_Jold t = s_Jold s.
Proof.
  intros L A H. unfold computeNewtonUpdate in H. bd H. destruct (build_spec _ _ _ E L) as (E1 & E2 & E3 & E4 & E5 & E6 & E7 & E8 & E9 & _ & E10 & E11). bd H.
  assert (EP : p = (s_Wt i, Z)). { unfold times in E0. destruct (_ =? _); [injection E0 as <-; reflexivity|discriminate E0]. } subst p.
  injection H as EU ET.
  assert (Q : forall y e, apply (rowsOf c) (plus (product (s_Wt i, Z)) (s_Jold i)) y e = multivector (rowsOf c) (apply (rowsOf c) (s_Jold s)) (s_V s) (s_W s) Z y e).
  { intros y e. rewrite apply_plus, apply_product. replace (apply (rowsOf c) (s_Jold s)) with (previous c i).
    - rewrite <- E1, <- E2, <- (lowRank_synced _ _ _ _ _ _ _ _ E11). unfold previous. unfold isAlways in A. destruct (c_mode c); try discriminate A. ring.
    - rewrite E10. unfold previous. unfold isAlways in A. destruct (c_mode c); try discriminate A. reflexivity. }
  subst t. cbn [s_V s_W s_cols s_first s_firstWindow s_Jold setJ s_J]. repeat split; try assumption. intros e. subst u. apply Q.
Qed.

(** * All histories *)
Record good (c : config F) (it : nat) (earlier : bool) (s : imvj F) : Prop := Good {
  g_first : s_first s = (it =? 0);
  g_window : s_firstWindow s = negb earlier;
  g_rows : isAlways c = false -> length (s_V s) <= rowsOf c;
  g_synced : isAlways c = false -> 0 < it ->
    (c_force c = true /\ s_reset s = true /\ it = 1 /\ earlier = true) \/
    (synced (previous c s) (s_V s) (s_W s) (s_Wt s) /\ (s_reset s = true -> s_V s = [] /\ it = 1));
  g_reset : isAlways c = false -> it = 0 -> earlier = true -> 0 < c_reused c \/ c_force c = true -> s_reset s = true }.

Lemma init_kept c s : s_firstWindow s && s_first s = false -> initializeMatrices c s = s.
Proof. intros E. unfold initializeMatrices. rewrite E. reflexivity. Qed.
Lemma init_empty c s : s_firstWindow s && s_first s = true ->
  let t := initializeMatrices c s in
  s_V t = [] /\ s_W t = [] /\ s_Wt t = [] /\ s_cols t = s_cols s /\ s_reset t = s_reset s /\ s_first t = s_first s /\ s_firstWindow t = s_firstWindow s /\
  (forall y e, previous c t y e = zero).
Proof.
  intros E. unfold initializeMatrices. rewrite E. unfold previous. destruct (c_mode c) as [| |[|r| |] k]; cbv zeta; repeat split; intros y e; try reflexivity;
    apply fsum_zero; intros k Hk; cbn; ring.
Qed.

Lemma good_start c : good c 0 false (start (F:=F)).
Proof. constructor; cbn; auto; try lia; try discriminate. Qed.

(** the state of a quasi-Newton step *)
Lemma prepare_spec c o s t : prepareUpdate c o s = Some t -> s_firstWindow s = true \/ s_V s <> [] ->
  applyFilter c o s = Some t.
Proof.
  unfold prepareUpdate. intros H N. bd H. enough (i = s) by (subst i; exact H). unfold restoreBackup in E. destruct (s_firstWindow s); [injection E as <-; reflexivity|].
  bd E. destruct (cols_some _ _ E0) as [L _]. destruct N as [N|N]; [discriminate N|]. destruct n as [|n]; [destruct (s_V s); [congruence|discriminate L]|].
  cbn [Nat.ltb Nat.leb andb] in E. injection E as <-. reflexivity.
Qed.
Lemma restore_spec c o s t : restoreBackup c o s = Some t -> t = s \/
  (s_V s = [] /\ c_reused c = 0 /\ c_force c = false /\ s_reset t = true /\ s_first t = s_first s /\ s_firstWindow t = s_firstWindow s /\ s_chunk t = s_chunk s /\ s_Jold t = s_Jold s /\ s_svd t = s_svd s).
Proof.
  unfold restoreBackup. destruct (s_firstWindow s) eqn:EF; [intros [= <-]; auto|]. intros H. bd H. destruct (_ && _) eqn:B; [|injection H as <-; auto]. right.
  bd H. injection H as <-. destruct (rms_spec _ _ _ _ E0) as ((K1 & K2 & K3 & K4 & K5 & K6 & K7) & _). rewrite !andb_true_iff in B. destruct B as [[B1 B2] B3].
  apply Nat.ltb_lt in B1. apply Nat.eqb_eq in B2. apply negb_true_iff in B3. destruct (cols_some _ _ E) as [L _].
  cbn [s_reset setWt s_first s_firstWindow s_chunk s_Jold s_svd] in *. cbn in K1, K2, K4, K6, K7. repeat split; try assumption; try congruence. destruct (s_V s); [reflexivity|cbn in L; lia].
Qed.

(** the state in which the update of a quasi-Newton step is computed *)
Lemma at_update c o x xt s i s1 it earlier : wf c -> good c it earlier s -> updateDifferenceMatrices c x xt (initializeMatrices c s) = Some i ->
  s_first i && (s_firstWindow i || c_force c) = false -> prepareUpdate c o i = Some s1 ->
  (it = 0 -> earlier = true /\ c_force c = false) /\ previous c s1 = previous c s /\ s_Jold s1 = s_Jold s /\
  s_first s1 = (it =? 0) /\ s_firstWindow s1 = negb earlier /\ (isAlways c = false -> 0 < it \/ 0 < c_reused c -> s_reset s1 = true \/ synced (previous c s1) (s_V s1) (s_W s1) (s_Wt s1)).
Proof.
  intros Wf [G1 G2 G3 G4 G5] E EQ E0. pose proof (ud_kept _ _ _ _ _ E) as K.
    (* the flags and the columns before the restoration *)
    assert (A0 : s_first i = (it =? 0) /\ s_firstWindow i = negb earlier /\ (it = 0 -> earlier = true /\ c_force c = false) /\ (isAlways c = false -> (0 < it -> length (s_V i) <= S (rowsOf c)))
                 /\ (isAlways c = false -> 0 < it -> (s_reset i = true /\ c_force c = true /\ earlier = true) \/ (synced (previous c i) (s_V i) (s_W i) (s_Wt i) /\ (s_reset i = true -> length (s_V i) <= 1))) /\
                 (isAlways c = false -> it = 0 -> 0 < c_reused c -> s_reset i = true) /\ (0 < it -> s_V i <> [])).
    { destruct it as [|it].
      - assert (earlier = true /\ c_force c = false) as [-> Ff].
        { cbn [Nat.eqb] in G1. destruct earlier.
          - rewrite init_kept in * by (rewrite G2; reflexivity). destruct K as (K1 & K2 & _). rewrite K1, K2, G1, G2 in EQ. cbn in EQ. auto.
          - destruct (init_empty c s) as (_ & _ & _ & _ & _ & F0 & W0 & _); [rewrite G1, G2; reflexivity|]. destruct K as (K1 & K2 & _). rewrite K1, K2, F0, W0, G1, G2 in EQ. discriminate EQ. }
        rewrite init_kept in * by (rewrite G2; reflexivity). destruct K as (K1 & K2 & K3 & _). rewrite K1, K2, K3. cbn [Nat.eqb] in *. repeat split; try assumption; try lia. auto.
      - cbn [Nat.eqb] in G1. rewrite init_kept in * by (rewrite G1, andb_false_r; reflexivity). destruct (K) as (K1 & K2 & K3 & _). destruct (ud_columns _ _ _ _ _ G1 E) as [_ C].
        cbn [Nat.eqb]. rewrite K1, K2, K3. split; [exact G1|]. split; [exact G2|]. split; [discriminate|].
        split.
        { intros A _. specialize (G3 A). destruct C as [(_ & -> & _)|(_ & _ & -> & _)]; cbn [length]; [lia|]. rewrite removelast_length. lia. }
        split; [|split; [discriminate|intros _; destruct C as [(_ & -> & _)|(_ & _ & -> & _)]; discriminate]].
        intros A _. destruct (G4 A (Nat.lt_0_succ it)) as [(B1 & B2 & _ & B3)|[B1 B2]]; [left; auto|right]. split.
        + eapply ud_synced; eauto.
        + intros R. destruct (B2 R) as [B3 _]. rewrite B3 in C. destruct C as [(_ & -> & _)|(_ & N & _)]; [cbn; lia|congruence]. }
    destruct A0 as (AF & AW & A1 & AL & AS & AR & AN).
    (* at the update *)
    assert (A2 : s_first s1 = (it =? 0) /\ s_firstWindow s1 = negb earlier /\ (isAlways c = false -> 0 < it \/ 0 < c_reused c -> s_reset s1 = true \/ synced (previous c s1) (s_V s1) (s_W s1) (s_Wt s1))).
    { unfold prepareUpdate in E0. bd E0. destruct (filter_spec _ _ _ _ E0) as ((K1 & K2 & K3 & _) & _ & _ & SY). rewrite K1, K2, K3.
      destruct (restore_spec _ _ _ _ E1) as [->|(V0 & R0 & F0 & R1 & F1 & W1 & _)].
      - repeat split; try assumption. intros A [Hit|Hr].
        + destruct (AS A Hit) as [(R & _)|(Y & R)]; [auto|]. destruct (s_reset i) eqn:ER; [auto|right]. apply SY; auto.
        + destruct it as [|it]; [left; auto|]. destruct (AS A (Nat.lt_0_succ it)) as [(R & _)|(Y & R)]; [auto|]. destruct (s_reset i) eqn:ER; [auto|right]. apply SY; auto.
      - rewrite F1, W1. repeat split; try assumption. auto. }
    split; [exact A1|]. 
    assert (A3 : previous c s1 = previous c s /\ s_Jold s1 = s_Jold s).
    { unfold prepareUpdate in E0. bd E0. destruct (filter_spec _ _ _ _ E0) as ((_ & _ & _ & K4 & _ & K6 & _) & _).
      assert (K0 : s_Jold i = s_Jold s /\ s_chunk i = s_chunk s).
      { assert (s_firstWindow s && s_first s = false). { rewrite G1, G2. destruct it; [destruct (A1 eq_refl) as [-> _]; reflexivity|apply andb_false_r]. }
        rewrite init_kept in K by assumption. destruct K as (_ & _ & _ & -> & _ & -> & _). auto. }
      destruct K0 as [K01 K02]. assert (K1 : s_Jold i0 = s_Jold i /\ s_chunk i0 = s_chunk i) by (destruct (restore_spec _ _ _ _ E1) as [->|(_ & _ & _ & _ & _ & _ & C1 & C2 & _)]; auto).
      destruct K1 as [K11 K12]. unfold previous. split; [|congruence]. replace (s_Jold s1) with (s_Jold s) by congruence. replace (s_chunk s1) with (s_chunk s) by congruence. reflexivity. }
    destruct A3 as [A31 A32]. split; [exact A31|]. split; [exact A32|]. exact A2.
Qed.

(** a step that is not a relaxation, without always-build-jacobian *)
Lemma perform_good c o x xt s x' s' it earlier : wf c -> good c it earlier s -> performAcceleration c o x xt s = Some (x', s') -> good c (S it) earlier s'.
Proof.
  intros Wf G0 H. pose proof G0 as [G1 G2 G3 G4 G5]. unfold performAcceleration in H. bd H. pose proof (ud_kept _ _ _ _ _ E) as K.
  destruct (s_first i && (s_firstWindow i || c_force c)) eqn:EQ.
  - injection H as _ <-. assert (Hit : it = 0).
    { destruct K as (K & _). rewrite K in EQ. apply andb_true_iff in EQ. destruct EQ as [EQ _]. unfold initializeMatrices in EQ. destruct (s_firstWindow s && s_first s) eqn:B.
      - apply andb_true_iff in B. destruct B as [_ B]. rewrite G1 in B. apply Nat.eqb_eq, B.
      - rewrite G1 in EQ. apply Nat.eqb_eq, EQ. }
    subst it. rewrite Nat.eqb_refl in G1.
    assert (W' : s_firstWindow i = negb earlier).
    { destruct K as (_ & -> & _). destruct earlier.
      - rewrite init_kept; [exact G2|]. rewrite G2. reflexivity.
      - destruct (init_empty c s) as (_ & _ & _ & _ & _ & _ & W0 & _); [rewrite G1, G2; reflexivity|]. rewrite W0. exact G2. }
    constructor; cbn [s_first s_firstWindow setFirst setOld s_V s_W s_Wt s_reset].
    + reflexivity.
    + exact W'.
    + intros A. destruct earlier.
      * rewrite init_kept in E by (rewrite G2; reflexivity). destruct (ud_first _ _ _ _ _ G1 E) as (-> & _). auto.
      * destruct (init_empty c s) as (V0 & _ & _ & _ & _ & F0 & _); [rewrite G1, G2; reflexivity|]. destruct (ud_first c x xt _ _ (eq_trans F0 G1) E) as (-> & _). rewrite V0. cbn; lia.
    + intros A _. destruct earlier.
      * rewrite init_kept in E by (rewrite G2; reflexivity). destruct K as (_ & K2 & K3 & _). rewrite init_kept in K2, K3 by (rewrite G2; reflexivity). left.
        rewrite K2, G2 in EQ. cbn [negb orb] in EQ. apply andb_true_iff in EQ. destruct EQ as [_ EQ]. rewrite K3. auto.
      * right. destruct (init_empty c s) as (V0 & W0 & T0 & _ & _ & F0 & _ & P0); [rewrite G1, G2; reflexivity|]. destruct (ud_first c x xt _ _ (eq_trans F0 G1) E) as (-> & -> & -> & _).
        rewrite V0, W0, T0. split; [constructor|auto].
    + discriminate.
  - bd H. bd H. destruct p as [u s2]. bd H. injection H as _ <-. rename i0 into s1. rename i1 into s3.
    destruct (at_update _ _ _ _ _ _ _ _ _ Wf G0 E EQ E0) as (A1 & _ & _ & A2).
    destruct A2 as (BF & BW & BS). unfold computeQNUpdate in E1. bd E1. destruct (pinv_spec _ _ _ _ E3) as (EZ & LZ & LW & LV).
    destruct (isAlways c) eqn:A.
    + destruct (always_spec _ _ _ _ _ _ LW A E1) as (_ & _ & D1 & D2 & D3 & D4 & D5 & D6).
      assert (D7 : s_first s3 = s_first s2 /\ s_firstWindow s3 = s_firstWindow s2).
      { unfold pendingDeletion in E2. destruct (s_first s2 && (c_reused c =? 0) && negb (c_force c)); [|injection E2 as <-; auto]. bd E2. injection E2 as <-. cbv zeta. destruct (0 <? _); cbn [s_firstWindow setBackup]; destruct (s_firstWindow s2) eqn:EW; cbn; auto. }
      destruct D7 as [_ D7]. constructor; cbn [s_first s_firstWindow setFirst]; intros; try congruence. reflexivity.
    + assert (CASE : s_first s1 && (c_reused c =? 0) && negb (c_force c) = true \/ (s_first s1 && (c_reused c =? 0) && negb (c_force c) = false /\ (0 < it \/ 0 < c_reused c))).
      { destruct (s_first s1 && (c_reused c =? 0) && negb (c_force c)) eqn:Q; [auto|right]. split; [reflexivity|]. rewrite BF in Q. destruct it as [|it]; [|lia].
        destruct (A1 eq_refl) as [_ Ff]. rewrite Ff in Q. cbn [Nat.eqb andb negb] in Q. rewrite andb_true_r in Q. apply Nat.eqb_neq in Q. lia. }
      destruct CASE as [CASE|[CASE Cond]].
      * (* first iteration without reused windows *)
        assert (P2 : s_first s2 = s_first s1 /\ s_firstWindow s2 = s_firstWindow s1 /\ s_Wt s2 = [] /\ s_reset s2 = true).
        { unfold computeNewtonUpdateEfficient in E1. bd E1. assert (Q : s_first i0 = s_first s1 /\ s_firstWindow i0 = s_firstWindow s1).
          { destruct (s_reset s1); [|injection E4 as <-; auto]. destruct (build_spec _ _ _ E4 LW) as (_ & _ & _ & Q1 & Q2 & _). auto. }
          destruct Q as [Q1 Q2]. bd E1. destruct (consistent c i0); cbn [negb] in E1; [|discriminate E1]. rewrite Q1, CASE in E1. injection E1 as _ <-. cbn. auto. }
        destruct P2 as (P21 & P22 & P23 & P24). rewrite <- P21 in CASE. unfold pendingDeletion in E2. rewrite CASE in E2. bd E2. injection E2 as E2.
        assert (Hit : it = 0) by (rewrite P21, BF in CASE; destruct it; [reflexivity|discriminate CASE]). subst it. destruct (A1 eq_refl) as [-> Ff]. rewrite BW in P22. cbn [negb] in P22.
        assert (N : s_firstWindow s3 = false /\ s_V s3 = [] /\ s_W s3 = [] /\ s_Wt s3 = [] /\ s_reset s3 = true).
        { subst s3. destruct (0 <? n); cbn; rewrite P22; cbn; auto. }
        destruct N as (N1 & N2 & N3 & N4 & N5). constructor; cbn [s_first s_firstWindow setFirst s_V s_W s_Wt s_reset]; auto.
        -- intros _. rewrite N2. cbn; lia.
        -- intros _ _. right. rewrite N2, N3, N4. split; [constructor|auto].
      * specialize (BS eq_refl Cond). destruct (efficient_spec _ _ _ _ _ _ LW BS E1) as (_ & D1 & D2 & _ & D4 & D5 & _ & _ & _ & _ & D9 & _). destruct (D9 CASE) as [D10 D11].
        unfold pendingDeletion in E2. rewrite D4, CASE in E2. injection E2 as <-. constructor; cbn [s_first s_firstWindow setFirst s_V s_W s_Wt s_reset].
        -- reflexivity.
        -- congruence.
        -- intros _. rewrite D1. exact LV.
        -- intros _ _. right. split; [exact D11|]. rewrite D10. discriminate.
        -- discriminate.
Qed.

(** the new values of a quasi-Newton step *)
Lemma perform_update c o x xt s x' s' it earlier : wf c -> good c it earlier s -> isAlways c = false ->
  0 < it \/ (earlier = true /\ c_force c = false /\ 0 < c_reused c) ->
  performAcceleration c o x xt s = Some (x', s') ->
  length (o_Z o) = length (s_V s') /\ length (s_W s') = length (s_V s') /\
  forall e, x' e = add (xt e) (multivector (rowsOf c) (previous c s) (s_V s') (s_W s') (o_Z o) (fun k => opp (residual c x xt k)) e).
Proof.
  intros Wf G A Cond H. unfold performAcceleration in H. bd H. pose proof (ud_kept _ _ _ _ _ E) as K. pose proof G as [G1 G2 G3 G4 G5].
  destruct (s_first i && (s_firstWindow i || c_force c)) eqn:EQ.
  - exfalso. rewrite init_kept in * by (rewrite G1, G2; destruct Cond as [C|(-> & _)]; [destruct it; [lia|apply andb_false_r]|reflexivity]). destruct K as (K1 & K2 & _). rewrite K1, K2, G1, G2 in EQ.
    destruct Cond as [C|(Ce & Cf & _)]; [destruct it; [lia|discriminate EQ]|]. rewrite Ce, Cf in EQ. cbn [negb orb] in EQ. rewrite andb_false_r in EQ. discriminate EQ.
  - bd H. bd H. destruct p as [u s2]. bd H. injection H as EX <-. rename i0 into s1. rename i1 into s3.
    destruct (at_update _ _ _ _ _ _ _ _ _ Wf G E EQ E0) as (A1 & AP & _ & BF & BW & BS).
    unfold computeQNUpdate in E1. rewrite A in E1. bd E1. destruct (pinv_spec _ _ _ _ E3) as (EZ & LZ & LW & LV).
    assert (Cond' : 0 < it \/ 0 < c_reused c) by tauto. specialize (BS A Cond').
    destruct (efficient_spec _ _ _ _ _ _ LW BS E1) as (DU & D1 & D2 & _ & D4 & _).
    assert (CASE : s_first s2 && (c_reused c =? 0) && negb (c_force c) = false).
    { rewrite D4, BF. destruct Cond as [C|(_ & _ & C)]; [destruct it; [lia|reflexivity]|]. destruct (c_reused c); [lia|]. rewrite andb_false_r. reflexivity. }
    unfold pendingDeletion in E2. rewrite CASE in E2. injection E2 as <-. cbn [s_V s_W setFirst]. rewrite D1, D2, <- EZ. split; [exact LZ|]. split; [exact LW|].
    intros e. subst x'. rewrite DU, AP. reflexivity.
Qed.
Lemma perform_always c o x xt s x' s' it earlier : wf c -> good c it earlier s -> isAlways c = true ->
  0 < it \/ (earlier = true /\ c_force c = false) -> performAcceleration c o x xt s = Some (x', s') ->
  exists V W, length (o_Z o) = length V /\ length W = length V /\
  (0 < it \/ 0 < c_reused c -> V = s_V s' /\ W = s_W s') /\
  (it = 0 -> c_reused c = 0 -> 0 < length V -> V = s_VBackup s' /\ W = s_WBackup s') /\
  (forall e, x' e = add (xt e) (multivector (rowsOf c) (previous c s) V W (o_Z o) (fun k => opp (residual c x xt k)) e)) /\
  (forall y e, apply (rowsOf c) (s_J s') y e = multivector (rowsOf c) (previous c s) V W (o_Z o) y e) /\ s_Jold s' = s_Jold s.
Proof.
  intros Wf G A Cond H. unfold performAcceleration in H. bd H. pose proof (ud_kept _ _ _ _ _ E) as K. pose proof G as [G1 G2 G3 G4 G5].
  destruct (s_first i && (s_firstWindow i || c_force c)) eqn:EQ.
  - exfalso. rewrite init_kept in * by (rewrite G1, G2; destruct Cond as [C|(-> & _)]; [destruct it; [lia|apply andb_false_r]|reflexivity]). destruct K as (K1 & K2 & _). rewrite K1, K2, G1, G2 in EQ.
    destruct Cond as [C|(Ce & Cf)]; [destruct it; [lia|discriminate EQ]|]. rewrite Ce, Cf in EQ. cbn [negb orb] in EQ. rewrite andb_false_r in EQ. discriminate EQ.
  - bd H. bd H. destruct p as [u s2]. bd H. injection H as EX <-. rename i0 into s1. rename i1 into s3.
    destruct (at_update _ _ _ _ _ _ _ _ _ Wf G E EQ E0) as (A1 & AP & AJ & BF & BW & _).
    unfold computeQNUpdate in E1. rewrite A in E1. bd E1. destruct (pinv_spec _ _ _ _ E3) as (EZ & LZ & LW & LV).
    destruct (always_spec _ _ _ _ _ _ LW A E1) as (DU & DJ & D1 & D2 & D3 & D4 & D5 & D6). exists (s_V s1), (s_W s1). rewrite <- EZ.
    assert (PA : previous c s = apply (rowsOf c) (s_Jold s)) by (unfold previous, isAlways in *; destruct (c_mode c); try discriminate A; reflexivity).
    assert (EJ : s_J s3 = s_J s2 /\ s_Jold s3 = s_Jold s2).
    { unfold pendingDeletion in E2. destruct (s_first s2 && (c_reused c =? 0) && negb (c_force c)); [|injection E2 as <-; auto]. bd E2. injection E2 as <-. cbv zeta. destruct (0 <? _); cbn [s_firstWindow setBackup]; destruct (s_firstWindow s2) eqn:EW; cbn; auto. }
    destruct EJ as [EJ EJ']. split; [exact LZ|]. split; [exact LW|]. split; [|split].
    + intros C. assert (CASE : s_first s2 && (c_reused c =? 0) && negb (c_force c) = false).
      { rewrite D4, BF. destruct C as [C|C]; [destruct it; [lia|reflexivity]|]. destruct (c_reused c); [lia|]. rewrite andb_false_r. reflexivity. }
      unfold pendingDeletion in E2. rewrite CASE in E2. injection E2 as <-. cbn [s_V s_W setFirst]. auto.
    + intros Hit Hr HV. destruct (A1 Hit) as [Ee Ff]. assert (CASE : s_first s2 && (c_reused c =? 0) && negb (c_force c) = true) by (rewrite D4, BF, Hit, Hr, Ff; reflexivity).
      unfold pendingDeletion in E2. rewrite CASE in E2. bd E2. injection E2 as <-. destruct (cols_some _ _ E4) as [LN _]. rewrite D1 in LN. rewrite <- LN. apply Nat.ltb_lt in HV. rewrite HV. cbv zeta. cbn [s_firstWindow setBackup].
      destruct (s_firstWindow s2); cbn; auto.
    + split; [|split].
      * intros e. subst x'. rewrite DU, AJ, PA. reflexivity.
      * intros y e. cbn [s_J setFirst]. rewrite EJ, DJ, AJ, PA. reflexivity.
      * cbn [s_Jold setFirst]. congruence.
Qed.

(** ** The end of a window *)
Lemma truncate_kept c s t : truncateLS c s = Some t -> kept s t /\ s_V t = s_V s /\ s_W t = s_W s /\ s_Wt t = s_Wt s.
Proof.
  unfold truncateLS. destruct (c_mode c) as [| |[|r| |] k]; try (intros [= <-]; repeat split). intros H. bd H. bd H. injection H as <-.
  assert (K : kept s i /\ s_V i = s_V s /\ s_W i = s_W s /\ s_Wt i = s_Wt s); [|exact K].
  destruct (r =? 0); [injection E0 as <-; repeat split|]. destruct (r <? length l); [|injection E0 as <-; repeat split]. destruct (_ || _); [discriminate E0|]. bd E0. bd E0. injection E0 as <-. repeat split.
Qed.
Lemma removeLS_kept i s t : removeLS i s = Some t -> kept s t /\ s_V t = s_V s /\ s_W t = s_W s /\ s_Wt t = s_Wt s.
Proof. unfold removeLS. destruct (_ <=? 1); [discriminate|]. intros H. bd H. bd H. injection H as <-. repeat split. Qed.
Definition frame s t := s_first t = s_first s /\ s_firstWindow t = s_firstWindow s /\ s_reset t = s_reset s /\ s_Jold t = s_Jold s /\ s_J t = s_J s /\ s_V t = s_V s /\ s_W t = s_W s /\ s_Wt t = s_Wt s /\ s_cols t = s_cols s.
Lemma frame_trans s t u : frame s t -> frame t u -> frame s u.
Proof. unfold frame. intros A B. decompose [and] A. decompose [and] B. repeat split; congruence. Qed.
Lemma removeLS_frame i s t : removeLS i s = Some t -> frame s t.
Proof. unfold removeLS. destruct (_ <=? 1); [discriminate|]. intros H. bd H. bd H. injection H as <-. repeat split. Qed.
Lemma removeLSs_frame is : forall s t, removeLSs is s = Some t -> frame s t.
Proof. induction is as [|i is IH]; intros s t H; cbn [removeLSs] in H; [injection H as <-; repeat split|]. bd H. eapply frame_trans; [eapply removeLS_frame; eassumption|auto]. Qed.
Lemma notTooSquare_frame rows fuel : forall s t, notTooSquare rows fuel s = Some t -> frame s t.
Proof.
  induction fuel as [|f IH]; intros s t H; cbn [notTooSquare] in H; destruct (rows <=? _); try discriminate H; try (injection H as <-; repeat split).
  bd H. eapply frame_trans; [eapply removeLS_frame; eassumption|auto].
Qed.
Lemma restart_frame c o k s t : restartIMVJ c o k s = Some t -> frame s t.
Proof.
  unfold restartIMVJ. destruct k as [|r| |].
  - intros [= <-]. repeat split.
  - unfold restartLS. intros H. cbv zeta in H. destruct (_ =? 0); [injection H as <-; repeat split|]. bd H. bd H. destruct (_ =? _); [|discriminate H]. injection H as <-.
    apply notTooSquare_frame in E. apply removeLSs_frame in E0. apply (frame_trans _ _ _ E) in E0. exact E0.
  - destruct (forallb _ _); [|discriminate]. unfold restartSVD. destruct (o_svd o). intros [= <-]. repeat split.
  - intros H. bd H. injection H as <-. repeat split.
Qed.
Lemma store_frame c o s t : storeWindow c o s = Some t ->
  s_first t = s_first s /\ s_firstWindow t = s_firstWindow s /\ s_V t = s_V s /\ s_W t = s_W s /\ s_cols t = s_cols s /\ length (s_V s) <= rowsOf c.
Proof.
  unfold storeWindow. intros H. bd H. destruct (pinv_spec _ _ _ _ E) as (_ & _ & LW & LV).
  assert (J : forall Z, buildJacobian c Z s = Some t -> s_first t = s_first s /\ s_firstWindow t = s_firstWindow s /\ s_V t = s_V s /\ s_W t = s_W s /\ s_cols t = s_cols s).
  { intros Z0 J. unfold buildJacobian in J. bd J. bd J. injection J as <-. destruct (s_reset s); [|injection E0 as <-; auto].
    destruct (build_spec _ _ _ E0 LW) as (? & ? & _ & ? & ? & _ & _ & _ & ? & _). cbn. auto. }
  destruct (c_mode c) as [| |k size]; [destruct (J _ H) as (? & ? & ? & ? & ?); auto 6|destruct (J _ H) as (? & ? & ? & ? & ?); auto 6|].
  cbv zeta in H. destruct (size + 1 <=? _); [|injection H as <-; repeat split; exact LV].
  destruct (restart_frame _ _ _ _ _ H) as (? & ? & _ & _ & _ & ? & ? & _ & ?). cbn in *. repeat split; assumption.
Qed.
Lemma dropBack_length n : forall V V', dropBack (F:=F) n V = Some V' -> length V' <= length V.
Proof. induction n as [|n IH]; intros V V' H; cbn [dropBack] in H; [injection H as <-; lia|]. bd H. pose proof (remove_length _ _ _ E). apply IH in H. lia. Qed.
Lemma drop_frame c s t : dropOldWindows c s = Some t -> kept s t /\ s_Wt t = s_Wt s /\ length (s_V t) <= length (s_V s) /\
  (c_reused c = 0 -> c_force c = false -> t = s).
Proof.
  unfold dropOldWindows. destruct (c_reused c =? 0) eqn:R.
  - destruct (c_force c); intros [= <-]; (split; [repeat split|]); (split; [reflexivity|]); split; cbn; try lia; try reflexivity; intros _; discriminate.
  - apply Nat.eqb_neq in R. destruct (_ <? _); [|intros [= <-]; split; [repeat split|]; split; [reflexivity|]; split; [lia|reflexivity]].
    cbv zeta. destruct (_ =? 0); [discriminate|]. intros H. bd H. destruct (n <=? _); [discriminate H|]. bd H. bd H. injection H as <-. apply dropBack_length in E0.
    split; [repeat split|]. split; [reflexivity|]. split; [exact E0|]. intros; contradiction.
Qed.

Lemma lastDiff_kept c x xt s t : lastDifferences c x xt s = Some t -> exists t0, updateDifferenceMatrices c x xt (initializeMatrices c s) = Some t0 /\ kept t0 t /\ s_V t = s_V t0 /\ s_W t = s_W t0 /\ s_Wt t = s_Wt t0.
Proof. unfold lastDifferences. intros H. bd H. bd H. injection H as <-. exists i. repeat split. Qed.
Lemma prepareStore_kept c o s t : prepareStore c o s = Some t -> kept s t.
Proof.
  unfold prepareStore. intros H. bd H. apply truncate_kept in E. destruct E as (K & _). destruct (isAlways c); [injection H as <-; exact K|].
  apply filter_spec in H. destruct H as (K' & _). eapply kept_trans; eassumption.
Qed.

Lemma converged_good c o x xt s s' it earlier : good c it earlier s -> iterationsConverged c o x xt s = Some s' -> good c 0 (earlier || (0 <? it)) s'.
Proof.
  intros [G1 G2 G3 G4 G5] H. unfold iterationsConverged in H. bd H. bd H. bd H. injection H as <-.
  destruct (lastDiff_kept _ _ _ _ _ E) as (t0 & U & K1 & _). pose proof (ud_kept _ _ _ _ _ U) as K0. pose proof (kept_trans _ _ _ K0 K1) as K.
  assert (KI : s_first i = (it =? 0) /\ s_firstWindow i = negb earlier).
  { destruct K as (-> & -> & _). destruct (s_firstWindow s && s_first s) eqn:B; [destruct (init_empty c s B) as (_ & _ & _ & _ & _ & -> & -> & _); auto|rewrite init_kept by exact B; auto]. }
  destruct KI as [KF KW].
  unfold specializedIterationsConverged in E0. bd E0. pose proof (prepareStore_kept _ _ _ _ E2) as (P1 & P2 & _). bd E0. injection E0 as <-.
  destruct (drop_frame _ _ _ E1) as ((D1 & D2 & D3 & _) & DT & DL & _).
  assert (Q : s_first i3 = s_first i2 /\ s_firstWindow i3 = s_firstWindow i2 /\ (isAlways c = false -> length (s_V i3) <= rowsOf c /\ (0 < c_reused c \/ c_force c = true -> s_reset i3 = true))).
  { destruct (isAlways c); [injection E3 as <-; repeat split; discriminate|]. bd E3. destruct (store_frame _ _ _ _ E0) as (Q1 & Q2 & Q3 & _ & _ & Q4). injection E3 as E3.
    assert (s_first i3 = s_first i0 /\ s_firstWindow i3 = s_firstWindow i0 /\ s_V i3 = s_V i0) by (subst i3; destruct (_ || _); auto).
    assert (0 < c_reused c \/ c_force c = true -> s_reset i3 = true).
    { intros [C|C]; subst i3; [apply Nat.ltb_lt in C; rewrite C; reflexivity|]. rewrite C, orb_true_r. reflexivity. }
    destruct H as (-> & -> & ->). split; [congruence|]. split; [congruence|]. intros _. split; [rewrite Q3; exact Q4|assumption]. }
  destruct Q as (Q1 & Q2 & Q3).
  assert (M : s_first (match c_mode c with Chunks _ _ => i3 | _ => setJ i3 (s_J i3) (s_J i3) end) = s_first i3 /\ s_firstWindow (match c_mode c with Chunks _ _ => i3 | _ => setJ i3 (s_J i3) (s_J i3) end) = s_firstWindow i3 /\ s_V (match c_mode c with Chunks _ _ => i3 | _ => setJ i3 (s_J i3) (s_J i3) end) = s_V i3 /\ s_reset (match c_mode c with Chunks _ _ => i3 | _ => setJ i3 (s_J i3) (s_J i3) end) = s_reset i3) by (destruct (c_mode c); auto).
  destruct M as (M1 & M2 & M3 & M4). cbn [setFirst s_firstWindow s_reset s_V] in D2, D3, DL. rewrite M1, M2 in D2. rewrite M4 in D3. rewrite M3 in DL.
  constructor; cbn [s_first s_firstWindow s_V s_reset setFirst setMatrices].
  - reflexivity.
  - rewrite D2, Q1, Q2, P1, P2, KF, KW. destruct it; [rewrite orb_false_r, andb_true_r; reflexivity|]. rewrite orb_true_r, andb_false_r. reflexivity.
  - intros A. destruct (Q3 A) as [Q4 _]. lia.
  - intros _ C. lia.
  - intros A _ _ C. destruct (Q3 A) as [_ Q4]. rewrite D3. auto.
Qed.

(** the state in which a window with more than one iteration is stored *)
Lemma at_store c o x xt s t1 t it earlier : wf c -> good c it earlier s -> isAlways c = false -> 0 < it ->
  lastDifferences c x xt s = Some t1 -> prepareStore c o t1 = Some t ->
  previous c t = previous c s /\ s_reset t = s_reset s /\ s_chunk t = s_chunk s /\ s_Jold t = s_Jold s /\ s_svd t = s_svd s /\
  ((c_force c = true /\ s_reset s = true /\ it = 1 /\ earlier = true) \/ synced (previous c t) (s_V t) (s_W t) (s_Wt t)).
Proof.
  intros Wf [G1 G2 G3 G4 G5] A Hit L H. destruct (lastDiff_kept _ _ _ _ _ L) as (t0 & U & K1 & KV & KW & KT).
  assert (Fs : s_first s = false) by (rewrite G1; destruct it; [lia|reflexivity]). rewrite init_kept in U by (rewrite Fs, andb_false_r; reflexivity).
  pose proof (ud_kept _ _ _ _ _ U) as K0. pose proof (prepareStore_kept _ _ _ _ H) as K2. pose proof (kept_trans _ _ _ (kept_trans _ _ _ K0 K1) K2) as K.
  split; [apply kept_previous, K|]. destruct K as (_ & _ & KR & KJ & _ & KC & KS). repeat (split; [assumption|]).
  destruct (G4 A Hit) as [B|[Y R]]; [left; exact B|right].
  assert (Y0 : synced (previous c t0) (s_V t0) (s_W t0) (s_Wt t0)) by (eapply ud_synced; eauto).
  unfold prepareStore in H. bd H. rewrite A in H. destruct (truncate_kept _ _ _ E) as (K3 & TV & TW & TT). destruct (filter_spec _ _ _ _ H) as (_ & F1 & _ & FY).
  assert (Yi : synced (previous c i) (s_V i) (s_W i) (s_Wt i)).
  { rewrite TV, TW, TT, KV, KW, KT. rewrite (kept_previous c t0 i) by (eapply kept_trans; eassumption). exact Y0. }
  destruct (s_reset i) eqn:RI; [|apply FY; auto]. rewrite F1; [exact Yi|].
  assert (RS : s_reset s = true). { destruct K0 as (_ & _ & K0 & _), K1 as (_ & _ & K1 & _), K3 as (_ & _ & K3 & _). congruence. }
  destruct (R RS) as [V0 _]. destruct (ud_columns _ _ _ _ _ Fs U) as [_ C]. rewrite V0 in C. rewrite TV, KV. destruct C as [(_ & -> & _)|(_ & N & _)]; [cbn; lia|congruence].
Qed.
Lemma converged_spec c o x xt s s' it earlier : wf c -> good c it earlier s -> isAlways c = false -> 0 < it ->
  c_mode c = Efficient \/ c_force c = false \/ 2 <= it -> room c s -> iterationsConverged c o x xt s = Some s' ->
  exists t1 t, lastDifferences c x xt s = Some t1 /\ prepareStore c o t1 = Some t /\ length (o_Z o) = length (s_V t) /\ length (s_W t) = length (s_V t) /\
    (forall y e, previous c s' y e = multivector (rowsOf c) (previous c s) (s_V t) (s_W t) (o_Z o) y e) /\
    (c_reused c = 0 -> c_force c = false -> s_V s' = s_V t /\ s_W s' = s_W t /\ synced (previous c s) (s_V s') (s_W s') (s_Wt s') /\ (s_reset s' = true -> s_reset t = true /\ exists k n, c_mode c = Chunks k n)).
Proof.
  intros Wf G A Hit Cond Room H. unfold iterationsConverged in H. bd H. bd H. bd H. injection H as <-. rename i into t1.
  unfold specializedIterationsConverged in E0. bd E0. rename i into t. destruct (at_store _ _ _ _ _ _ _ _ _ Wf G A Hit E E2) as (AP & AR & AC & AJ & AS & AY).
  exists t1, t. split; [reflexivity|]. split; [exact E2|]. bd E0. injection E0 as <-. rewrite A in E3. bd E3.
  unfold storeWindow in E0. bd E0. destruct (pinv_spec _ _ _ _ E4) as (EZ & LZ & LW & LV). rewrite <- EZ. split; [exact LZ|]. split; [exact LW|].
  destruct (drop_frame _ _ _ E1) as ((D1 & D2 & D3 & D4 & D5 & D6 & D7) & DT & DL & DK). injection E3 as E3.
  destruct (c_mode c) as [| |k size] eqn:M; [unfold isAlways in A; rewrite M in A; discriminate A| |].
  - (* explicit Jacobian *)
    unfold buildJacobian in E0. bd E0. bd E0. injection E0 as <-.
    assert (Y : synced (previous c i2) (s_V i2) (s_W i2) (s_Wt i2) /\ previous c i2 = previous c s /\ s_V i2 = s_V t /\ s_W i2 = s_W t /\ s_Jold i2 = s_Jold s /\ s_reset i2 = false).
    { destruct (s_reset t) eqn:R.
      - destruct (build_spec _ _ _ E5 LW) as (? & ? & ? & _ & _ & _ & ? & _ & _ & _ & P & Y). repeat split; try assumption; congruence.
      - injection E5 as <-. destruct AY as [(_ & B & _)|Y]; [congruence|]. repeat split; try assumption; congruence. }
    destruct Y as (Y & YP & YV & YW & YJ & YR).
    assert (EP : p = (s_Wt i2, l)). { unfold times in E6. destruct (_ =? _); [injection E6 as <-; reflexivity|discriminate E6]. } subst p.
    split.
    + intros y e. unfold previous at 1. rewrite M. cbn [s_Jold setFirst setMatrices]. rewrite D4. subst i. cbn [setFirst s_Jold].
      transitivity (apply (rowsOf c) (plus (product (s_Wt i2, l)) (s_Jold i2)) y e); [destruct (_ || _); reflexivity|].
      rewrite apply_plus, apply_product, <- YV, <- YW, <- YP, <- (lowRank_synced _ _ _ _ _ _ _ _ Y). unfold previous. rewrite M. ring.
    + intros R0 F0. specialize (DK R0 F0). subst i1. subst i. rewrite R0, F0. cbn [Nat.ltb Nat.leb orb]. cbn. repeat split; try assumption.
      * rewrite YP in Y. exact Y.
      * congruence.
      * congruence.
  - (* chunks *)
    cbv zeta in E0. cbn [s_chunk setChunk] in E0. rewrite app_length, AC in E0. cbn [length] in E0. unfold room in Room. rewrite M in Room.
    replace (size + 1 <=? length (s_chunk s) + 1) with false in E0 by (symmetry; apply Nat.leb_gt; lia). injection E0 as <-.
    assert (Y : synced (previous c t) (s_V t) (s_W t) (s_Wt t)).
    { destruct AY as [(B1 & _ & B2 & _)|Y]; [|exact Y]. destruct Cond as [Cond|[Cond|Cond]]; [discriminate Cond|congruence|lia]. }
    split.
    + intros y e. unfold previous at 1. rewrite M. cbn [s_chunk setFirst setMatrices]. rewrite D6. subst i. cbn [setFirst s_chunk].
      transitivity (chunkApply (rowsOf c) (s_chunk s ++ [(s_Wt t, l)]) y e); [destruct (_ || _); cbn [s_chunk setChunk setWt setMatrices setFirst]; rewrite ?AC; reflexivity|].
      rewrite chunk_app. cbn [chunkApply]. rewrite <- AP, <- (lowRank_synced _ _ _ _ _ _ _ _ Y). unfold previous. rewrite M. rewrite ?AC. ring.
    + intros R0 F0. specialize (DK R0 F0). subst i1. subst i. rewrite R0, F0. cbn [Nat.ltb Nat.leb orb]. cbn. split; [reflexivity|]. split; [reflexivity|].
      split; [rewrite <- AP; exact Y|]. intros R. split; [exact R|]. exists k, size. reflexivity.
Qed.
Lemma run_good c evs : wf c -> forall it earlier s s', good c it earlier s -> run c evs s = Some s' ->
  good c (fst (phaseFrom it earlier evs)) (snd (phaseFrom it earlier evs)) s'.
Proof.
  intros Wf. induction evs as [|[o x xt|o x xt] evs IH]; intros it earlier s s' G H; cbn [run] in H.
  - injection H as <-. exact G.
  - bd H. cbn [phaseFrom]. eapply IH; [|exact H]. cbn [step] in E. destruct (performAcceleration c o x xt s) as [[x' s1]|] eqn:P; [|discriminate E]. injection E as <-. eapply perform_good; eassumption.
  - bd H. cbn [phaseFrom]. eapply IH; [|exact H]. eapply converged_good; eassumption.
Qed.

(** ** Where the columns come from *)
Definition old s := (s_oldR s, s_oldXt s).
Lemma ud_old c x xt s t : s_first s && (s_firstWindow s || c_force c) = false -> updateDifferenceMatrices c x xt s = Some t -> old t = (residual c x xt, xt).
Proof.
  intros B H. unfold updateDifferenceMatrices in H. bd H.
  assert (O : old i = (residual c x xt, xt)).
  { unfold updateBase in E. rewrite B in E. destruct (s_first s); [injection E as <-; reflexivity|]. bd E. destruct (negb (n <=? _)); [discriminate E|]. bd E.
    destruct (negb _ && _); [injection E as <-; reflexivity|]. bd E. bd E. bd E. injection E as <-. reflexivity. }
  destruct (isAlways c || _); [injection H as <-; exact O|]. destruct (s_V i); [discriminate H|]. destruct (s_W i); [discriminate H|]. destruct (negb _); [discriminate H|]. bd H.
  assert (O' : old i0 = old i). { unfold storeLS in E0. destruct (c_mode c) as [| |[|rr| |] kk]; try (injection E0 as <-; reflexivity). bd E0. injection E0 as <-. reflexivity. }
  rewrite <- O, <- O'. destruct (negb _ && _); [injection H as <-; reflexivity|]. bd H. injection H as <-. reflexivity.
Qed.
Lemma rms_old c is : forall s t, removeMatrixColumns c is s = Some t -> old t = old s.
Proof.
  induction is as [|i is IH]; intros s t H; cbn [removeMatrixColumns] in H; [injection H as <-; reflexivity|]. bd H. rewrite (IH _ _ H).
  unfold removeMatrixColumn in E. destruct (_ || _); [discriminate E|]. bd E. bd E. bd E. injection E as <-. reflexivity.
Qed.
Lemma filter_old c o s t : applyFilter c o s = Some t -> old t = old s.
Proof. unfold applyFilter. destruct (_ && _); [discriminate|]. apply rms_old. Qed.
Lemma restore_old c o s t : restoreBackup c o s = Some t -> old t = old s.
Proof.
  unfold restoreBackup. destruct (s_firstWindow s); [intros [= <-]; reflexivity|]. intros H. bd H. destruct (_ && _); [|injection H as <-; reflexivity].
  bd H. injection H as <-. apply rms_old in E0. exact E0.
Qed.
Lemma build_old c s t : buildWtil c s = Some t -> old t = old s.
Proof. unfold buildWtil. destruct (consistent c s); [|discriminate]. intros [= <-]. reflexivity. Qed.
Lemma perform_old c o x xt s x' t : performAcceleration c o x xt s = Some (x', t) -> s_first t = false /\ old t = (residual c x xt, xt).
Proof.
  intros H. unfold performAcceleration in H. bd H. destruct (ud_kept _ _ _ _ _ E) as (K1 & K2 & _). rewrite K1, K2 in H.
  destruct (s_first (initializeMatrices c s) && (s_firstWindow (initializeMatrices c s) || c_force c)) eqn:EQ; [injection H as _ <-; auto|].
  pose proof (ud_old _ _ _ _ _ EQ E) as O. bd H. bd H. destruct p as [u s2]. bd H. injection H as _ <-. split; [reflexivity|].
  assert (O1 : old i0 = old i).
  { unfold prepareUpdate in E0. bd E0. rewrite (filter_old _ _ _ _ E0). eapply restore_old; eassumption. }
  assert (O2 : old s2 = old i0).
  { unfold computeQNUpdate in E1. bd E1. destruct (isAlways c).
    - unfold computeNewtonUpdate in E1. bd E1. bd E1. injection E1 as _ <-. apply build_old in E4. exact E4.
    - unfold computeNewtonUpdateEfficient in E1. bd E1. bd E1. destruct (consistent c i2); cbn [negb] in E1; [|discriminate E1]. injection E1 as _ <-.
      assert (old i2 = old i0) by (destruct (s_reset i0); [apply build_old in E4; exact E4|injection E4 as <-; reflexivity]). destruct (s_first i2 && (c_reused c =? 0) && negb (c_force c)); exact H. }
  assert (O3 : old i1 = old s2).
  { unfold pendingDeletion in E2. destruct (s_first s2 && (c_reused c =? 0) && negb (c_force c)); [|injection E2 as <-; reflexivity]. bd E2. injection E2 as <-. cbv zeta. destruct (0 <? n); cbn [s_firstWindow setBackup]; destruct (s_firstWindow s2); reflexivity. }
  change (old i1 = (residual c x xt, xt)). congruence.
Qed.

(** ** Restarts *)
(** the window fills the chunk *)
Lemma converged_restart c o x xt s s' it earlier k size : wf c -> good c it earlier s -> 0 < it -> c_mode c = Chunks k size ->
  c_force c = false \/ 2 <= it -> size <= length (s_chunk s) -> iterationsConverged c o x xt s = Some s' ->
  exists t1 t u, lastDifferences c x xt s = Some t1 /\ prepareStore c o t1 = Some t /\ length (o_Z o) = length (s_V t) /\ length (s_W t) = length (s_V t) /\
    previous c t = previous c s /\ synced (previous c s) (s_V t) (s_W t) (s_Wt t) /\ s_svd t = s_svd s /\
    restartIMVJ c o k (setChunk t (s_chunk s ++ [(s_Wt t, o_Z o)]) (s_svd s)) = Some u /\ s_chunk s' = s_chunk u /\ s_svd s' = s_svd u.
Proof.
  intros Wf G Hit M Cond Full H. assert (A : isAlways c = false) by (unfold isAlways; rewrite M; reflexivity).
  unfold iterationsConverged in H. bd H. bd H. bd H. injection H as <-. rename i into t1.
  unfold specializedIterationsConverged in E0. bd E0. rename i into t. destruct (at_store _ _ _ _ _ _ _ _ _ Wf G A Hit E E2) as (AP & AR & AC & AJ & AS & AY).
  bd E0. injection E0 as <-. rewrite A in E3. bd E3. unfold storeWindow in E0. bd E0. destruct (pinv_spec _ _ _ _ E4) as (EZ & LZ & LW & LV). subst l.
  destruct (drop_frame _ _ _ E1) as ((D1 & D2 & D3 & D4 & D5 & D6 & D7) & DT & DL & DK). injection E3 as E3. rewrite M in *.
  cbv zeta in E0. cbn [s_chunk setChunk] in E0. rewrite app_length, AC, AS in E0. cbn [length] in E0.
  replace (size + 1 <=? length (s_chunk s) + 1) with true in E0 by (symmetry; apply Nat.leb_le; lia).
  exists t1, t, i0. split; [reflexivity|]. split; [exact E2|]. split; [exact LZ|]. split; [exact LW|]. split; [exact AP|]. split.
  { destruct AY as [(B1 & _ & B2 & _)|Y]; [|rewrite <- AP; exact Y]. destruct Cond as [Cond|Cond]; [congruence|lia]. }
  split; [exact AS|]. split; [exact E0|]. cbn [s_chunk s_svd setFirst setMatrices] in *. rewrite D6, D7. subst i. destruct (_ || _); auto.
Qed.

Lemma add_columns_nth (A B : list vec) : length A = length B -> forall j e, at_ (map (fun '(w, a) => fun e => add (w e) (a e)) (combine A B)) j e = add (at_ A j e) (at_ B j e).
Proof.
  revert B. induction A as [|a A IH]; intros [|b B] L j e; try discriminate L.
  - unfold at_. destruct j; cbn; ring.
  - injection L as L. destruct j as [|j]; [reflexivity|]. apply (IH B L j e).
Qed.
Lemma addAt_last A (rest : list (pair F)) W Z l : addAt (length rest) A (rest ++ [(W, Z)]) = Some l ->
  length W = length A /\ l = rest ++ [(map (fun '(w, a) => fun e => add (w e) (a e)) (combine W A), Z)].
Proof.
  revert l. induction rest as [|p rest IH]; intros l H; cbn [length app addAt] in H.
  - destruct (length W =? length A) eqn:L; [|discriminate H]. injection H as <-. apply Nat.eqb_eq in L. auto.
  - destruct p as [W0 Z0]. bd H. injection H as <-. destruct (IH _ eq_refl) as [L ->]. auto.
Qed.
Lemma slide_spec c V ps : forall T Z l, slide c V (length ps) (ps ++ [(T, Z)]) = Some l ->
  exists T', l = [(T', Z)] /\ length T' = length T /\ (ps <> [] -> length T = length V) /\ forall j e, j < length T -> at_ T' j e = add (at_ T j e) (chunkApply (rowsOf c) ps (at_ V j) e).
Proof.
  induction ps as [|p ps IH]; intros T Z l H; cbn [length app slide] in H.
  - injection H as <-. exists T. repeat split; try congruence. intros. cbn [chunkApply]. ring.
  - destruct (negb _); [discriminate H|]. bd H. apply addAt_last in E. destruct E as [L ->]. rewrite map_length in L.
    destruct (IH _ _ _ H) as (T' & -> & L' & _ & Q). rewrite map_length, combine_length, map_length, L, Nat.min_id in L'. exists T'. split; [reflexivity|]. split; [congruence|]. split; [auto|].
    intros j e Hj. rewrite Q by (rewrite map_length, combine_length, map_length, L, Nat.min_id; congruence). rewrite add_columns_nth by (rewrite ?map_length; exact L).
    cbn [chunkApply]. replace (at_ (map (lowRank (rowsOf c) p) V) j e) with (lowRank (rowsOf c) p (at_ V j) e); [ring|].
    unfold at_. rewrite (nth_indep (map (lowRank (rowsOf c) p) V) (fun _ => zero) (lowRank (rowsOf c) p (fun _ => zero))) by (rewrite map_length; congruence). rewrite (map_nth (lowRank (rowsOf c) p)). reflexivity.
Qed.

Lemma sumPairs_apply n w winv (ps : list (pair F)) y e : (forall k, mul (w k) (winv k) = one) ->
  mul (winv e) (fsum n (fun k => mul (mul (sumPairs w winv ps e k) (w k)) (y k))) = chunkApply n ps y e.
Proof.
  intros H. induction ps as [|p ps IH]; cbn [sumPairs chunkApply].
  - rewrite fsum_zero; [ring|]. intros. ring.
  - rewrite <- IH, <- apply_product. unfold apply, plus, weigh.
    transitivity (add (mul (winv e) (fsum n (fun k => mul (mul (mul (mul (w e) (product p e k)) (winv k)) (w k)) (y k)))) (mul (winv e) (fsum n (fun k => mul (mul (sumPairs w winv ps e k) (w k)) (y k))))).
    { transitivity (mul (winv e) (add (fsum n (fun k => mul (mul (mul (mul (w e) (product p e k)) (winv k)) (w k)) (y k))) (fsum n (fun k => mul (mul (sumPairs w winv ps e k) (w k)) (y k))))); [|ring].
      f_equal. rewrite <- fsum_plus. apply fsum_ext. intros. ring. }
    f_equal. rewrite <- fsum_scale. apply fsum_ext. intros k Hk. transitivity (mul (mul (mul (w e) (winv e)) (mul (w k) (winv k))) (mul (product p e k) (y k))); [ring|]. rewrite !H. ring.
Qed.
Lemma map_zero (f : vec -> vec) l j : (forall e, f (fun _ => zero) e = zero) -> forall e, at_ (map f l) j e = f (at_ l j) e.
Proof.
  intros Hf e. unfold at_. destruct (Nat.lt_ge_cases j (length l)) as [L|L].
  - rewrite (nth_indep (map f l) (fun _ => zero) (f (fun _ => zero))) by (rewrite map_length; exact L). rewrite (map_nth f). reflexivity.
  - rewrite !nth_overflow by (rewrite ?map_length; exact L). symmetry. apply Hf.
Qed.
(** the only pair after a restart with a decomposition *)
Lemma scaled_pair n (w winv : vec) psi Z y e :
  lowRank n (map (fun p e => mul (p e) (winv e)) psi, map (fun z k => mul (z k) (w k)) Z) y e =
  mul (winv e) (fsum n (fun k => mul (mul (product (psi, Z) e k) (w k)) (y k))).
Proof.
  unfold lowRank, product. cbn [fst snd]. rewrite map_length.
  transitivity (fsum n (fun k => fsum (length psi) (fun j => mul (mul (mul (nth j psi (fun _ => zero) e) (winv e)) (mul (nth j Z (fun _ => zero) k) (w k))) (y k)))).
  - rewrite fsum_swap. apply fsum_ext. intros j _. unfold fdot. rewrite <- fsum_scale. apply fsum_ext. intros k _.
    pose proof (map_zero (fun p e => mul (p e) (winv e)) psi j) as M1. pose proof (map_zero (fun z k => mul (z k) (w k)) Z j) as M2. unfold at_ in M1, M2. rewrite M1, M2 by (intros; ring). ring.
  - rewrite <- fsum_scale. apply fsum_ext. intros k _. rewrite <- !fsum_scale_r, <- fsum_scale. apply fsum_ext. intros. ring.
Qed.
Lemma product_scaled (w winv : vec) psi Z e k :
  product (map (fun p e => mul (p e) (winv e)) psi, map (fun z k => mul (z k) (w k)) Z) e k = mul (mul (winv e) (product (F:=F) (psi, Z) e k)) (w k).
Proof.
  unfold product. cbn [fst snd]. rewrite map_length. transitivity (fsum (length psi) (fun j => mul (mul (winv e) (mul (nth j psi (fun _ => zero) e) (nth j Z (fun _ => zero) k))) (w k))).
  - apply fsum_ext. intros j _. pose proof (map_zero (fun p e => mul (p e) (winv e)) psi j) as M1. pose proof (map_zero (fun z k => mul (z k) (w k)) Z j) as M2. unfold at_ in M1, M2. rewrite M1, M2 by (intros; ring). ring.
  - rewrite fsum_scale_r, fsum_scale. reflexivity.
Qed.

(** ** After a window whose columns are kept for the next one *)
Lemma rms_nonempty c is : forall s t, removeMatrixColumns c is s = Some t -> s_V s <> [] -> s_V t <> [].
Proof.
  induction is as [|i is IH]; intros s t H N; cbn [removeMatrixColumns] in H; [injection H as <-; exact N|]. bd H. apply (IH _ _ H).
  unfold removeMatrixColumn in E. destruct (_ || _) eqn:B; [discriminate E|]. apply orb_false_iff in B. destruct B as [B _]. apply Nat.leb_gt in B. bd E. bd E. bd E. injection E as <-.
  cbn [s_V setMatrices setWt]. pose proof (remove_length _ _ _ E1). destruct l0; [cbn in *; lia|discriminate].
Qed.
Lemma stored_nonempty c o x xt s t1 t : isAlways c = false -> s_first s = false -> lastDifferences c x xt s = Some t1 -> prepareStore c o t1 = Some t -> s_V t <> [].
Proof.
  intros A Fs L H. destruct (lastDiff_kept _ _ _ _ _ L) as (t0 & U & _ & KV & _). rewrite init_kept in U by (rewrite Fs, andb_false_r; reflexivity).
  destruct (ud_columns _ _ _ _ _ Fs U) as [_ C]. unfold prepareStore in H. bd H. rewrite A in H. destruct (truncate_kept _ _ _ E) as (_ & TV & _).
  unfold applyFilter in H. destruct (_ && _); [discriminate H|]. apply (rms_nonempty _ _ _ _ H). rewrite TV, KV. destruct C as [(_ & -> & _)|(_ & _ & -> & _)]; discriminate.
Qed.
(** what is known between the windows *)
Lemma between c o x xt s s1 it earlier : wf c -> good c it earlier s -> isAlways c = false -> 0 < it ->
  c_mode c = Efficient \/ 2 <= it -> room c s -> c_reused c = 0 -> c_force c = false -> iterationsConverged c o x xt s = Some s1 ->
  s_reset s1 = false /\ s_V s1 <> [] /\ synced (previous c s) (s_V s1) (s_W s1) (s_Wt s1) /\ good c 0 true s1 /\
  forall y e, previous c s1 y e = multivector (rowsOf c) (previous c s) (s_V s1) (s_W s1) (o_Z o) y e.
Proof.
  intros Wf G A Hit C Rm R0 F0 H. destruct (converged_spec c o x xt s s1 it earlier Wf G A Hit) as (t1 & t & L & P & LZ & LW & Q & K); [tauto|exact Rm|exact H|].
  destruct (K R0 F0) as (KV & KW & KY & KR).
  split; [|split; [|split; [exact KY|split]]].
  - destruct (s_reset s1); [|reflexivity]. destruct (KR eq_refl) as (Rt & k & n & M). destruct C as [C|C]; [congruence|].
    destruct (at_store _ _ _ _ _ _ _ _ _ Wf G A Hit L P) as (_ & AR & _). destruct G as [_ _ _ G4 _]. rewrite AR in Rt. destruct (G4 A Hit) as [(_ & _ & B & _)|[_ B]]; [lia|]. destruct (B Rt) as [_ B1]. lia.
  - rewrite KV. eapply stored_nonempty; eauto. destruct G as [G1 _ _ _ _]. rewrite G1. destruct it; [lia|reflexivity].
  - replace true with (earlier || (0 <? it)); [eapply converged_good; eassumption|]. destruct it; [lia|]. apply orb_true_r.
  - intros y e. rewrite Q, KV, KW. reflexivity.
Qed.
Lemma first_update c o x xt s s1 x' s' : isAlways c = false -> good c 0 true s1 -> c_reused c = 0 -> c_force c = false -> s_reset s1 = false -> s_V s1 <> [] ->
  synced (previous c s) (s_V s1) (s_W s1) (s_Wt s1) -> o_deleted o = [] -> performAcceleration c o x xt s1 = Some (x', s') ->
  length (o_Z o) = length (s_V s1) /\
  forall e, x' e = add (xt e) (add (previous c s1 (fun k => opp (residual c x xt k)) e) (lowRank (rowsOf c) (s_Wt s1, o_Z o) (fun k => opp (residual c x xt k)) e)).
Proof.
  intros A [G1 G2 _ _ _] R0 F0 Rs NV Y D H. cbn [Nat.eqb negb] in G1, G2. unfold performAcceleration in H. rewrite init_kept in H by (rewrite G2; reflexivity). bd H.
  destruct (ud_first _ _ _ _ _ G1 E) as (UV & UW & UT & UC & U). assert (K : kept s1 i) by (eapply ud_kept; eassumption). destruct K as (K1 & K2 & K3 & K4 & _ & K6 & _).
  rewrite K1, K2, G1, G2, F0 in H. cbn [andb orb] in H. bd H. unfold prepareUpdate in E0. bd E0.
  destruct (restore_spec _ _ _ _ E1) as [->|(V0 & _)]; [|congruence]. unfold applyFilter in E0. destruct (_ && _) eqn:B in E0; [discriminate E0|]. rewrite D in E0. cbn [removeMatrixColumns] in E0. injection E0 as <-.
  bd H. destruct p as [u s2]. bd H. injection H as <- _. unfold computeQNUpdate in E0. rewrite A in E0. bd E0. destruct (pinv_spec _ _ _ _ E3) as (EZ & LZ & _ & _). subst l. rewrite UV in LZ. split; [exact LZ|].
  unfold computeNewtonUpdateEfficient in E0. rewrite K3, Rs in E0. cbn [bind] in E0. bd E0. match goal with T : times _ _ = Some _ |- _ => unfold times in T; destruct (length (s_Wt i) =? _); [|discriminate T]; injection T as <- end.
  destruct (consistent c i); cbn [negb] in E0; [|discriminate E0]. injection E0 as <- _. intros e. rewrite UT. unfold previous. rewrite K4, K6. reflexivity.
Qed.
Lemma single_iteration c o x xt s1 s2 : isAlways c = false -> good c 0 true s1 -> c_reused c = 0 -> c_force c = false -> s_reset s1 = false -> room c s1 -> o_deleted o = [] ->
  iterationsConverged c o x xt s1 = Some s2 ->
  length (o_Z o) = length (s_V s1) /\ forall y e, previous c s2 y e = add (previous c s1 y e) (lowRank (rowsOf c) (s_Wt s1, o_Z o) y e).
Proof.
  intros A [G1 G2 _ _ _] R0 F0 Rs Rm D H. cbn [Nat.eqb negb] in G1, G2. unfold iterationsConverged in H. bd H. bd H. bd H. injection H as <-.
  destruct (lastDiff_kept _ _ _ _ _ E) as (t0 & U & K1 & KV & KW & KT). rewrite init_kept in U by (rewrite G2; reflexivity). destruct (ud_first _ _ _ _ _ G1 U) as (UV & UW & UT & _).
  pose proof (ud_kept _ _ _ _ _ U) as K0. pose proof (kept_trans _ _ _ K0 K1) as K. unfold specializedIterationsConverged in E0. bd E0. pose proof (prepareStore_kept _ _ _ _ E2) as K2.
  unfold prepareStore in E2. bd E2. rewrite A in E2. destruct (truncate_kept _ _ _ E3) as (K3 & TV & TW & TT). unfold applyFilter in E2. destruct (_ && _) eqn:B in E2; [discriminate E2|]. rewrite D in E2. cbn [removeMatrixColumns] in E2. injection E2 as <-.
  pose proof (kept_trans _ _ _ K K2) as (_ & _ & K4 & K5 & _ & K6 & _). bd E0. injection E0 as <-. rewrite A, R0, F0 in E2. cbn [Nat.ltb Nat.leb orb] in E2. bd E2. injection E2 as <-.
  unfold storeWindow in E0. bd E0. destruct (pinv_spec _ _ _ _ E2) as (EZ & LZ & _). subst l. rewrite TV, KV, UV in LZ. split; [exact LZ|].
  destruct (drop_frame _ _ _ E1) as ((_ & _ & _ & D4 & _ & D6 & _) & _). intros y e. unfold previous. cbn [s_chunk s_Jold setFirst setMatrices].
  destruct (c_mode c) as [| |k size] eqn:M; [unfold isAlways in A; rewrite M in A; discriminate A| |].
  - rewrite D4. unfold buildJacobian in E0. rewrite K4, Rs in E0. cbn [bind] in E0. bd E0. match goal with T : times ?a _ = Some _ |- _ => unfold times in T; destruct (length (s_Wt a) =? _); [|discriminate T]; injection T as <- end. injection E0 as <-.
    cbn [s_Jold s_J setFirst setJ]. rewrite apply_plus, apply_product, K5, TT, KT, UT. ring.
  - rewrite D6. cbv zeta in E0. cbn [s_chunk setChunk] in E0. rewrite app_length, K6 in E0. cbn [length] in E0. unfold room in Rm. rewrite M in Rm.
    replace (size + 1 <=? length (s_chunk s1) + 1) with false in E0 by (symmetry; apply Nat.leb_gt; lia). injection E0 as <-. cbn [s_chunk setFirst setChunk]. rewrite chunk_app, TT, KT, UT. cbn [chunkApply]. ring.
Qed.

(** ** Restarts *)
Definition stored s := (s_chunk s, s_svd s).
Lemma kept_stored s t : kept s t -> stored t = stored s.
Proof. intros (_ & _ & _ & _ & _ & A & B). unfold stored. congruence. Qed.
Lemma rms_stored c is : forall s t, removeMatrixColumns c is s = Some t -> stored t = stored s.
Proof.
  induction is as [|i is IH]; intros s t H; cbn [removeMatrixColumns] in H; [injection H as <-; reflexivity|]. bd H. rewrite (IH _ _ H).
  unfold removeMatrixColumn in E. destruct (_ || _); [discriminate E|]. bd E. bd E. bd E. injection E as <-. reflexivity.
Qed.
Lemma prepare_stored c o s t : prepareUpdate c o s = Some t -> stored t = stored s.
Proof.
  unfold prepareUpdate. intros H. bd H. unfold applyFilter in H. destruct (c_qr3 c && _); [discriminate H|]. rewrite (rms_stored _ _ _ _ H).
  unfold restoreBackup in E. destruct (s_firstWindow s); [injection E as <-; reflexivity|]. bd E. destruct (_ && negb (c_force c)); [|injection E as <-; reflexivity].
  bd E. injection E as <-. change (stored (setWt i0 (s_Wt i0) true)) with (stored i0). rewrite (rms_stored _ _ _ _ E1). reflexivity.
Qed.
Lemma build_stored c s t : buildWtil c s = Some t -> stored t = stored s.
Proof. unfold buildWtil. destruct (consistent c s); [|discriminate]. intros [= <-]. reflexivity. Qed.
Lemma update_stored c o r s u t : computeQNUpdate c o r s = Some (u, t) -> stored t = stored s.
Proof.
  unfold computeQNUpdate. intros H. bd H. destruct (isAlways c).
  - unfold computeNewtonUpdate in H. bd H. bd H. apply build_stored in E0. injection H as _ <-. exact E0.
  - unfold computeNewtonUpdateEfficient in H. bd H. bd H. destruct (negb (consistent c i)); [discriminate H|]. injection H as _ <-.
    assert (B : stored i = stored s) by (destruct (s_reset s); [exact (build_stored _ _ _ E0)|injection E0 as <-; reflexivity]). destruct (_ && negb (c_force c)); exact B.
Qed.
Lemma perform_stored c o x xt s x' t : performAcceleration c o x xt s = Some (x', t) -> stored t = stored (initializeMatrices c s).
Proof.
  unfold performAcceleration. intros H. bd H. pose proof (kept_stored _ _ (ud_kept _ _ _ _ _ E)) as K. destruct (_ && _); [injection H as _ <-; exact K|].
  bd H. apply prepare_stored in E0. bd H. destruct p as [u s2]. apply update_stored in E1. bd H. injection H as _ <-.
  transitivity (stored i1); [reflexivity|]. transitivity (stored s2); [|congruence]. unfold pendingDeletion in E2. destruct (_ && negb (c_force c)); [|injection E2 as <-; reflexivity].
  bd E2. cbv zeta in E2. destruct (0 <? n); (destruct (s_firstWindow _) in E2; injection E2 as <-; reflexivity).
Qed.
(** the decomposition is the first pair, with weights *)
Definition decomposed (w winv : vec) s : Prop :=
  forall M, s_svd s = Some M -> exists p rest, s_chunk s = p :: rest /\ forall e k, M e k = mul (mul (w e) (product p e k)) (winv k).
Lemma decomposed_stored w winv s t : stored t = stored s -> decomposed w winv s -> decomposed w winv t.
Proof. unfold stored, decomposed. intros [= -> ->] H. exact H. Qed.
Lemma decomposed_init w winv c s : decomposed w winv s -> decomposed w winv (initializeMatrices c s).
Proof.
  intros H. unfold initializeMatrices. destruct (_ && _); [|exact H]. unfold decomposed. destruct (c_mode c) as [| |[|r| |] k]; cbn; discriminate.
Qed.
Lemma converged_stored c o x xt s s' k size : c_mode c = Chunks k size -> iterationsConverged c o x xt s = Some s' ->
  exists t Z u, stored t = stored (initializeMatrices c s) /\ stored s' = stored u /\
    (let v := setChunk t (s_chunk t ++ [(s_Wt t, Z)]) (s_svd t) in u = v \/ restartIMVJ c o k v = Some u).
Proof.
  intros M H. assert (A : isAlways c = false) by (unfold isAlways; rewrite M; reflexivity). unfold iterationsConverged in H. bd H. bd H. bd H. injection H as <-.
  destruct (lastDiff_kept _ _ _ _ _ E) as (t0 & U & K1 & _). apply ud_kept in U. unfold specializedIterationsConverged in E0. bd E0. apply prepareStore_kept in E2.
  bd E0. injection E0 as <-. rewrite A in E3. bd E3. injection E3 as E3. unfold storeWindow in E0. bd E0. rewrite M in *. cbv zeta in E0.
  destruct (drop_frame _ _ _ E1) as (D & _). apply kept_stored in D.
  exists i2, l, i0. split; [exact (kept_stored _ _ (kept_trans _ _ _ U (kept_trans _ _ _ K1 E2)))|]. split.
  - transitivity (stored i1); [reflexivity|]. rewrite D. transitivity (stored i3); [reflexivity|]. subst i3. destruct (_ || _); reflexivity.
  - cbv zeta. destruct (size + 1 <=? _); [right; exact E0|left; injection E0 as <-; reflexivity].
Qed.
Lemma run_decomposed c size w winv evs : c_mode c = Chunks RsSVD size -> (forall k, mul (w k) (winv k) = one) -> Forall (weighted w winv) evs -> forall s s', decomposed w winv s -> run c evs s = Some s' -> decomposed w winv s'.
Proof.
  intros M I. induction evs as [|ev evs IH]; intros Fa s s' D H; cbn [run] in H; [injection H as <-; exact D|]. inversion Fa as [|? ? We Fa']. subst. bd H. apply (IH Fa' i s'); [|exact H]. clear IH H Fa'.
  destruct ev as [o x xt|o x xt]; cbn [step] in E.
  - destruct (performAcceleration c o x xt s) as [[x' u]|] eqn:P; [|discriminate E]. injection E as <-. apply perform_stored in P. eapply decomposed_stored; [exact P|]. apply decomposed_init, D.
  - destruct We as [<- <-]. destruct (converged_stored _ _ _ _ _ _ _ _ M E) as (t & Z & u & Q1 & Q2 & Q3). eapply decomposed_stored; [exact Q2|].
    assert (Dt : decomposed (o_w o) (o_winv o) t) by (eapply decomposed_stored; [exact Q1|]; apply decomposed_init, D). cbv zeta in Q3. destruct Q3 as [->|Q3].
    + intros N EN. cbn [s_svd s_chunk setChunk] in *. destruct (Dt N EN) as (p & rest & C & P). exists p, (rest ++ [(s_Wt t, Z)]). rewrite C. split; [reflexivity|exact P].
    + cbn [restartIMVJ] in Q3. destruct (forallb _ _); [|discriminate Q3]. unfold restartSVD in Q3. destruct (o_svd o) as [psi Zs]. injection Q3 as <-. intros N EN. cbn [s_svd s_chunk setChunk] in *.
      injection EN as <-. eexists _, []. split; [reflexivity|]. intros e k. rewrite product_scaled.
      transitivity (mul (mul (mul (o_w o e) (o_winv o e)) (mul (o_w o k) (o_winv o k))) (product (psi, Zs) e k)); [rewrite !I; ring|ring].
Qed.
Lemma unweighed_plus n (w winv : vec) A B y e : unweighed n w winv (plus A B) y e = add (unweighed n w winv A y e) (unweighed n w winv B y e).
Proof.
  unfold unweighed, plus. transitivity (mul (winv e) (add (fsum n (fun k => mul (mul (A e k) (w k)) (y k))) (fsum n (fun k => mul (mul (B e k) (w k)) (y k))))); [|ring]. f_equal. rewrite <- fsum_plus. apply fsum_ext. intros. ring.
Qed.
Lemma unweighed_ext n (w winv : vec) A B y e : (forall k, k < n -> A e k = B e k) -> unweighed (F:=F) n w winv A y e = unweighed n w winv B y e.
Proof. intros H. unfold unweighed. f_equal. apply fsum_ext. intros k Hk. rewrite H by exact Hk. reflexivity. Qed.
Lemma unweighed_one n (w winv : vec) (p : pair F) y e : (forall k, mul (w k) (winv k) = one) ->
  unweighed n w winv (fun e k => mul (mul (w e) (product p e k)) (winv k)) y e = lowRank n p y e.
Proof.
  intros H. rewrite <- apply_product. unfold unweighed, apply. rewrite <- fsum_scale. apply fsum_ext. intros k _.
  transitivity (mul (mul (mul (w e) (winv e)) (mul (w k) (winv k))) (mul (product p e k) (y k))); [ring|]. rewrite !H. ring.
Qed.
(** what a restart with RS-SVD leaves *)
Lemma restart_svd c o s u : restartIMVJ c o RsSVD s = Some u -> forall n y e, chunkApply n (s_chunk u) y e = unweighed n (o_w o) (o_winv o) (product (o_svd o)) y e.
Proof.
  intros H n y e. cbn [restartIMVJ] in H. destruct (forallb _ _); [|discriminate H]. unfold restartSVD in H. destruct (o_svd o) as [psi Zs]. injection H as <-. cbn [s_chunk setChunk chunkApply].
  rewrite scaled_pair. unfold unweighed. ring.
Qed.
Lemma updated_svd o s n y e : (forall k, mul (o_w o k) (o_winv o k) = one) -> decomposed (o_w o) (o_winv o) s ->
  unweighed n (o_w o) (o_winv o) (updatedSVD o s) y e = chunkApply n (s_chunk s) y e.
Proof.
  intros I D. unfold updatedSVD. destruct (s_svd s) as [M|] eqn:Sv.
  - destruct (D M Sv) as (p & rest & C & P). rewrite unweighed_plus, C. cbn [tl chunkApply]. f_equal; [|exact (sumPairs_apply n (o_w o) (o_winv o) rest y e I)].
    rewrite <- (unweighed_one n (o_w o) (o_winv o) p y e I). apply unweighed_ext. intros. apply P.
  - exact (sumPairs_apply n (o_w o) (o_winv o) (s_chunk s) y e I).
Qed.

(** the columns of RS-LS *)
Lemma drop_ls c s t : dropOldWindows c s = Some t -> s_lsV t = s_lsV s /\ s_lsW t = s_lsW s.
Proof.
  unfold dropOldWindows. destruct (c_reused c =? 0).
  - destruct (c_force c); intros [= <-]; auto.
  - destruct (_ <? _); [|intros [= <-]; auto]. cbv zeta. destruct (_ =? 0); [discriminate|]. intros H. bd H. destruct (n <=? _); [discriminate H|]. bd H. bd H. injection H as <-. auto.
Qed.
Lemma converged_ls c o x xt s s' k size : c_mode c = Chunks k size -> iterationsConverged c o x xt s = Some s' ->
  exists u, stored s' = stored u /\ s_lsV s' = s_lsV u /\ s_lsW s' = s_lsW u /\ exists t1 t, lastDifferences c x xt s = Some t1 /\ prepareStore c o t1 = Some t /\ storeWindow c o t = Some u.
Proof.
  intros M H. assert (A : isAlways c = false) by (unfold isAlways; rewrite M; reflexivity). unfold iterationsConverged in H. bd H. bd H. bd H. injection H as <-.
  unfold specializedIterationsConverged in E0. bd E0. bd E0. injection E0 as <-. rewrite A in E3. bd E3. injection E3 as E3. rewrite M in *.
  destruct (drop_frame _ _ _ E1) as (D & _). apply kept_stored in D. destruct (drop_ls _ _ _ E1) as [D1 D2]. exists i0. cbn [s_lsV s_lsW setFirst setMatrices] in *. rewrite D1, D2.
  split; [|split; [|split]].
  - transitivity (stored i1); [reflexivity|]. rewrite D. transitivity (stored i3); [reflexivity|]. subst i3. destruct (_ || _); reflexivity.
  - subst i3. destruct (_ || _); reflexivity.
  - subst i3. destruct (_ || _); reflexivity.
  - exists i, i2. auto.
Qed.
Lemma restart_ls c o s u : restartLS c o s = Some u -> s_chunk u = if length (s_lsV s) =? 0 then [] else [(s_lsW u, o_lsZ o)].
Proof.
  unfold restartLS. cbv zeta. cbn [s_lsV setChunk]. destruct (_ =? 0); intros H; [injection H as <-; reflexivity|]. bd H. bd H. destruct (_ =? _); [|discriminate H]. injection H as <-. reflexivity.
Qed.
Lemma lowrank_secant n Z V W : left_inverse (F:=F) n Z V -> length W = length V -> secant (lowRank n (W, Z)) V W.
Proof.
  intros L E j Hj e. pose proof (multivector_secant n (fun _ _ => zero) V W Z L E j Hj e) as Q. rewrite <- Q. unfold multivector, lowRank. cbn [fst snd]. rewrite E.
  match goal with |- _ = add _ ?b => transitivity b; [|ring] end. apply fsum_ext. intros k Hk. unfold at_. ring.
Qed.
Lemma converged_always c o x xt s s' : c_mode c = Always -> s_first s = false -> iterationsConverged c o x xt s = Some s' -> s_Jold s' = s_J s.
Proof.
  intros M F0 H. assert (A : isAlways c = true) by (unfold isAlways; rewrite M; reflexivity). unfold iterationsConverged in H. bd H. bd H. bd H. injection H as <-.
  destruct (lastDiff_kept _ _ _ _ _ E) as (t0 & U & K1 & _). rewrite init_kept in U by (rewrite F0; apply andb_false_r). apply ud_kept in U.
  unfold specializedIterationsConverged in E0. bd E0. apply prepareStore_kept in E2. rewrite A, M in E0. cbn [bind] in E0. injection E0 as <-.
  destruct (drop_frame _ _ _ E1) as ((_ & _ & _ & D4 & _) & _). cbn [s_Jold setFirst setMatrices setJ] in *. rewrite D4.
  destruct (kept_trans _ _ _ U (kept_trans _ _ _ K1 E2)) as (_ & _ & _ & _ & KJ & _). exact KJ.
Qed.
End P.
