From Coq Require Import Bool List Ascii String ZArith Lia.
From Verif Require Import M_Value S_Value.
Import ListNotations.
Open Scope nat_scope.
Open Scope char_scope.
Open Scope list_scope.

Lemma starts_ok : forall p s r, startsWith p s = Some r <-> s = p ++ r.
Proof.
  induction p as [|x p IH]; intros s r; [cbn; split; congruence|]. destruct s as [|y s]; [cbn; split; discriminate|]. cbn [startsWith app]. destruct (Ascii.eqb_spec x y) as [->|N].
  - rewrite IH. split; [intros ->; reflexivity|intros E; injection E as ->; reflexivity].
  - split; [discriminate|intros E; injection E as -> _; congruence].
Qed.
Lemma replace_shorter p c : 2 <= List.length p -> forall s t, replaceFirst p c s = Some t -> List.length t < List.length s.
Proof.
  intros L. assert (G : forall s r, startsWith p s = Some r -> S (List.length r) < List.length s) by (intros s r E; apply starts_ok in E; subst s; rewrite app_length; lia).
  induction s as [|x s IH]; intros t H; cbn [replaceFirst] in H.
  - destruct (startsWith p []) as [r|] eqn:E; [|discriminate H]. apply G in E. cbn in E. lia.
  - destruct (startsWith p (x :: s)) as [r|] eqn:E; [injection H as <-; apply G in E; exact E|]. destruct (replaceFirst p c s) as [u|]; [|discriminate H]. injection H as <-. specialize (IH u eq_refl). cbn. lia.
Qed.
Lemma replace_none p c : forall s, replaceFirst p c s = None <-> ~ contains p s.
Proof.
  induction s as [|x s IH]; cbn [replaceFirst].
  - destruct (startsWith p []) as [r|] eqn:E; split; try discriminate.
    + intros H. exfalso. apply H. apply starts_ok in E. exists [], r. exact E.
    + intros _ (a & b & E'). destruct a; [|discriminate E']. apply (proj2 (starts_ok p [] b)) in E'. congruence.
    + reflexivity.
  - destruct (startsWith p (x :: s)) as [r|] eqn:E.
    + split; [discriminate|]. intros H. exfalso. apply H. apply starts_ok in E. exists [], r. exact E.
    + destruct (replaceFirst p c s) as [t|]; split; try discriminate; try reflexivity.
      * intros H. exfalso. apply (proj1 (not_iff_compat IH)); [discriminate|]. intros (a & b & E'). apply H. exists (x :: a), b. rewrite E'. reflexivity.
      * intros _ (a & b & E'). destruct a as [|y a]; [apply (proj2 (starts_ok p (x :: s) b)) in E'; congruence|]. injection E' as <- E'. apply (proj1 IH eq_refl). exists a, b. exact E'.
Qed.
Lemma escapes_long p c : In (p, c) escapes -> 2 <= List.length p /\ exists q, p = "&" :: q /\ ~ In "&" q.
Proof. intros H. cbn in H. repeat destruct H as [H|H]; [..|destruct H]; injection H as <- <-; (split; [cbn; lia|eexists; split; [reflexivity|cbn; intuition discriminate]]). Qed.

(** * Every text *)
Lemma each_shorter : forall es s ch t ch', (forall p c, In (p, c) es -> 2 <= List.length p) -> replaceEach es s ch = (t, ch') ->
  List.length t <= List.length s /\ (ch' = false -> t = s /\ ch = false /\ forall p c, In (p, c) es -> ~ contains p s) /\ (ch = false -> ch' = true -> List.length t < List.length s).
Proof.
  induction es as [|[p c] es IH]; intros s ch t ch' L H; cbn [replaceEach] in H.
  - injection H as <- <-. split; [lia|]. split; [intros E; split; [reflexivity|]; split; [exact E|intros p c []]|intros; congruence].
  - destruct (replaceFirst p c s) as [u|] eqn:R.
    + apply (replace_shorter p c (L p c (or_introl eq_refl))) in R. apply IH in H as (H1 & H2 & H3); [|intros; eapply L; right; eassumption]. split; [lia|]. split; [intros E; apply H2 in E as (_ & E & _); discriminate E|]. intros _ _. lia.
    + apply IH in H as (H1 & H2 & H3); [|intros; eapply L; right; eassumption]. split; [exact H1|]. split; [|exact H3]. intros E. destruct (H2 E) as (A & B & C). split; [exact A|]. split; [exact B|]. intros p' c' [E'|Hp]; [injection E' as <- <-; apply (replace_none p c), R|eapply C, Hp].
Qed.
Theorem decode_total : forall s, exists t, decodeXML s = Some t /\ List.length t <= List.length s /\ (forall p c, In (p, c) escapes -> ~ contains p t) /\ ((forall p c, In (p, c) escapes -> ~ contains p s) -> t = s).
Proof.
  intros s. unfold decodeXML. assert (G : forall fuel s, List.length s < fuel -> exists t, decodeLoop fuel s = Some t /\ List.length t <= List.length s /\ (forall p c, In (p, c) escapes -> ~ contains p t) /\ ((forall p c, In (p, c) escapes -> ~ contains p s) -> t = s)).
  { clear s. induction fuel as [|fuel IH]; intros s L; [lia|]. cbn [decodeLoop]. destruct (replaceEach escapes s false) as [t ch] eqn:E. pose proof (each_shorter _ _ _ _ _ (fun p c H => proj1 (escapes_long p c H)) E) as (H1 & H2 & H3). destruct ch.
    - specialize (H3 eq_refl eq_refl). destruct (IH t ltac:(lia)) as (u & A & B & C & D). exists u. split; [exact A|]. split; [lia|]. split; [exact C|]. intros N. exfalso.
      assert (K : forall es, (forall p c, In (p, c) es -> ~ contains p s) -> replaceEach es s false = (s, false)).
      { induction es as [|[p c] es IHes]; intros Nn; [reflexivity|]. cbn [replaceEach]. rewrite (proj2 (replace_none p c s) (Nn p c (or_introl eq_refl))). apply IHes. intros; eapply Nn; right; eassumption. }
      rewrite (K escapes N) in E. discriminate E.
    - destruct (H2 eq_refl) as (-> & _ & C). exists s. split; [reflexivity|]. split; [lia|]. split; [exact C|reflexivity]. }
  apply G. lia.
Qed.

(** * Encoded texts *)
Definition clean (s : text) : Prop := forall p c, In (p, c) escapes -> ~ contains p s.
Lemma clean_tail x s : clean (x :: s) -> clean s.
Proof. intros H p c Hp (a & b & E). apply (H p c Hp). exists (x :: a), b. rewrite E. reflexivity. Qed.
Lemma plain_prefix : forall q s t, ~ In "&" q -> encoded s t -> forall r, startsWith q t = Some r -> exists r', s = q ++ r'.
Proof.
  induction q as [|x q IH]; intros s t N E r H; [exists s; reflexivity|]. destruct t as [|y t]; [discriminate H|]. cbn [startsWith] in H. destruct (Ascii.eqb_spec x y) as [->|]; [|discriminate H].
  inversion E as [|? s0 ? E0|p c s0 t0 Hp E0 E1 E2]; subst.
  - destruct (IH s0 t (fun h => N (or_intror h)) E0 r H) as (r' & ->). exists r'. reflexivity.
  - exfalso. destruct (escapes_long p c Hp) as (_ & q' & -> & _). cbn [app] in E2. injection E2 as <- _. apply N. left. reflexivity.
Qed.
Lemma other_escape p c p2 c2 t : In (p, c) escapes -> In (p2, c2) escapes -> (p = p2 /\ c = c2) \/ startsWith p (p2 ++ t) = None.
Proof. intros H H2. cbn in H, H2. repeat destruct H as [H|H]; [..|destruct H]; injection H as <- <-; repeat destruct H2 as [H2|H2]; try (destruct H2; fail); injection H2 as <- <-; first [left; split; reflexivity|right; reflexivity]. Qed.
Lemma skip_plain p c : (exists p', p = "&" :: p') -> forall q t, ~ In "&" q -> replaceFirst p c (q ++ t) = match replaceFirst p c t with Some u => Some (q ++ u) | None => None end.
Proof.
  intros (p' & ->). induction q as [|x q IH]; intros t N; cbn [app]; [destruct (replaceFirst _ c t); reflexivity|]. cbn [replaceFirst startsWith]. destruct (Ascii.eqb_spec "&" x) as [<-|]; [exfalso; apply N; left; reflexivity|].
  rewrite IH by (intros h; apply N; right; exact h). destruct (replaceFirst ("&" :: p') c t); reflexivity.
Qed.
Lemma step_encoded p c : In (p, c) escapes -> forall s t, encoded s t -> clean s -> forall u, replaceFirst p c t = Some u -> encoded s u.
Proof.
  intros Hp. destruct (escapes_long p c Hp) as (_ & q & Ep & Nq). intros s t E. induction E as [|x s t E IH|p2 c2 s t H2 E IH]; intros C u H.
  - rewrite Ep in H. discriminate H.
  - cbn [replaceFirst] in H. destruct (startsWith p (x :: t)) as [r|] eqn:Sw.
    + exfalso. rewrite Ep in Sw. cbn [startsWith] in Sw. destruct (Ascii.eqb_spec "&" x) as [<-|]; [|discriminate Sw]. destruct (plain_prefix q s t Nq E r Sw) as (r' & ->). apply (C p c Hp). exists [], r'. rewrite Ep. reflexivity.
    + destruct (replaceFirst p c t) as [v|]; [|discriminate H]. injection H as <-. constructor. apply IH; [eapply clean_tail, C|reflexivity].
  - destruct (other_escape p c p2 c2 t Hp H2) as [[-> ->]|Sw].
    + rewrite Ep in H. cbn [app replaceFirst] in H. rewrite (proj2 (starts_ok _ _ t)) in H by reflexivity. injection H as <-. constructor. exact E.
    + destruct (escapes_long p2 c2 H2) as (_ & q2 & E2 & N2). rewrite E2 in H, Sw. cbn [app replaceFirst] in H, Sw. rewrite Sw in H. rewrite (skip_plain p c (ex_intro _ q Ep) q2 t N2) in H. destruct (replaceFirst p c t) as [v|]; [|discriminate H]. injection H as <-.
      replace ("&" :: q2 ++ v) with (p2 ++ v) by (rewrite E2; reflexivity). apply enc_escape; [exact H2|]. apply IH; [eapply clean_tail, C|reflexivity].
Qed.
Lemma each_encoded s : clean s -> forall es t ch u ch', (forall e, In e es -> In e escapes) -> encoded s t -> replaceEach es t ch = (u, ch') -> encoded s u.
Proof.
  intros C. induction es as [|[p c] es IH]; intros t ch u ch' Sub E H; cbn [replaceEach] in H; [injection H as <- _; exact E|]. destruct (replaceFirst p c t) as [v|] eqn:R; (eapply IH; [intros; apply Sub; right; assumption| |exact H]); [|exact E]. eapply step_encoded; [apply Sub; left; reflexivity|exact E|exact C|exact R].
Qed.
Lemma encoded_clean s t : encoded s t -> clean t -> t = s.
Proof.
  induction 1 as [|x s t E IH|p c s t Hp E IH]; intros C; [reflexivity|rewrite IH; [reflexivity|eapply clean_tail, C]|]. exfalso. apply (C p c Hp). exists [], t. reflexivity.
Qed.
Theorem decode_encoded s t : encoded s t -> clean s -> decodeXML t = Some s.
Proof.
  intros E C. destruct (decode_total t) as (u & D & _ & Cu & _). rewrite D. f_equal. apply encoded_clean; [|exact Cu]. unfold decodeXML in D.
  assert (G : forall fuel t, encoded s t -> decodeLoop fuel t = Some u -> encoded s u).
  { clear t E D. induction fuel as [|fuel IH]; intros t E D; [discriminate D|]. cbn [decodeLoop] in D. destruct (replaceEach escapes t false) as [v ch] eqn:R. pose proof (each_encoded s C escapes t false v ch (fun e H => H) E R) as Ev. destruct ch; [exact (IH v Ev D)|injection D as <-; exact Ev]. }
  eapply G; eassumption.
Qed.
