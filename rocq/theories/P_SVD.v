(** Proofs about the updated singular value decomposition. *)
From Coq Require Import Field Field_theory List Arith Lia Bool.
From Verif Require Import S_Field M_QR S_QR P_Field P_QR M_SVD S_SVD.
Import ListNotations.

Section P.
Variable F : field.
Add Field KP : (K_theory F).
Local Infix "+" := (@add F). Local Infix "*" := (@mul F). Local Infix "-" := (@sub F). Local Notation "0" := (@zero F). Local Notation "1" := (@one F).
Local Infix "/" := (@div F).
Notation vec := (nat -> F).
Notation mat := (nat -> nat -> F).

(** * Gram-Schmidt *)
Section QR.
Variable norm : nat -> vec -> option F.
Variable tiny : F -> bool.
Variable again : F -> F -> vec -> bool.
Variable drop : F -> F -> bool.
Hypothesis OK : arithmetic_ok norm tiny again.
Hypothesis noDrop : forall x y, drop x y = false.

Lemma coefficients_off n c (Q : mat) v : (forall i, i < c -> fdot n (fun e => Q e i) v = 0) -> forall j, coefficients n c Q v j = 0.
Proof. intros H j. unfold coefficients. destruct (Nat.ltb_spec j c); auto. Qed.
Lemma without_off n c (Q : mat) v : (forall i, i < c -> fdot n (fun e => Q e i) v = 0) -> forall e, withoutProjections n c Q v e = v e.
Proof.
  intros H e. unfold withoutProjections. rewrite fsum_zero; [ring|].
  intros k _. rewrite coefficients_off by exact H. ring.
Qed.
(** [v'] is [v] without its part in the span of Q, [r'] has the coefficients of that part *)
Definition residual n c (Q : mat) (v v' r r' : vec) : Prop :=
  (forall e, e < n -> v e = v' e + fsum c (fun i => Q e i * (r' i - r i))) /\
  (forall i, i < c -> fdot n (fun e => Q e i) v' = 0) /\
  (forall i, c <= i -> r' i = r i) /\
  (forall w, fdot n w v = 0 -> (forall i, i < c -> fdot n w (fun e => Q e i) = 0) -> fdot n w v' = 0).

Lemma residual_step n c Q v r : orthonormal n c Q ->
  residual n c Q v (withoutProjections n c Q v) r (fun j => if j <? c then r j + coefficients n c Q v j else r j).
Proof.
  intros O. split; [|split; [|split]].
  - intros e _. unfold withoutProjections. rewrite (fsum_ext F c (fun i => Q e i * ((if i <? c then r i + coefficients n c Q v i else r i) - r i)) (fun j => Q e j * coefficients n c Q v j)); [ring|].
    intros k Hk. cbv beta. rewrite (proj2 (Nat.ltb_lt _ _) Hk). ring.
  - intros i Hi. apply fdot_proj; assumption.
  - intros i Hi. destruct (Nat.ltb_spec i c); [lia|reflexivity].
  - intros w W H. unfold withoutProjections. rewrite fdot_minus, fdot_comb, W.
    rewrite (fsum_zero F c); [ring|]. intros k Hk. rewrite H by exact Hk. ring.
Qed.
Lemma residual_trans n c Q v v1 v2 r r1 r2 : residual n c Q v v1 r r1 -> residual n c Q v1 v2 r1 r2 -> residual n c Q v v2 r r2.
Proof.
  intros (A1 & B1 & C1 & D1) (A2 & B2 & C2 & D2). split; [|split; [|split]].
  - intros e He. rewrite A1, A2 by exact He.
    rewrite (fsum_ext F c (fun i => Q e i * (r2 i - r i)) (fun i => Q e i * (r2 i - r1 i) + Q e i * (r1 i - r i))) by (intros; ring).
    rewrite fsum_plus. ring.
  - exact B2.
  - intros i Hi. rewrite C2, C1 by exact Hi. reflexivity.
  - intros w W H. apply D2; auto.
Qed.

(** what the loop returns *)
Definition outcome n c Q v r (o : bool * vec * vec * F) : Prop :=
  let '(ok, v', r', rho) := o in
  residual n c Q v v' r r' /\ rho * rho = fdot n v' v' /\ (ok = true -> rho <> 0) /\ (ok = false -> forall e, e < n -> v' e = 0).

Lemma second n c Q : orthonormal n c Q -> forall fuel v r rho0 o, norm n v = Some rho0 -> (forall i, i < c -> fdot n (fun e => Q e i) v = 0) ->
  gramSchmidt norm tiny again fuel n c Q v r rho0 = Some o -> outcome n c Q v r o.
Proof.
  intros O fuel v r rho0 o Hn P E. destruct OK as (N & X & T & G).
  assert (E2 : norm n (withoutProjections n c Q v) = Some rho0).
  { rewrite <- Hn. apply X. intros e _. apply without_off, P. }
  pose proof (residual_step n c Q v r O) as R. destruct (N _ _ _ E2) as [N1 N2].
  destruct fuel as [|fuel]; cbn [gramSchmidt] in E; rewrite E2 in E;
    (destruct (tiny rho0) eqn:Ht;
      [injection E as <-; apply T in Ht; split; [exact R|split; [exact N1|split; [discriminate|intros _; apply N2, Ht]]]|]);
    (rewrite (G n v rho0) in E; [|exact Hn|intros C; apply T in C; congruence|apply coefficients_off, P]);
    injection E as <-; (split; [exact R|split; [exact N1|split; [|discriminate]]]); intros _ C; apply T in C; congruence.
Qed.
Lemma gramSchmidt_ok n c Q : orthonormal n c Q -> forall v r rho0 o,
  gramSchmidt norm tiny again 4 n c Q v r rho0 = Some o -> outcome n c Q v r o.
Proof.
  intros O v r rho0 o E. destruct OK as (N & X & T & G).
  pose proof (residual_step n c Q v r O) as R.
  change (gramSchmidt norm tiny again 4 n c Q v r rho0) with
    (match norm n (withoutProjections n c Q v) with
     | None => None
     | Some rho => if tiny rho then Some (false, withoutProjections n c Q v, (fun j => if j <? c then r j + coefficients n c Q v j else r j), rho)
                   else if again rho rho0 (coefficients n c Q v) then gramSchmidt norm tiny again 3 n c Q (withoutProjections n c Q v) (fun j => if j <? c then r j + coefficients n c Q v j else r j) rho
                   else Some (true, withoutProjections n c Q v, (fun j => if j <? c then r j + coefficients n c Q v j else r j), rho)
     end) in E.
  destruct (norm n (withoutProjections n c Q v)) as [rho|] eqn:E1; [|discriminate]. destruct (N _ _ _ E1) as [N1 N2].
  destruct (tiny rho) eqn:Ht.
  { injection E as <-. apply T in Ht. split; [exact R|split; [exact N1|split; [discriminate|intros _; apply N2, Ht]]]. }
  destruct (again rho rho0 _) eqn:Ea.
  - apply second in E; [|exact O|exact E1|apply R]. destruct o as [[[ok v'] r'] rho'].
    destruct E as (R2 & E). split; [|exact E]. eapply residual_trans; eassumption.
  - injection E as <-. split; [exact R|split; [exact N1|split; [|discriminate]]]. intros _ C. apply T in C. congruence.
Qed.

(** * The QR decomposition *)
(** the first [j] columns of A are factorized *)
Definition factored n (A : mat) (m j c : nat) (Q R : mat) : Prop :=
  c <= j /\ orthonormal n c Q /\
  (forall e l, e < n -> l < j -> fsum c (fun i => Q e i * R i l) = A e l) /\
  (forall i l, c <= i -> R i l = 0) /\
  (forall w, (forall l, l < m -> fdot n w (fun e => A e l) = 0) -> forall i, i < c -> fdot n w (fun e => Q e i) = 0).

Lemma qrColumns_ok n A M : forall m j c Q R, Nat.add j m = M -> M <= n -> factored n A M j c Q R ->
  forall all c' Q' R', qrColumns norm tiny again drop n A m j c Q R = Some (all, c', Q', R') -> all = true /\ factored n A M M c' Q' R'.
Proof.
  induction m as [|m IH]; intros j c Q R HM Hn I all c' Q' R' E.
  { cbn [qrColumns] in E. injection E as <- <- <- <-. replace M with j by lia. rewrite Nat.add_0_r in HM. subst j. auto. }
  cbn [qrColumns] in E. destruct (Nat.eqb_spec n j) as [->|_]; [lia|].
  destruct (norm n (fun e => A e j)) as [rho00|]; [|discriminate].
  destruct (gramSchmidt _ _ _ 4 n c Q _ _ _) as [[[[ok col] r] rho]|] eqn:Eg; [|discriminate].
  rewrite noDrop in E. cbn [negb] in E. rewrite andb_true_r in E.
  destruct I as (I1 & I2 & I3 & I4 & I5).
  apply gramSchmidt_ok in Eg; [|exact I2]. destruct Eg as ((G1 & G2 & G3 & G4) & G5 & G6 & G7).
  destruct ok; (eapply IH; [| |clear E IH; unfold factored; split; [|split; [|split; [|split]]]|exact E]); try lia.
  - specialize (G6 eq_refl). intros i i' Hi Hi'. destruct (Nat.eqb_spec i c) as [->|Ni], (Nat.eqb_spec i' c) as [->|Ni'].
    + rewrite Nat.eqb_refl. rewrite fdot_scaled by exact G6. rewrite fdot_sym, fdot_scaled by exact G6. rewrite <- G5. field. exact G6.
    + rewrite fdot_sym. rewrite fdot_scaled by exact G6. rewrite G2 by lia. destruct (Nat.eqb_spec c i'); [lia|]. field. exact G6.
    + rewrite fdot_scaled by exact G6. rewrite G2 by lia. destruct (Nat.eqb_spec i c); [lia|]. field. exact G6.
    + apply I2; lia.
  - specialize (G6 eq_refl). intros e l He Hl. cbn [fsum].
    rewrite Nat.eqb_refl. destruct (Nat.eqb_spec l j) as [->|Nl].
    + rewrite (G1 e He). rewrite (fsum_ext F c _ (fun i => Q e i * (r i - 0))).
      2: { intros k Hk. cbv beta. unfold setv. rewrite (proj2 (Nat.eqb_neq k c)) by lia. ring. }
      unfold setv. rewrite Nat.eqb_refl. field. exact G6.
    + rewrite I4 by lia. rewrite (fsum_ext F c _ (fun i => Q e i * R i l)).
      2: { intros k Hk. cbv beta. rewrite (proj2 (Nat.eqb_neq k c)) by lia. reflexivity. }
      rewrite I3 by lia. field. exact G6.
  - intros i l Hi. cbv beta. destruct (l =? j); [|apply I4; lia]. unfold setv. destruct (Nat.eqb_spec i c); [lia|]. apply G3. lia.
  - specialize (G6 eq_refl). intros w W i Hi. cbv beta. destruct (Nat.eqb_spec i c) as [->|Ni]; [|apply I5; [exact W|lia]].
    rewrite fdot_scaled by exact G6. rewrite G4; [field; exact G6|apply W; lia|]. intros i Hi'. apply I5; [exact W|lia].
  - intros i i' Hi Hi'. cbv beta. rewrite <- (I2 i i') by lia.
    rewrite (proj2 (Nat.eqb_neq i c)), (proj2 (Nat.eqb_neq i' c)) by lia. reflexivity.
  - specialize (G7 eq_refl). intros e l He Hl. rewrite (fsum_ext F c _ (fun i => Q e i * (if l =? j then r i else R i l))).
    2: { intros k Hk. cbv beta. rewrite (proj2 (Nat.eqb_neq k c)) by lia. reflexivity. }
    destruct (Nat.eqb_spec l j) as [->|Nl]; [|apply I3; lia].
    rewrite (G1 e He), (G7 e He). rewrite (fsum_ext F c (fun i => Q e i * (r i - 0)) (fun i => Q e i * r i)) by (intros; ring). ring.
  - intros i l Hi. cbv beta. destruct (Nat.eqb_spec i c); [reflexivity|]. destruct (l =? j); [apply G3|apply I4]; exact Hi.
  - intros w W i Hi. cbv beta. rewrite (proj2 (Nat.eqb_neq i c)) by lia. apply I5; [exact W|lia].
Qed.
Lemma qr_ok n m A c Q R : m <= n -> computeQRdecomposition norm tiny again drop n m A = Some (c, Q, R) -> factored n A m m c Q R.
Proof.
  intros Hm E. unfold computeQRdecomposition in E. destruct (qrColumns _ _ _ _ n A m 0 0 _ _) as [[[[all c'] Q'] R']|] eqn:Eq; [|discriminate].
  eapply qrColumns_ok in Eq; [|reflexivity|exact Hm|]. { destruct Eq as [-> I]. injection E as <- <- <-. exact I. }
  split; [lia|]. split; [intros i j Hi; lia|]. split; [intros; lia|]. split; [reflexivity|]. intros w W i Hi. lia.
Qed.
End QR.

(** * One update *)
Lemma fsum_app n m (f : vec) : fsum (Nat.add n m) f = fsum n f + fsum m (fun i => f (Nat.add n i)).
Proof. induction m as [|m IH]; [rewrite Nat.add_0_r; cbn [fsum]; ring|]. rewrite Nat.add_succ_r. cbn [fsum]. rewrite IH. ring. Qed.
Lemma beside_orthonormal n k a (psi P A : mat) m : orthonormal n k psi -> orthonormal n a P ->
  (forall w, (forall l, l < m -> fdot n w (fun e => outside n k psi A e l) = 0) -> forall i, i < a -> fdot n w (fun e => P e i) = 0) ->
  orthonormal n (Nat.add k a) (beside k psi P).
Proof.
  intros O1 O2 H.
  assert (X : forall i j, i < k -> j < a -> fdot n (fun e => psi e i) (fun e => P e j) = 0).
  { intros i j Hi Hj. apply H; [|exact Hj]. intros l Hl. unfold outside. rewrite fdot_minus, fdot_comb.
    rewrite (fsum_pick F k i); [|exact Hi|].
    - rewrite O1 by exact Hi. rewrite Nat.eqb_refl. unfold inside. ring.
    - intros q Hq Nq. rewrite O1 by assumption. rewrite (proj2 (Nat.eqb_neq i q)) by congruence. ring. }
  intros i j Hi Hj. unfold beside. destruct (Nat.ltb_spec i k), (Nat.ltb_spec j k).
  - apply O1; assumption.
  - rewrite X by lia. destruct (Nat.eqb_spec i j); [lia|reflexivity].
  - rewrite fdot_sym, X by lia. destruct (Nat.eqb_spec i j); [lia|reflexivity].
  - rewrite O2 by lia. destruct (Nat.eqb_spec (Nat.sub i k) (Nat.sub j k)), (Nat.eqb_spec i j); (reflexivity || lia).
Qed.
Lemma rotated_orthonormal n k r (Q U : mat) : orthonormal n k Q -> orthonormal k r U -> orthonormal n r (rotated k Q U).
Proof.
  intros OQ OU i j Hi Hj. unfold rotated. rewrite fdot_comb.
  rewrite <- (OU i j Hi Hj). unfold fdot at 2. apply fsum_ext. intros l Hl.
  rewrite fdot_sym, fdot_comb. rewrite (fsum_pick F k l); [|exact Hl|].
  - rewrite OQ by exact Hl. rewrite Nat.eqb_refl. ring.
  - intros q Hq Nq. rewrite OQ by assumption. rewrite (proj2 (Nat.eqb_neq l q)) by congruence. ring.
Qed.
Lemma beside_stacked k a (psi P up low : mat) e l :
  fsum (Nat.add k a) (fun i => beside k psi P e i * stacked k up low i l) = fsum k (fun i => psi e i * up i l) + fsum a (fun i => P e i * low i l).
Proof.
  rewrite fsum_app. f_equal; apply fsum_ext; intros i Hi; unfold beside, stacked.
  - rewrite (proj2 (Nat.ltb_lt _ _) Hi). reflexivity.
  - rewrite (proj2 (Nat.ltb_ge (Nat.add k i) k)) by lia. replace (Nat.sub (Nat.add k i) k) with i by lia. reflexivity.
Qed.
(** rotating the decomposition of the core *)
Lemma rotated_triple p q r (L Rt K U V : mat) sigma e f :
  (forall i j, i < p -> j < q -> triple r U sigma V i j = K i j) ->
  triple r (rotated p L U) sigma (rotated q Rt V) e f = fsum p (fun i => L e i * fsum q (fun j => K i j * Rt f j)).
Proof.
  intros H. unfold triple, rotated.
  transitivity (fsum r (fun t => fsum p (fun i => fsum q (fun j => L e i * ((U i t * sigma t * V j t) * Rt f j))))).
  { apply fsum_ext. intros t _. rewrite <- fsum_scale_r, <- fsum_scale_r. apply fsum_ext. intros i _.
    rewrite <- fsum_scale. apply fsum_ext. intros j _. ring. }
  rewrite fsum_swap. apply fsum_ext. intros i Hi. rewrite fsum_swap. rewrite <- fsum_scale. apply fsum_ext. intros j Hj.
  rewrite <- (H i j Hi Hj). unfold triple. rewrite <- fsum_scale_r, <- fsum_scale. reflexivity.
Qed.
Lemma core_product k a b m (psi P phi Q Au Al Bu Bl : mat) (sigma : vec) e f :
  fsum (Nat.add k a) (fun i => beside k psi P e i * fsum (Nat.add k b) (fun j => coreMatrix k m sigma (stacked k Au Al) (stacked k Bu Bl) i j * beside k phi Q f j)) =
  triple k psi sigma phi e f + fsum m (fun l => (fsum k (fun i => psi e i * Au i l) + fsum a (fun i => P e i * Al i l)) * (fsum k (fun i => phi f i * Bu i l) + fsum b (fun i => Q f i * Bl i l))).
Proof.
  transitivity (fsum (Nat.add k a) (fun i => beside k psi P e i * fsum (Nat.add k b) (fun j => (if (i =? j) && (i <? k) then sigma i else 0) * beside k phi Q f j))
    + fsum m (fun l => fsum (Nat.add k a) (fun i => beside k psi P e i * stacked k Au Al i l) * fsum (Nat.add k b) (fun j => beside k phi Q f j * stacked k Bu Bl j l))).
  - rewrite (fsum_ext F m _ (fun l => fsum (Nat.add k a) (fun i => fsum (Nat.add k b) (fun j => beside k psi P e i * stacked k Au Al i l * (beside k phi Q f j * stacked k Bu Bl j l))))).
    2: { intros l _. rewrite <- fsum_scale_r. apply fsum_ext. intros i _. rewrite <- fsum_scale. reflexivity. }
    rewrite fsum_swap, <- fsum_plus. apply fsum_ext. intros i _.
    rewrite fsum_swap, <- fsum_scale, <- fsum_scale, <- fsum_plus. apply fsum_ext. intros j _. unfold coreMatrix.
    rewrite (fsum_ext F m (fun l => beside k psi P e i * stacked k Au Al i l * (beside k phi Q f j * stacked k Bu Bl j l))
      (fun l => (beside k psi P e i * beside k phi Q f j) * (stacked k Au Al i l * stacked k Bu Bl j l))) by (intros; ring).
    rewrite fsum_scale. ring.
  - f_equal.
    + rewrite fsum_app. unfold triple.
      rewrite (fsum_zero F a).
      2: { intros i _. rewrite (fsum_zero F); [ring|]. intros j _. rewrite (proj2 (Nat.ltb_ge (Nat.add k i) k)) by lia. rewrite andb_false_r. ring. }
      rewrite (fsum_ext F k _ (fun i => psi e i * sigma i * phi f i)); [ring|].
      intros i Hi. rewrite (fsum_pick F (Nat.add k b) i); [|lia|].
      * rewrite Nat.eqb_refl. unfold beside. rewrite (proj2 (Nat.ltb_lt _ _) Hi). cbn [andb]. ring.
      * intros j _ Nj. rewrite (proj2 (Nat.eqb_neq i j)) by congruence. cbn [andb]. ring.
    + apply fsum_ext. intros l _. rewrite beside_stacked, beside_stacked. reflexivity.
Qed.
Lemma truncation_ok (below : F -> F -> bool) sigma : forall m i, i <= truncation below sigma m i <= Nat.add i m /\
  (truncation below sigma m i < Nat.add i m -> below (sigma (truncation below sigma m i)) (sigma O) = true) /\
  (forall j, i <= j -> j < truncation below sigma m i -> below (sigma j) (sigma O) = false).
Proof.
  induction m as [|m IH]; intros i; cbn [truncation]; [repeat split; lia|].
  destruct (below (sigma i) (sigma O)) eqn:E; [repeat split; try lia; intros _; exact E|].
  destruct (IH (S i)) as (A & B & C). repeat split; try lia.
  - intros H. apply B. lia.
  - intros j Hj Hk. destruct (Nat.eq_dec j i) as [->|]; [exact E|]. apply C; lia.
Qed.

Section Update.
Variable norm : nat -> vec -> option F.
Variable tiny : F -> bool.
Variable again : F -> F -> vec -> bool.
Variable drop : F -> F -> bool.
Variable jacobiSVD : nat -> nat -> mat -> option (mat * vec * mat).
Variable below : F -> F -> bool.
Hypothesis OK : arithmetic_ok norm tiny again.
Hypothesis noDrop : forall x y, drop x y = false.
Hypothesis SV : svd_ok jacobiSVD below.
Variables nA nB : nat.

(** psi and phi have orthonormal columns *)
Definition good (s : svd F) : Prop := s_init s = true -> orthonormal nA (s_cols s) (s_psi s) /\ orthonormal nB (s_cols s) (s_phi s).
(** the matrix the object stands for: nothing before the first update *)
Definition current (s : svd F) : mat := if s_init s then matrixOf s else fun _ _ => 0.

Lemma update_ok mA mB A B s s' : good s -> mA <= nA -> mB <= nB -> update norm tiny again drop jacobiSVD below nA nB mA mB A B s = Some s' ->
  mA = mB /\ s_init s' = true /\ s_cols s' <> O /\
  exists r, s_cols s' <= r /\ s_waste s' = Nat.add (s_waste s) (Nat.sub r (s_cols s')) /\
    decomposes nA nB r (fun e f => current s e f + outer mA A B e f) (s_psi s') (s_sigma s') (s_phi s') /\
    (forall i, i < s_cols s' -> below (s_sigma s' i) (s_sigma s' O) = false) /\
    (forall i, s_cols s' <= i -> i < r -> below (s_sigma s' i) (s_sigma s' O) = true).
Proof.
  intros G HA HB E. unfold update in E. destruct (Nat.eqb_spec mA mB) as [<-|]; [|discriminate]. cbn [negb] in E. split; [reflexivity|].
  assert (X : exists psi sigma phi k, (if s_init s then (s_psi s, s_sigma s, s_phi s, s_cols s) else ((fun _ _ => 0), (fun _ => 0), (fun _ _ => 0), O)) = (psi, sigma, phi, k) /\
    orthonormal nA k psi /\ orthonormal nB k phi /\ forall e f, current s e f = triple k psi sigma phi e f).
  { unfold current. destruct (s_init s) eqn:Ei; repeat eexists; try (intros i j Hi; lia); destruct (G Ei); assumption. }
  destruct X as (psi & sigma & phi & k & X & O1 & O2 & Cur). rewrite X in E. clear X.
  destruct (computeQRdecomposition _ _ _ _ nA mA _) as [[[a P] RA]|] eqn:EA; [|discriminate].
  destruct (computeQRdecomposition _ _ _ _ nB mA _) as [[[b Q] RB]|] eqn:EB; [|discriminate].
  destruct (jacobiSVD _ _ _) as [[[U sg] V]|] eqn:ES; [|discriminate].
  destruct (truncation below sg (Nat.min (Nat.add k a) (Nat.add k b)) 0 =? 0) eqn:E0; [discriminate|]. injection E as <-.
  cbn [s_init s_cols s_waste s_psi s_sigma s_phi]. split; [reflexivity|]. apply Nat.eqb_neq in E0. split; [exact E0|].
  apply (qr_ok norm tiny again drop OK noDrop) in EA, EB; [|assumption|assumption].
  destruct EA as (_ & A2 & A3 & _ & A5), EB as (_ & B2 & B3 & _ & B5).
  destruct (SV _ _ _ _ _ _ ES) as ((S1 & S2 & S3) & S4).
  destruct (truncation_ok below sg (Nat.min (Nat.add k a) (Nat.add k b)) 0) as (T1 & T2 & T3).
  exists (Nat.min (Nat.add k a) (Nat.add k b)). split; [lia|]. split; [reflexivity|]. split; [|split].
  - split; [|split].
    + apply rotated_orthonormal; [|exact S1]. eapply beside_orthonormal; eassumption.
    + apply rotated_orthonormal; [|exact S2]. eapply beside_orthonormal; eassumption.
    + intros e f He Hf. rewrite (rotated_triple _ _ _ _ _ _ _ _ _ _ _ S3), core_product, Cur. f_equal. unfold outer. apply fsum_ext. intros l Hl.
      rewrite A3, B3 by assumption. unfold outside. ring.
  - intros i Hi. apply T3; [lia|exact Hi].
  - intros i Hi Hr. apply (S4 (truncation below sg (Nat.min (Nat.add k a) (Nat.add k b)) 0)); [exact Hi|exact Hr|]. apply T2. lia.
Qed.
Lemma orthonormal_less n c d (Q : mat) : d <= c -> orthonormal n c Q -> orthonormal n d Q.
Proof. intros H O i j Hi Hj. apply O; lia. Qed.
Lemma update_good mA mB A B s s' : good s -> mA <= nA -> mB <= nB -> update norm tiny again drop jacobiSVD below nA nB mA mB A B s = Some s' -> good s'.
Proof.
  intros G HA HB E. apply update_ok in E; try assumption. destruct E as (_ & _ & _ & r & Hr & _ & (D1 & D2 & _) & _).
  intros _. split; eapply orthonormal_less; eassumption.
Qed.
End Update.

(** * What truncation loses *)
Lemma triple_app k d psi sigma phi e f : triple (F:=F) (Nat.add k d) psi sigma phi e f =
  triple k psi sigma phi e f + triple d (fun e i => psi e (Nat.add k i)) (fun i => sigma (Nat.add k i)) (fun f i => phi f (Nat.add k i)) e f.
Proof. unfold triple. apply fsum_app. Qed.
Lemma squares_triple nA nB k psi sigma phi : orthonormal nA k psi -> orthonormal nB k phi ->
  squares nA nB (triple k psi sigma phi) = fsum (F:=F) k (fun i => sigma i * sigma i).
Proof.
  intros O1 O2. unfold squares.
  transitivity (fsum k (fun i => fsum k (fun j => sigma i * sigma j * (fdot nA (fun e => psi e i) (fun e => psi e j) * fdot nB (fun e => phi e i) (fun e => phi e j))))).
  - transitivity (fsum nA (fun e => fsum nB (fun f => fsum k (fun i => fsum k (fun j => psi e i * sigma i * phi f i * (psi e j * sigma j * phi f j)))))).
    { apply fsum_ext. intros e _. apply fsum_ext. intros f _. unfold triple. rewrite <- fsum_scale_r. apply fsum_ext. intros i _. rewrite <- fsum_scale. reflexivity. }
    transitivity (fsum nA (fun e => fsum k (fun i => fsum k (fun j => fsum nB (fun f => psi e i * sigma i * phi f i * (psi e j * sigma j * phi f j)))))).
    { apply fsum_ext. intros e _. rewrite fsum_swap. apply fsum_ext. intros i _. apply fsum_swap. }
    rewrite fsum_swap. apply fsum_ext. intros i _. rewrite fsum_swap. apply fsum_ext. intros j _.
    unfold fdot. rewrite <- fsum_scale_r, <- fsum_scale. apply fsum_ext. intros e _.
    rewrite <- fsum_scale, <- fsum_scale. apply fsum_ext. intros f _. ring.
  - apply fsum_ext. intros i Hi. rewrite (fsum_pick F k i); [|exact Hi|].
    + rewrite O1, O2 by exact Hi. rewrite Nat.eqb_refl. ring.
    + intros j Hj Nj. rewrite O1, O2 by assumption. rewrite (proj2 (Nat.eqb_neq i j)) by congruence. ring.
Qed.
Lemma squares_ext nA nB (M N : mat) : (forall e f, e < nA -> f < nB -> M e f = N e f) -> squares nA nB M = squares nA nB N.
Proof. intros H. apply fsum_ext. intros e He. apply fsum_ext. intros f Hf. rewrite H by assumption. reflexivity. Qed.
End P.
