(** C86: the updated truncated singular value decomposition *)
From Coq Require Import Field Field_theory QArith Qcanon Bool List Arith Lia.
From Verif Require Import S_Field P_Field M_QR S_QR M_SVD S_SVD P_SVD.
From Verif Require T_QR M_Imvj.
Import ListNotations.
Close Scope Q_scope. Close Scope Qc_scope. Open Scope nat_scope.

Section T.
Variable F : field.
Add Field KT : (K_theory F).
Notation vec := (nat -> F).
Notation mat := (nat -> nat -> F).
Variable norm : nat -> vec -> option F.
Variable tiny : F -> bool.
Variable again : F -> F -> vec -> bool.
Variable drop : F -> F -> bool.
Variable jacobiSVD : nat -> nat -> mat -> option (mat * vec * mat).
Variable below : F -> F -> bool.
Variables nA nB : nat.
Notation update := (update norm tiny again drop jacobiSVD below nA nB).
Notation updates := (updates norm tiny again drop jacobiSVD below nA nB).

(** a new object, or one that was reset *)
Definition fresh (s : svd F) : Prop := s = created \/ exists t, s = resetSVD t.
Lemma fresh_init s : fresh s -> s_init s = false. Proof. intros [->|[t ->]]; reflexivity. Qed.
Lemma fresh_matrix s : fresh s -> forall e f, matrixOf s e f = zero.
Proof. intros [->|[t ->]] e f; [reflexivity|]. unfold matrixOf, triple. apply fsum_zero. intros k _. cbn [s_psi s_sigma s_phi resetSVD]. ring. Qed.

Section Exact.
Hypothesis OK : arithmetic_ok norm tiny again.
Hypothesis noDrop : forall x y, drop x y = false.
Hypothesis SV : svd_ok jacobiSVD below.

Lemma good_fresh s : fresh s -> good F nA nB s. Proof. intros H E. rewrite (fresh_init s H) in E. discriminate. Qed.
Lemma reach_good l : forall s0 s, good F nA nB s0 -> Forall (tall nA nB) l -> updates l s0 = Some s -> good F nA nB s /\ (l <> [] -> s_init s = true).
Proof.
  induction l as [|[[[mA mB] A] B] l IH]; intros s0 s G Ht E; cbn [M_SVD.updates] in E; [injection E as <-; split; [exact G|congruence]|].
  destruct (update mA mB A B s0) as [s1|] eqn:E1; [|discriminate]. inversion_clear Ht as [|? ? HT Ht']. unfold tall in HT. destruct HT as [HA HB].
  assert (G1 : good F nA nB s1) by (eapply update_good; eassumption).
  destruct (IH s1 s G1 Ht' E) as [G' I]. split; [exact G'|]. intros _. destruct l as [|p l]; [|apply I; discriminate].
  cbn [M_SVD.updates] in E. injection E as <-. eapply (update_ok F norm tiny again drop jacobiSVD below OK noDrop SV nA nB) in E1; try eassumption. apply E1.
Qed.
Lemma current_matrix l s0 s : fresh s0 -> Forall (tall nA nB) l -> updates l s0 = Some s -> good F nA nB s /\ forall e f, current F s e f = matrixOf s e f.
Proof.
  intros Fr Ht E. destruct (reach_good l s0 s (good_fresh s0 Fr) Ht E) as [G I]. split; [exact G|]. intros e f. unfold current.
  destruct l as [|p l]; [|rewrite I by discriminate; reflexivity].
  cbn [M_SVD.updates] in E. injection E as <-. rewrite fresh_init by exact Fr. symmetry. apply fresh_matrix, Fr.
Qed.

(** After any updates, an update with A and B gives the leading part of a singular value decomposition
    of the matrix before plus A * B^T: what is kept is at least the threshold, what is cut off is below it and
    counted *)
Theorem C86_update l s0 s mA mB A B s' : fresh s0 -> Forall (tall nA nB) ((mA, mB, A, B) :: l) -> updates l s0 = Some s -> update mA mB A B s = Some s' ->
  exists r Psi Sigma Phi, decomposes nA nB r (fun e f => add (matrixOf s e f) (outer mA A B e f)) Psi Sigma Phi /\
    0 < s_cols s' <= r /\ s_waste s' = s_waste s + (r - s_cols s') /\
    (forall e i, i < s_cols s' -> s_psi s' e i = Psi e i /\ s_sigma s' i = Sigma i /\ s_phi s' e i = Phi e i) /\
    (forall i, i < s_cols s' -> below (s_sigma s' i) (s_sigma s' 0) = false) /\
    (forall i, s_cols s' <= i < r -> below (Sigma i) (s_sigma s' 0) = true).
Proof.
  intros Fr Ht E U. inversion_clear Ht as [|? ? HT Ht']. unfold tall in HT. destruct HT as [HA HB]. destruct (current_matrix l s0 s Fr Ht' E) as [G C].
  eapply (update_ok F norm tiny again drop jacobiSVD below OK noDrop SV nA nB) in U; try eassumption.
  destruct U as (_ & _ & N & r & Hr & W & (D1 & D2 & D3) & K & L). exists r, (s_psi s'), (s_sigma s'), (s_phi s').
  split; [split; [exact D1|split; [exact D2|]]|split; [lia|split; [exact W|split; [auto|split; [exact K|]]]]].
  - intros e f He Hf. rewrite <- C. apply D3; assumption.
  - intros i Hi. apply L; lia.
Qed.
(** What an update loses: the squares of the differences add up to the squares of the values cut off *)
Theorem C86_error l s0 s mA mB A B s' : fresh s0 -> Forall (tall nA nB) ((mA, mB, A, B) :: l) -> updates l s0 = Some s -> update mA mB A B s = Some s' ->
  exists d lost, s_waste s' = s_waste s + d /\ (forall i, i < d -> below (lost i) (s_sigma s' 0) = true) /\
    squares nA nB (fun e f => sub (add (matrixOf s e f) (outer mA A B e f)) (matrixOf s' e f)) = fsum d (fun i => mul (lost i) (lost i)).
Proof.
  intros Fr Ht E U. inversion_clear Ht as [|? ? HT Ht']. unfold tall in HT. destruct HT as [HA HB]. destruct (current_matrix l s0 s Fr Ht' E) as [G C].
  eapply (update_ok F norm tiny again drop jacobiSVD below OK noDrop SV nA nB) in U; try eassumption.
  destruct U as (_ & _ & N & r & Hr & W & (D1 & D2 & D3) & K & L).
  exists (r - s_cols s'), (fun i => s_sigma s' (s_cols s' + i)). split; [exact W|]. split; [intros i Hi; apply L; lia|].
  rewrite <- (squares_triple F nA nB (r - s_cols s') (fun e i => s_psi s' e (s_cols s' + i)) (fun i => s_sigma s' (s_cols s' + i)) (fun e i => s_phi s' e (s_cols s' + i))).
  - apply squares_ext. intros e f He Hf. rewrite <- C, <- (D3 e f He Hf). replace r with (s_cols s' + (r - s_cols s')) at 1 by lia. rewrite triple_app. unfold matrixOf. ring.
  - intros i j Hi Hj. rewrite (D1 (s_cols s' + i) (s_cols s' + j)) by lia. destruct (Nat.eqb_spec (s_cols s' + i) (s_cols s' + j)), (Nat.eqb_spec i j); (reflexivity || lia).
  - intros i j Hi Hj. rewrite (D2 (s_cols s' + i) (s_cols s' + j)) by lia. destruct (Nat.eqb_spec (s_cols s' + i) (s_cols s' + j)), (Nat.eqb_spec i j); (reflexivity || lia).
Qed.
(** After any updates the columns are orthonormal, and if nothing was reported as cut off, then the
    matrix is the sum of all products *)
Theorem C86_history l s0 s : fresh s0 -> Forall (tall nA nB) l -> l <> [] -> updates l s0 = Some s ->
  orthonormal nA (s_cols s) (s_psi s) /\ orthonormal nB (s_cols s) (s_phi s) /\ s_waste s0 <= s_waste s /\
  (s_waste s = s_waste s0 -> forall e f, e < nA -> f < nB -> matrixOf s e f = total l e f).
Proof.
  intros Fr Ht Ne E. destruct (reach_good l s0 s (good_fresh s0 Fr) Ht E) as [G I]. specialize (I Ne). split; [apply G, I|]. split; [apply G, I|].
  assert (X : forall l s0 s, good F nA nB s0 -> Forall (tall nA nB) l -> updates l s0 = Some s -> s_waste s0 <= s_waste s /\
    (s_waste s = s_waste s0 -> forall e f, e < nA -> f < nB -> current F s e f = add (current F s0 e f) (total l e f))).
  { clear l s0 s Fr Ht Ne E G I. intros l. induction l as [|[[[mA mB] A] B] l IH]; intros s0 s G Ht E; cbn [M_SVD.updates] in E; [injection E as <-; split; [lia|intros; cbn [total]; ring]|].
    destruct (update mA mB A B s0) as [s1|] eqn:E1; [|discriminate]. inversion_clear Ht as [|? ? HT Ht']. unfold tall in HT. destruct HT as [HA HB].
    assert (G1 : good F nA nB s1) by (eapply update_good; eassumption).
    destruct (IH s1 s G1 Ht' E) as [Le IHe].
    eapply (update_ok F norm tiny again drop jacobiSVD below OK noDrop SV nA nB) in E1; try eassumption.
    destruct E1 as (_ & I1 & _ & r & Hr & W & (_ & _ & D) & _). split; [lia|]. intros Ew e f He Hf. rewrite IHe by (assumption || lia).
    replace (current F s1 e f) with (matrixOf s1 e f) by (unfold current; rewrite I1; reflexivity). unfold matrixOf.
    replace (s_cols s1) with r by lia. rewrite D by assumption. cbn [total]. ring. }
  destruct (X l s0 s (good_fresh s0 Fr) Ht E) as [Le Ex]. split; [exact Le|]. intros Ew e f He Hf.
  specialize (Ex Ew e f He Hf). unfold current in Ex. rewrite I, (fresh_init s0 Fr) in Ex. rewrite Ex. ring.
Qed.
(** The same for a caller that asks for the number of values cut off now and then: if all answers are
    zero, nothing is missing *)
Theorem C86_reports evs s0 s reports : fresh s0 -> Forall (tall nA nB) (pairs evs) -> perform norm tiny again drop jacobiSVD below nA nB evs s0 = Some (s, reports) ->
  s_waste s0 <= list_sum reports + s_waste s /\
  (list_sum reports + s_waste s = s_waste s0 -> forall e f, e < nA -> f < nB -> matrixOf s e f = total (pairs evs) e f).
Proof.
  intros Fr.
  assert (X : forall evs s0 s reports, good F nA nB s0 -> Forall (tall nA nB) (pairs evs) -> perform norm tiny again drop jacobiSVD below nA nB evs s0 = Some (s, reports) ->
    (s_init s = false -> s_init s0 = false /\ s_cols s = s_cols s0 /\ s_psi s = s_psi s0 /\ s_sigma s = s_sigma s0 /\ s_phi s = s_phi s0 /\ pairs evs = []) /\
    s_waste s0 <= list_sum reports + s_waste s /\
    (list_sum reports + s_waste s = s_waste s0 -> forall e f, e < nA -> f < nB -> current F s e f = add (current F s0 e f) (total (pairs evs) e f))).
  { clear s0 s evs reports Fr. induction evs as [|[[[[mA mB] A] B]|] evs IH]; intros s0 s reports G Ht E; cbn [perform pairs] in *.
    - injection E as <- <-. split; [auto 7|]. cbn [list_sum fold_right]. split; [lia|intros; cbn [total]; ring].
    - destruct (update mA mB A B s0) as [s1|] eqn:E1; [|discriminate]. inversion_clear Ht as [|? ? HT Ht']. unfold tall in HT. destruct HT as [HA HB].
      assert (G1 : good F nA nB s1) by (eapply update_good; eassumption).
      destruct (IH s1 s reports G1 Ht' E) as [In [Le IHe]].
      eapply (update_ok F norm tiny again drop jacobiSVD below OK noDrop SV nA nB) in E1; try eassumption.
      destruct E1 as (_ & I1 & _ & r & Hr & W & (_ & _ & D) & _). split; [intros I; destruct (In I); congruence|]. split; [lia|]. intros Ew e f He Hf. rewrite IHe by (assumption || lia).
      replace (current F s1 e f) with (matrixOf s1 e f) by (unfold current; rewrite I1; reflexivity). unfold matrixOf.
      replace (s_cols s1) with r by lia. rewrite D by assumption. cbn [total]. ring.
    - destruct (perform norm tiny again drop jacobiSVD below nA nB evs (snd (getWaste s0))) as [[s1 rs]|] eqn:E1; [|discriminate]. injection E as <- <-.
      destruct (IH (snd (getWaste s0)) s1 rs G Ht E1) as [In [Le IHe]]. cbn [getWaste snd s_waste s_init s_cols s_psi s_sigma s_phi] in *.
      split; [exact In|]. cbn [list_sum fold_right fst]. fold (list_sum rs). split; [lia|]. intros Ew. apply IHe. lia. }
  intros Ht E. destruct (X evs s0 s reports (good_fresh s0 Fr) Ht E) as (In & Le & Ex). split; [exact Le|]. intros Ew e f He Hf. specialize (Ex Ew e f He Hf).
  unfold current in Ex. rewrite (fresh_init s0 Fr) in Ex. destruct (s_init s).
  - rewrite Ex. ring.
  - destruct (In eq_refl) as (_ & C1 & C2 & C3 & C4 & C5). rewrite C5. cbn [total]. rewrite <- (fresh_matrix s0 Fr e f). unfold matrixOf. congruence.
Qed.
(** The first product of a decomposition must not vanish: the assertion on the first singular value fails *)
Theorem C86_zero_refuted s0 m A B : fresh s0 -> m <= nA -> (forall e l, e < nA -> l < m -> A e l = zero) -> update m m A B s0 = None.
Proof.
  intros Fr Hm Z. unfold M_SVD.update. rewrite Nat.eqb_refl, (fresh_init s0 Fr). cbn [negb].
  destruct (computeQRdecomposition norm tiny again drop nA m _) as [[[a P] RA]|] eqn:EA; [|reflexivity].
  destruct (computeQRdecomposition norm tiny again drop nB m _) as [[[b Q] RB]|] eqn:EB; [|reflexivity].
  assert (a = 0) as ->.
  { apply (qr_ok F norm tiny again drop OK noDrop) in EA; [|exact Hm]. destruct EA as (_ & O & _ & _ & H). destruct a as [|a]; [reflexivity|exfalso].
    assert (X : fdot nA (fun e => P e 0) (fun e => P e 0) = zero).
    { apply H; [|lia]. intros l Hl. unfold fdot. apply fsum_zero. intros e He. unfold outside. cbn [fsum]. rewrite Z by assumption. ring. }
    rewrite (O 0 0) in X by lia. cbn [Nat.eqb] in X. destruct (F_1_neq_0 (K_theory F) X). }
  destruct (jacobiSVD _ _ _) as [[[U sg] V]|]; reflexivity.
Qed.
End Exact.
(** The restart hands on the matrix of the decomposition *)
Theorem C86_chunk (s : svd F) e f : M_Imvj.product (chunk s) e f = matrixOf s e f.
Proof.
  unfold M_Imvj.product, chunk, matrixOf, triple, scaledPhi. cbn [fst snd]. rewrite map_length, seq_length. apply fsum_ext. intros k Hk.
  rewrite (nth_indep _ _ ((fun i e => s_psi s e i) 0)) by (rewrite map_length, seq_length; exact Hk). rewrite (map_nth (fun i e => s_psi s e i)), seq_nth by exact Hk.
  rewrite (nth_indep _ (fun _ => zero) ((fun i j => mul (s_phi s j i) (s_sigma s i)) 0)) by (rewrite map_length, seq_length; exact Hk).
  rewrite (map_nth (fun i j => mul (s_phi s j i) (s_sigma s i))), seq_nth by exact Hk. cbn [Nat.add]. ring.
Qed.
End T.
Print Assumptions C86_update.
Print Assumptions C86_error.
Print Assumptions C86_history.
Print Assumptions C86_reports.
Print Assumptions C86_zero_refuted.
Print Assumptions C86_chunk.

(** * Examples: rational numbers, with square roots and decompositions where they are rational *)
Notation QQ := T_QR.rationals.
Notation q := T_QR.q.
Definition eqq (x y : QQ) : bool := Qc_eq_bool x y.
Definition le (x y : QQ) : bool := if Qclt_le_dec y x then false else true.
Lemma le_true (x y : QQ) : le x y = true <-> (x <= y)%Qc.
Proof. unfold le. destruct (Qclt_le_dec y x) as [H|H]; split; try discriminate; auto. intros C. destruct (Qclt_not_le _ _ H C). Qed.
Lemma square_nonneg (x : Qc) : (0 <= x * x)%Qc.
Proof.
  unfold Qcle. change (this 0%Qc) with (Qmake 0 1). change (this (x * x)%Qc) with (Qred (Qmult (this x) (this x))). rewrite Qred_correct.
  destruct (this x) as [a b]. unfold Qle, Qmult. cbn [Qnum Qden]. rewrite Z.mul_0_l. apply Z.mul_nonneg_nonneg; [apply Z.square_nonneg|discriminate].
Qed.
Lemma sum_nonneg n (v : nat -> QQ) : (0 <= fdot n v v)%Qc.
Proof.
  unfold fdot. induction n as [|n IH]; cbn [fsum]; [apply Qcle_refl|]. replace 0%Qc with (0 + 0)%Qc by ring. apply Qcplus_le_compat; [exact IH|apply square_nonneg].
Qed.
Lemma both_zero (a b : Qc) : (0 <= a)%Qc -> (0 <= b)%Qc -> (a + b = 0)%Qc -> a = 0%Qc /\ b = 0%Qc.
Proof.
  intros A B H. assert (a <= 0)%Qc by (rewrite <- H; replace a with (a + 0)%Qc at 1 by ring; apply Qcplus_le_compat; [apply Qcle_refl|exact B]).
  assert (a = 0)%Qc by (apply Qcle_antisym; assumption). subst a. split; [reflexivity|]. rewrite <- H. ring.
Qed.
Lemma dot_zero n (v : nat -> QQ) : fdot n v v = zero -> forall e, e < n -> v e = zero.
Proof.
  induction n as [|n IH]; intros H e He; [lia|]. change (Qcplus (fdot n v v) (Qcmult (v n) (v n)) = 0%Qc) in H.
  destruct (both_zero _ _ (sum_nonneg n v) (square_nonneg (v n)) H) as [H1 H2]. destruct (Nat.eq_dec e n) as [->|]; [|apply IH; [exact H1|lia]].
  destruct (Qcmult_integral _ _ H2); assumption.
Qed.
(** the square root of a fraction of squares *)
Definition root (x : QQ) : option QQ :=
  let y : QQ := q (Z.sqrt (Qnum (this x))) (Z.to_pos (Z.sqrt (Zpos (Qden (this x))))) in
  if eqq (mul y y) x && le zero y then Some y else None.
Definition qnorm (n : nat) (v : nat -> QQ) : option QQ := root (fdot n v v).
Definition qtiny (x : QQ) : bool := eqq x zero.
(** rho * sqrt 2 <= rho0, for numbers that are not negative *)
Definition qagain (rho rho0 : QQ) (_ : nat -> QQ) : bool := le (add (mul rho rho) (mul rho rho)) (mul rho0 rho0).
Lemma eq_bool_iff (x y : QQ) : eqq x y = true <-> x = y.
Proof. split; [apply Qc_eq_bool_correct|intros ->]. unfold eqq, Qc_eq_bool. destruct (Qc_eq_dec y y); congruence. Qed.
Lemma root_some (x y : QQ) : root x = Some y -> mul y y = x /\ le zero y = true.
Proof.
  unfold root. generalize (q (Z.sqrt (Qnum (this x))) (Z.to_pos (Z.sqrt (Zpos (Qden (this x)))))). intros z. cbv zeta.
  destruct (eqq (mul z z) x) eqn:A; [|discriminate]. destruct (le zero z) eqn:B; [|discriminate]. intros [= <-]. split; [apply eq_bool_iff, A|exact B].
Qed.
Lemma twice_le (x : Qc) : (x * x + x * x <= x * x)%Qc -> x = 0%Qc.
Proof.
  intros C. assert (Y : (x * x <= 0)%Qc).
  { assert (D : (- (x * x) + (x * x + x * x) <= - (x * x) + x * x)%Qc) by (apply Qcplus_le_compat; [apply Qcle_refl|exact C]).
    replace (- (x * x) + (x * x + x * x))%Qc with (x * x)%Qc in D by ring. replace (- (x * x) + x * x)%Qc with 0%Qc in D by ring. exact D. }
  assert (Z : (x * x = 0)%Qc) by (apply Qcle_antisym; [exact Y|apply square_nonneg]). destruct (Qcmult_integral _ _ Z); assumption.
Qed.
Lemma rational_ok : arithmetic_ok qnorm qtiny qagain.
Proof.
  split; [|split; [|split]].
  - intros n v x E. unfold qnorm in E. destruct (root_some _ _ E) as [C _]. split; [exact C|]. intros Z. apply dot_zero. rewrite <- C. rewrite Z. apply Qcmult_0_l.
  - intros n v w H. unfold qnorm. f_equal. apply fdot_ext; exact H.
  - intros x. apply eq_bool_iff.
  - intros n v x s _ N _. unfold qagain. destruct (le _ _) eqn:C; [|reflexivity]. apply le_true in C. exfalso. apply N.
    exact (twice_le x C).
Qed.
(** _sigma(i) < _sigma(0) * eps *)
Definition qbelow (eps x y : QQ) : bool := negb (le (mul y eps) x).
Definition all (n : nat) (f : nat -> bool) : bool := forallb f (seq 0 n).
Lemma all_true n f : all n f = true -> forall i, i < n -> f i = true.
Proof. unfold all. rewrite forallb_forall. intros H i Hi. apply H, in_seq. lia. Qed.
Notation qmat := (nat -> nat -> QQ).
Definition orthob (n r : nat) (U : qmat) : bool := all r (fun i => all r (fun j => eqq (fdot n (fun e => U e i) (fun e => U e j)) (if i =? j then one else zero))).
Definition check (n m : nat) (M : qmat) (c : qmat * (nat -> QQ) * qmat) : bool :=
  let '(U, sigma, V) := c in
  orthob n (Nat.min n m) U && orthob m (Nat.min n m) V && all n (fun e => all m (fun f => eqq (triple (Nat.min n m) U sigma V e f) (M e f))) &&
  all (Nat.min n m) (fun i => all (Nat.min n m) (fun j => if i <=? j then le (sigma j) (sigma i) else true)).
(** the first candidate that is a decomposition *)
Definition qsvd (candidates : list (qmat * (nat -> QQ) * qmat)) (n m : nat) (M : qmat) : option (qmat * (nat -> QQ) * qmat) := find (check n m M) candidates.
Lemma orthob_true n r U : orthob n r U = true -> orthonormal n r U.
Proof. intros H i j Hi Hj. apply eq_bool_iff. exact (all_true _ _ (all_true _ _ H i Hi) j Hj). Qed.
Lemma qsvd_ok c eps : svd_ok (qsvd c) (qbelow eps).
Proof.
  intros n m M U sigma V E. apply find_some in E. destruct E as [_ E]. cbn [check] in E. rewrite !andb_true_iff in E. destruct E as (((E1 & E2) & E3) & E4).
  split; [split; [apply orthob_true, E1|split; [apply orthob_true, E2|]]|].
  - intros e f He Hf. apply eq_bool_iff. exact (all_true _ _ (all_true _ _ E3 e He) f Hf).
  - intros i j x Hij Hj B. assert (L : le (sigma j) (sigma i) = true).
    { pose proof (all_true _ _ (all_true _ _ E4 i ltac:(lia)) j Hj) as L. cbv beta in L. rewrite (proj2 (Nat.leb_le i j) Hij) in L. exact L. }
    unfold qbelow in *. destruct (le (mul x eps) (sigma j)) eqn:X; [|reflexivity]. apply le_true in X, L.
    rewrite (proj2 (le_true (mul x eps) (sigma i)) (Qcle_trans _ _ _ X L)) in B. discriminate.
Qed.
Definition m_ (rows : list (list QQ)) : qmat := fun e i => nth i (nth e rows []) (q 0 1).
Definition v_ (l : list QQ) : nat -> QQ := fun i => nth i l (q 0 1).
Definition qdrop (eps rho00 rho : QQ) : bool := le rho (mul eps rho00).
Definition off (_ _ : QQ) : bool := false.

(** (3, 4) (1, 0)^T and then (-36/25, 52/25) (1, 3)^T: values 9 and 4 *)
Definition two : list (nat * nat * qmat * qmat) :=
  [(1, 1, m_ [[q 3 1]; [q 4 1]], m_ [[q 1 1]; [q 0 1]]); (1, 1, m_ [[q (-36) 25]; [q 52 25]], m_ [[q 1 1]; [q 3 1]])].
Definition rot : qmat := m_ [[q 3 5; q (-4) 5]; [q 4 5; q 3 5]].
Definition cands : list (qmat * (nat -> QQ) * qmat) := [(m_ [[q 1 1]], v_ [q 5 1], m_ [[q 1 1]]); (rot, v_ [q 9 1; q 4 1], rot)].
Definition run (eps : QQ) := updates qnorm qtiny qagain off (qsvd cands) (qbelow eps) 2 2 two created.
Definition holds {A} (f : A -> bool) (o : option A) : bool := match o with Some s => f s | None => false end.
Lemma holds_true {A} (f : A -> bool) o : holds f o = true -> exists s, o = Some s /\ f s = true.
Proof. destruct o as [s|]; [|discriminate]. exists s. auto. Qed.
Example run_kept : exists s, run (q 1 10) = Some s /\ Forall (tall 2 2) two /\ s_cols s = 2 /\ s_waste s = 0.
Proof.
  assert (K : holds (fun s => (s_cols s =? 2) && (s_waste s =? 0)) (run (q 1 10)) = true) by (vm_compute; reflexivity).
  apply holds_true in K. destruct K as (s & E & K). apply andb_true_iff in K. destruct K as [K1 K2]. apply Nat.eqb_eq in K1, K2.
  exists s. split; [exact E|]. split; [repeat constructor|auto].
Qed.
Example run_truncated : exists s, run (q 1 2) = Some s /\ s_cols s = 1 /\ s_waste s = 1.
Proof.
  assert (K : holds (fun s => (s_cols s =? 1) && (s_waste s =? 1)) (run (q 1 2)) = true) by (vm_compute; reflexivity).
  apply holds_true in K. destruct K as (s & E & K). apply andb_true_iff in K. destruct K as [K1 K2]. apply Nat.eqb_eq in K1, K2. exists s. auto.
Qed.
(** the hypotheses of the theorems are met *)
Example kept_sum : exists s, run (q 1 10) = Some s /\ (forall e f, e < 2 -> f < 2 -> matrixOf s e f = total two e f) /\ total two 1 1 <> zero.
Proof.
  destruct run_kept as (s & E & Ht & _ & W). exists s. split; [exact E|].
  assert (H : two <> []) by discriminate.
  destruct (C86_history QQ qnorm qtiny qagain off (qsvd cands) (qbelow (q 1 10)) 2 2 rational_ok (fun _ _ => eq_refl) (qsvd_ok cands (q 1 10)) two created s (or_introl eq_refl) Ht H E) as (_ & _ & _ & X).
  split; [intros e f He Hf; apply X; assumption|]. intros C. apply eq_bool_iff in C. vm_compute in C. discriminate.
Qed.

(** More columns than rows: the columns from the number of rows on are lost, although nothing is reported *)
Definition wide : nat * nat * qmat * qmat := (2, 2, m_ [[q 1 1; q 1 1]], m_ [[q 1 1; q 0 1]; [q 0 1; q 1 1]]).
Definition unit2 : qmat := m_ [[q 1 1; q 0 1]; [q 0 1; q 1 1]].
Theorem C86_wide_refuted : exists candidates s,
  updates qnorm qtiny qagain off (qsvd candidates) (qbelow (q 0 1)) 1 2 [wide] created = Some s /\ s_waste s = 0 /\ matrixOf s 0 1 <> total [wide] 0 1 /\ ~ orthonormal 1 (s_cols s) (s_psi s).
Proof.
  exists [(unit2, v_ [q 1 1; q 0 1], unit2)].
  assert (K : holds (fun s => (s_waste s =? 0) && negb (eqq (matrixOf s 0 1) (total [wide] 0 1)) && (s_cols s =? 2) && negb (eqq (fdot 1 (fun e => s_psi s e 1) (fun e => s_psi s e 1)) one))
    (updates qnorm qtiny qagain off (qsvd [(unit2, v_ [q 1 1; q 0 1], unit2)]) (qbelow (q 0 1)) 1 2 [wide] created) = true) by (vm_compute; reflexivity).
  apply holds_true in K. destruct K as (s & E & K). rewrite !andb_true_iff in K. destruct K as (((K1 & K2) & K3) & K4). apply Nat.eqb_eq in K1, K3.
  exists s. split; [exact E|]. split; [exact K1|]. split.
  - intros C. apply eq_bool_iff in C. rewrite C in K2. discriminate.
  - intros O. specialize (O 1 1 ltac:(lia) ltac:(lia)). change (if 1 =? 1 then one else zero) with (@one QQ) in O. apply eq_bool_iff in O. rewrite O in K4. discriminate.
Qed.
(** The filter removes parts of a product that are not counted *)
Definition steep : nat * nat * qmat * qmat := (2, 2, m_ [[q 1 1; q 3999999 1]; [q 0 1; q 4000 1]], m_ [[q 3 1; q 0 1]; [q 0 1; q 4 3999999]]).
Theorem C86_filter_refuted : exists candidates s,
  updates qnorm qtiny qagain (qdrop (q 1 1000)) (qsvd candidates) (qbelow (q 0 1)) 2 2 [steep] created = Some s /\ s_waste s = 0 /\ matrixOf s 1 1 = zero /\ total [steep] 1 1 <> zero.
Proof.
  exists [(m_ [[q 1 1]], v_ [q 5 1], m_ [[q 3 5]; [q 4 5]])].
  assert (K : holds (fun s => (s_waste s =? 0) && eqq (matrixOf s 1 1) zero && negb (eqq (total [steep] 1 1) zero))
    (updates qnorm qtiny qagain (qdrop (q 1 1000)) (qsvd [(m_ [[q 1 1]], v_ [q 5 1], m_ [[q 3 5]; [q 4 5]])]) (qbelow (q 0 1)) 2 2 [steep] created) = true) by (vm_compute; reflexivity).
  apply holds_true in K. destruct K as (s & E & K). rewrite !andb_true_iff in K. destruct K as ((K1 & K2) & K3). apply Nat.eqb_eq in K1. apply eq_bool_iff in K2.
  exists s. split; [exact E|]. split; [exact K1|]. split; [exact K2|]. intros C. apply eq_bool_iff in C. rewrite C in K3. discriminate.
Qed.
Print Assumptions kept_sum.
Print Assumptions C86_wide_refuted.
Print Assumptions C86_filter_refuted.
