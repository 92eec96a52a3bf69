(** Inserting and deleting columns keeps a QR factorization. *)
From Coq Require Import Field Field_theory List Arith Lia Bool.
From Verif Require Import S_Field M_QR S_QR P_Field P_Dim.
Import ListNotations.

Section P.
Variable F : field.
Add Field KP : (K_theory F).
Local Infix "+" := (@add F). Local Infix "*" := (@mul F). Local Infix "-" := (@sub F). Local Notation "0" := (@zero F). Local Notation "1" := (@one F).
Local Infix "/" := (@div F).
Variable hyp : F -> F -> F.
Variable norm : nat -> (nat -> F) -> F.
Variable tiny : F -> bool.
Variable again : F -> F -> (nat -> F) -> bool.
Hypothesis HR : roots_ok hyp norm.
Hypothesis HT : tiny_ok tiny.

Lemma zero_dec_true (x : F) : is_zero x = true -> x = 0. Proof. apply is_zero_ok. Qed.
Lemma zero_dec_false (x : F) : is_zero x = false -> x <> 0. Proof. intros E C. apply is_zero_ok in C. congruence. Qed.

(** a rotation: a reflection with the matrix (gamma sigma; sigma -gamma) *)
Definition reflection (g : givens F) : Prop := gamma g * gamma g + sigma g * sigma g = 1 /\ 1 + gamma g <> 0.
Lemma reflect_eq g u v : reflection g -> reflect g u v = (u * gamma g + v * sigma g, u * sigma g - v * gamma g).
Proof.
  intros [E N]. unfold reflect. cbv zeta. f_equal.
  assert (S2 : sigma g * sigma g = (1 - gamma g) * (1 + gamma g)) by (transitivity (gamma g * gamma g + sigma g * sigma g - gamma g * gamma g); [ring|rewrite E; ring]).
  transitivity (u * sigma g + v * (sigma g * sigma g) / (1 + gamma g) - v); [field; exact N|]. rewrite S2. field. exact N.
Qed.
Lemma reflector_ok x y g x' y' : computeReflector hyp x y = (g, x', y') ->
  reflection g /\ x' = x * gamma g + y * sigma g /\ y' = x * sigma g - y * gamma g /\ y' = 0 /\ (y <> 0 -> x' <> 0 /\ sigma g <> 0).
Proof.
  unfold computeReflector. destruct (is_zero y) eqn:E.
  - apply zero_dec_true in E. intros H. injection H as <- <- <-. unfold reflection. cbn [sigma gamma]. rewrite E.
    split; [split; [ring|apply (proj1 HR)]|]. split; [ring|]. split; [ring|]. split; [reflexivity|]. intros C. contradiction C. reflexivity.
  - apply zero_dec_false in E. cbv zeta. intros H. injection H as <- <- <-. destruct (proj1 (proj2 HR) x y E) as [S2 [Nz N1]].
    unfold reflection. cbn [sigma gamma]. set (t := hyp x y) in *.
    split; [split|split; [|split; [|split; [|intros _; split]]]].
    + transitivity ((x * x + y * y) / (t * t)); [field; exact Nz|]. rewrite <- S2. field. exact Nz.
    + intros C. apply N1. transitivity (t * (1 + x / t)); [field; exact Nz|]. rewrite C. ring.
    + transitivity ((t * t) / t); [field; exact Nz|]. rewrite S2. field. exact Nz.
    + field. exact Nz.
    + reflexivity.
    + exact Nz.
    + apply div_nonzero; assumption.
Qed.

(** reflected columns *)
Lemma cols_l g l (Q : nat -> nat -> F) e : reflection g -> reflectCols g l Q e l = Q e l * gamma g + Q e (S l) * sigma g.
Proof. intros G. unfold reflectCols. rewrite Nat.eqb_refl, reflect_eq by exact G. reflexivity. Qed.
Lemma cols_Sl g l (Q : nat -> nat -> F) e : reflection g -> reflectCols g l Q e (S l) = Q e l * sigma g - Q e (S l) * gamma g.
Proof. intros G. unfold reflectCols. rewrite (proj2 (Nat.eqb_neq (S l) l) ltac:(lia)), Nat.eqb_refl, reflect_eq by exact G. reflexivity. Qed.
Lemma cols_other g l (Q : nat -> nat -> F) e j : j <> l -> j <> S l -> reflectCols g l Q e j = Q e j.
Proof. intros A B. unfold reflectCols. rewrite (proj2 (Nat.eqb_neq _ _) A), (proj2 (Nat.eqb_neq _ _) B). reflexivity. Qed.
Lemma rows_l g l a b (R : nat -> nat -> F) j : reflection g -> a <= j -> j < b -> reflectRows g l a b R l j = R l j * gamma g + R (S l) j * sigma g.
Proof. intros G A B. unfold reflectRows. rewrite (proj2 (Nat.leb_le _ _) A), (proj2 (Nat.ltb_lt _ _) B), Nat.eqb_refl, reflect_eq by exact G. reflexivity. Qed.
Lemma rows_Sl g l a b (R : nat -> nat -> F) j : reflection g -> a <= j -> j < b -> reflectRows g l a b R (S l) j = R l j * sigma g - R (S l) j * gamma g.
Proof. intros G A B. unfold reflectRows. rewrite (proj2 (Nat.leb_le _ _) A), (proj2 (Nat.ltb_lt _ _) B), (proj2 (Nat.eqb_neq (S l) l) ltac:(lia)), Nat.eqb_refl, reflect_eq by exact G. reflexivity. Qed.
Lemma rows_other g l a b (R : nat -> nat -> F) i j : i <> l -> i <> S l -> reflectRows g l a b R i j = R i j.
Proof. intros A B. unfold reflectRows. rewrite (proj2 (Nat.eqb_neq _ _) A), (proj2 (Nat.eqb_neq _ _) B). destruct (_ && _); reflexivity. Qed.
Lemma rows_left g l a b (R : nat -> nat -> F) i j : j < a -> reflectRows g l a b R i j = R i j.
Proof. intros A. unfold reflectRows. rewrite (proj2 (Nat.leb_gt _ _) A). reflexivity. Qed.

Lemma fdot_lin n (a b w : nat -> F) p q : fdot n (fun e => a e * p + b e * q) w = fdot n a w * p + fdot n b w * q.
Proof. unfold fdot. rewrite <- !fsum_scale_r, <- fsum_plus. apply fsum_ext. intros. ring. Qed.
Lemma fdot_linm n (a b w : nat -> F) p q : fdot n (fun e => a e * p - b e * q) w = fdot n a w * p - fdot n b w * q.
Proof. unfold fdot. rewrite <- !fsum_scale_r, <- fsum_minus. apply fsum_ext. intros. ring. Qed.

Lemma orthonormal_reflect n c Q g l : reflection g -> S l < c -> orthonormal n c Q -> orthonormal n c (reflectCols g l Q).
Proof.
  intros G Hl O i j Hi Hj.
  pose proof (O l l ltac:(lia) ltac:(lia)) as Ell. rewrite Nat.eqb_refl in Ell.
  pose proof (O (S l) (S l) ltac:(lia) ltac:(lia)) as Emm. rewrite Nat.eqb_refl in Emm.
  pose proof (O l (S l) ltac:(lia) ltac:(lia)) as Elm. rewrite (proj2 (Nat.eqb_neq l (S l)) ltac:(lia)) in Elm.
  pose proof (O (S l) l ltac:(lia) ltac:(lia)) as Eml. rewrite (proj2 (Nat.eqb_neq (S l) l) ltac:(lia)) in Eml.
  pose proof (proj1 G) as G1.
  assert (Cl : forall w, fdot n (fun e => reflectCols g l Q e l) w = fdot n (fun e => Q e l) w * gamma g + fdot n (fun e => Q e (S l)) w * sigma g).
  { intros w. rewrite <- fdot_lin. apply fdot_ext; [|reflexivity]. intros e _. apply cols_l, G. }
  assert (Cm : forall w, fdot n (fun e => reflectCols g l Q e (S l)) w = fdot n (fun e => Q e l) w * sigma g - fdot n (fun e => Q e (S l)) w * gamma g).
  { intros w. rewrite <- fdot_linm. apply fdot_ext; [|reflexivity]. intros e _. apply cols_Sl, G. }
  assert (Co : forall k w, k <> l -> k <> S l -> fdot n (fun e => reflectCols g l Q e k) w = fdot n (fun e => Q e k) w).
  { intros k w A B. apply fdot_ext; [|reflexivity]. intros e _. apply cols_other; assumption. }
  assert (Ol : forall k, k < c -> k <> l -> k <> S l -> fdot n (fun e => Q e k) (fun e => Q e l) = 0).
  { intros k Hk A B. rewrite O by lia. rewrite (proj2 (Nat.eqb_neq _ _) A). reflexivity. }
  assert (Om : forall k, k < c -> k <> l -> k <> S l -> fdot n (fun e => Q e k) (fun e => Q e (S l)) = 0).
  { intros k Hk A B. rewrite O by lia. rewrite (proj2 (Nat.eqb_neq _ _) B). reflexivity. }
  assert (Cl' : forall w, fdot n w (fun e => reflectCols g l Q e l) = fdot n w (fun e => Q e l) * gamma g + fdot n w (fun e => Q e (S l)) * sigma g).
  { intros w. rewrite fdot_sym, Cl, (fdot_sym F n _ w), (fdot_sym F n _ w). reflexivity. }
  assert (Cm' : forall w, fdot n w (fun e => reflectCols g l Q e (S l)) = fdot n w (fun e => Q e l) * sigma g - fdot n w (fun e => Q e (S l)) * gamma g).
  { intros w. rewrite fdot_sym, Cm, (fdot_sym F n _ w), (fdot_sym F n _ w). reflexivity. }
  assert (Co' : forall k w, k <> l -> k <> S l -> fdot n w (fun e => reflectCols g l Q e k) = fdot n w (fun e => Q e k)).
  { intros k w A B. rewrite fdot_sym, Co by assumption. apply fdot_sym. }
  destruct (Nat.eq_dec i l) as [->|Ni]; [|destruct (Nat.eq_dec i (S l)) as [->|Ni']];
    (destruct (Nat.eq_dec j l) as [->|Nj]; [|destruct (Nat.eq_dec j (S l)) as [->|Nj']]).
  - rewrite Cl, !Cl', Ell, Emm, Elm, Eml, Nat.eqb_refl. transitivity (gamma g * gamma g + sigma g * sigma g); [ring|exact G1].
  - rewrite Cl, !Cm', Ell, Emm, Elm, Eml, (proj2 (Nat.eqb_neq l (S l)) ltac:(lia)). ring.
  - rewrite Cl, !Co' by assumption. rewrite (fdot_sym F n (fun e => Q e l)), (fdot_sym F n (fun e => Q e (S l))), Ol, Om, (proj2 (Nat.eqb_neq l j) ltac:(lia)) by assumption. ring.
  - rewrite Cm, !Cl', Ell, Emm, Elm, Eml, (proj2 (Nat.eqb_neq (S l) l) ltac:(lia)). ring.
  - rewrite Cm, !Cm', Ell, Emm, Elm, Eml, Nat.eqb_refl. transitivity (gamma g * gamma g + sigma g * sigma g); [ring|exact G1].
  - rewrite Cm, !Co' by assumption. rewrite (fdot_sym F n (fun e => Q e l)), (fdot_sym F n (fun e => Q e (S l))), Ol, Om, (proj2 (Nat.eqb_neq (S l) j) ltac:(lia)) by assumption. ring.
  - rewrite Co by assumption. rewrite Cl', Ol, Om, (proj2 (Nat.eqb_neq i l) ltac:(lia)) by assumption. ring.
  - rewrite Co by assumption. rewrite Cm', Ol, Om, (proj2 (Nat.eqb_neq i (S l)) ltac:(lia)) by assumption. ring.
  - rewrite Co, Co' by assumption. apply O; assumption.
Qed.

(** the product of reflected columns and a reflected vector does not change *)
Lemma product_reflect c Q g l e (r r' : nat -> F) : reflection g -> S l < c ->
  (forall i, i < c -> i <> l -> i <> S l -> r' i = r i) -> r' l = r l * gamma g + r (S l) * sigma g -> r' (S l) = r l * sigma g - r (S l) * gamma g ->
  fsum c (fun i => reflectCols g l Q e i * r' i) = fsum c (fun i => Q e i * r i).
Proof.
  intros G Hl Ho El Em. apply (fsum_pair F c l); [exact Hl| |].
  - intros i Hi A B. rewrite cols_other, Ho by assumption. reflexivity.
  - rewrite cols_l, cols_Sl, El, Em by exact G. pose proof (proj1 G) as G1.
    transitivity ((Q e l * r l + Q e (S l) * r (S l)) * (gamma g * gamma g + sigma g * sigma g)); [ring|]. rewrite G1. ring.
Qed.

(** * Deletion *)
Section Delete.
Variables (n c k : nat) (A : nat -> nat -> F).
Hypothesis Hk : k < c.
Record dinv (l : nat) (Q R : nat -> nat -> F) : Prop := DInv {
  d_orth : orthonormal n c Q;
  d_prod : forall j, j < c -> j <> k -> forall e, e < n -> fsum c (fun i => Q e i * R i j) = A j e;
  d_low : forall j, j < k -> (forall i, j < i -> i < c -> R i j = 0) /\ R j j <> 0;
  d_k : forall i, k < i -> i < c -> R i k = 0;
  d_done : forall j, k < j -> j <= l -> j < c -> (forall i, j <= i -> i < c -> R i j = 0) /\ R (pred j) j <> 0;
  d_todo : forall j, l < j -> j < c -> (forall i, j < i -> i < c -> R i j = 0) /\ R j j <> 0 }.

Lemma setm_at (m : nat -> nat -> F) i j x : setm m i j x i j = x.
Proof. unfold setm. rewrite !Nat.eqb_refl. reflexivity. Qed.
Lemma setm_row (m : nat -> nat -> F) i j x a b : a <> i -> setm m i j x a b = m a b.
Proof. intros N. unfold setm. rewrite (proj2 (Nat.eqb_neq _ _) N). reflexivity. Qed.
Lemma setm_col (m : nat -> nat -> F) i j x a b : b <> j -> setm m i j x a b = m a b.
Proof. intros N. unfold setm. rewrite (proj2 (Nat.eqb_neq _ _) N), Bool.andb_false_r. reflexivity. Qed.

Lemma delete_step l Q R g x y : k <= l -> S l < c -> dinv l Q R -> computeReflector hyp (R l (S l)) (R (S l) (S l)) = (g, x, y) ->
  dinv (S l) (reflectCols g l Q) (reflectRows g l (S (S l)) c (setm (setm R l (S l) x) (S l) (S l) y)).
Proof.
  intros Hkl Hl D E. destruct (reflector_ok _ _ _ _ _ E) as [G [Ex [Ey [Ey0 Nx]]]].
  destruct (d_todo _ _ _ D (S l) ltac:(lia) Hl) as [Z1 D1]. destruct (Nx D1) as [Nx0 _]. clear Nx.
  set (R1 := setm (setm R l (S l) x) (S l) (S l) y). set (R' := reflectRows g l (S (S l)) c R1).
  assert (Cold : forall i j, j <= l -> R' i j = R i j).
  { intros i j Hj. unfold R'. rewrite rows_left by lia. unfold R1. rewrite !setm_col by lia. reflexivity. }
  assert (Cm_l : R' l (S l) = x).
  { unfold R'. rewrite rows_left by lia. unfold R1. rewrite setm_row by lia. apply setm_at. }
  assert (Cm_m : R' (S l) (S l) = y).
  { unfold R'. rewrite rows_left by lia. unfold R1. apply setm_at. }
  assert (Cother : forall i j, i <> l -> i <> S l -> R' i j = R i j).
  { intros i j A1 A2. unfold R'. rewrite rows_other by assumption. unfold R1. rewrite !setm_row by assumption. reflexivity. }
  assert (Cnew : forall i j, S l < j -> R1 i j = R i j).
  { intros i j Hj. unfold R1. rewrite !setm_col by lia. reflexivity. }
  constructor.
  - apply orthonormal_reflect; [exact G|exact Hl|apply (d_orth _ _ _ D)].
  - intros j Hj Nj e He. rewrite <- (d_prod _ _ _ D j Hj Nj e He).
    apply product_reflect; [exact G|exact Hl| | |].
    + intros i Hi A1 A2. apply Cother; assumption.
    + destruct (lt_eq_lt_dec j (S l)) as [[L| ->]|L].
      * rewrite Cold by lia.
        assert (Zl : R l j = 0 /\ R (S l) j = 0).
        { destruct (lt_eq_lt_dec j k) as [[L1|L1]|L1].
          - destruct (d_low _ _ _ D j L1) as [Z _]. split; apply Z; lia.
          - contradiction.
          - destruct (d_done _ _ _ D j L1 ltac:(lia) ltac:(lia)) as [Z _]. split; apply Z; lia. }
        destruct Zl as [-> ->]. ring.
      * rewrite Cm_l. exact Ex.
      * unfold R'. rewrite rows_l by (auto; lia). rewrite !Cnew by lia. reflexivity.
    + destruct (lt_eq_lt_dec j (S l)) as [[L| ->]|L].
      * rewrite Cold by lia.
        assert (Zl : R l j = 0 /\ R (S l) j = 0).
        { destruct (lt_eq_lt_dec j k) as [[L1|L1]|L1].
          - destruct (d_low _ _ _ D j L1) as [Z _]. split; apply Z; lia.
          - contradiction.
          - destruct (d_done _ _ _ D j L1 ltac:(lia) ltac:(lia)) as [Z _]. split; apply Z; lia. }
        destruct Zl as [-> ->]. ring.
      * rewrite Cm_m. exact Ey.
      * unfold R'. rewrite rows_Sl by (auto; lia). rewrite !Cnew by lia. reflexivity.
  - intros j Hj. destruct (d_low _ _ _ D j Hj) as [Z N]. split; [intros i A1 A2; rewrite Cold by lia; apply Z; assumption|rewrite Cold by lia; exact N].
  - intros i A1 A2. rewrite Cold by lia. apply (d_k _ _ _ D); assumption.
  - intros j A1 A2 A3. destruct (Nat.eq_dec j (S l)) as [->|N].
    + split; [|cbn [pred]; rewrite Cm_l; exact Nx0]. intros i B1 B2. destruct (Nat.eq_dec i (S l)) as [->|Ni]; [rewrite Cm_m; exact Ey0|].
      rewrite Cother by lia. apply Z1; lia.
    + destruct (d_done _ _ _ D j A1 ltac:(lia) A3) as [Z Nz]. split; [intros i B1 B2; rewrite Cold by lia; apply Z; assumption|rewrite Cold by lia; exact Nz].
  - intros j A1 A2. destruct (d_todo _ _ _ D j ltac:(lia) A2) as [Z Nz]. split.
    + intros i B1 B2. rewrite Cother by lia. apply Z; assumption.
    + rewrite Cother by lia. exact Nz.
Qed.

Lemma deleteLoop_ok m : forall l Q R Q' R', k <= l -> Nat.add l m = pred c -> dinv l Q R -> deleteLoop hyp c m l Q R = (Q', R') -> dinv (pred c) Q' R'.
Proof.
  induction m as [|m IH]; intros l Q R Q' R' Hkl Hm D E; cbn [deleteLoop] in E.
  - injection E as <- <-. replace (pred c) with l by lia. exact D.
  - destruct (computeReflector hyp (R l (S l)) (R (S l) (S l))) as [[g x] y] eqn:G.
    eapply (IH (S l)); [lia|lia| |exact E]. apply delete_step; [exact Hkl|lia|exact D|exact G].
Qed.
End Delete.

Lemma nth_firstn {B} (l : list B) d : forall k j, j < k -> nth j (firstn k l) d = nth j l d.
Proof.
  induction l as [|x l IH]; intros k j H; [rewrite firstn_nil; reflexivity|]. destruct k as [|k]; [lia|]. destruct j as [|j]; [reflexivity|].
  cbn [firstn nth]. apply IH. lia.
Qed.
Lemma nth_skipn {B} (l : list B) d : forall k j, nth j (skipn k l) d = nth (k + j)%nat l d.
Proof.
  induction l as [|x l IH]; intros k j; [rewrite skipn_nil; destruct j, (k + _)%nat; reflexivity|]. destruct k as [|k]; [reflexivity|]. cbn [skipn]. rewrite IH. reflexivity.
Qed.
Lemma length_delete {B} k (l : list B) : k < length l -> length (delete_at k l) = pred (length l).
Proof. intros H. unfold delete_at. rewrite app_length, firstn_length, skipn_length. lia. Qed.
Lemma nth_delete_low {B} k j (l : list B) d : k < length l -> j < k -> nth j (delete_at k l) d = nth j l d.
Proof. intros Hk Hj. unfold delete_at. rewrite app_nth1 by (rewrite firstn_length; lia). apply nth_firstn. exact Hj. Qed.
Lemma nth_delete_high {B} k j (l : list B) d : k < length l -> k <= j -> nth j (delete_at k l) d = nth (S j) l d.
Proof.
  intros Hk Hj. unfold delete_at. rewrite app_nth2 by (rewrite firstn_length; lia). rewrite firstn_length, nth_skipn. f_equal. lia.
Qed.
Lemma length_insert {B} k x (l : list B) : k <= length l -> length (insert_at k x l) = S (length l).
Proof. intros H. unfold insert_at. rewrite app_length. cbn [length]. rewrite firstn_length, skipn_length. lia. Qed.
Lemma nth_insert_low {B} k x j (l : list B) d : k <= length l -> j < k -> nth j (insert_at k x l) d = nth j l d.
Proof. intros Hk Hj. unfold insert_at. rewrite app_nth1 by (rewrite firstn_length; lia). apply nth_firstn. exact Hj. Qed.
Lemma nth_insert_at {B} k x (l : list B) d : k <= length l -> nth k (insert_at k x l) d = x.
Proof.
  intros Hk. unfold insert_at. rewrite app_nth2 by (rewrite firstn_length; lia). rewrite firstn_length. replace (k - Nat.min k (length l))%nat with O by lia. reflexivity.
Qed.
Lemma nth_insert_high {B} k x j (l : list B) d : k <= length l -> k < j -> nth j (insert_at k x l) d = nth (pred j) l d.
Proof.
  intros Hk Hj. unfold insert_at. rewrite app_nth2 by (rewrite firstn_length; lia). rewrite firstn_length.
  replace (j - Nat.min k (length l))%nat with (S (j - k - 1)) by lia. cbn [nth]. rewrite nth_skipn. f_equal. lia.
Qed.

Theorem delete_ok n V s k : factorizes n V s -> k < length V -> exists s', deleteColumn hyp k s = Some s' /\ factorizes n (delete_at k V) s'.
Proof.
  intros [Hr [Hc [O [[T1 T2] P]]]] Hk. unfold deleteColumn. rewrite (proj2 (Nat.ltb_lt k (cols s)) ltac:(lia)).
  set (c := cols s) in *.
  destruct (deleteLoop hyp c (c - 1 - k) k (Qm s) (Rm s)) as [Q R] eqn:E. eexists. split; [reflexivity|].
  assert (D : dinv n c k (fun j => nth j V (fun _ => 0)) (pred c) Q R).
  { eapply deleteLoop_ok; [| | | |exact E]; [lia|lia|lia|]. constructor.
    - exact O.
    - intros j Hj _ e He. apply P; assumption.
    - intros j Hj. split; [intros; apply T1; lia|apply T2; lia].
    - intros i A1 A2. apply T1; lia.
    - intros j A1 A2. lia.
    - intros j A1 A2. split; [intros; apply T1; lia|apply T2; lia]. }
  set (R' := fun i j => if (k <=? j) && (i <=? j) then R i (S j) else R i j).
  assert (Rlow : forall i j, j < k -> R' i j = R i j).
  { intros i j H. unfold R'. rewrite (proj2 (Nat.leb_gt _ _) H). reflexivity. }
  assert (Rhigh : forall i j, k <= j -> i < c -> S j < c -> R' i j = R i (S j)).
  { intros i j H H1 H2. unfold R'. rewrite (proj2 (Nat.leb_le _ _) H). cbn [andb]. destruct (Nat.leb_spec i j) as [L|L]; [reflexivity|].
    destruct (d_done _ _ _ _ _ _ _ D (S j) ltac:(lia) ltac:(lia) H2) as [Z _]. rewrite (Z i) by lia.
    destruct (Nat.eq_dec j k) as [->|N]; [apply (d_k _ _ _ _ _ _ _ D); lia|].
    destruct (d_done _ _ _ _ _ _ _ D j ltac:(lia) ltac:(lia) ltac:(lia)) as [Z' _]. apply Z'; lia. }
  split; [exact Hr|]. cbn [rows cols Qm Rm]. split; [rewrite length_delete by exact Hk; lia|]. split; [|split; [split|]].
  - intros i j Hi Hj. apply (d_orth _ _ _ _ _ _ _ D); lia.
  - intros i j Hi Hj. destruct (lt_dec j k) as [L|L].
    + change (R' i j = 0). rewrite Rlow by exact L. destruct (d_low _ _ _ _ _ _ _ D j L) as [Z _]. apply Z; lia.
    + change (R' i j = 0). rewrite Rhigh by lia. destruct (d_done _ _ _ _ _ _ _ D (S j) ltac:(lia) ltac:(lia) ltac:(lia)) as [Z _]. apply Z; lia.
  - intros i Hi. change (R' i i <> 0). destruct (lt_dec i k) as [L|L].
    + rewrite Rlow by exact L. apply (d_low _ _ _ _ _ _ _ D i L).
    + rewrite Rhigh by lia. apply (d_done _ _ _ _ _ _ _ D (S i) ltac:(lia) ltac:(lia) ltac:(lia)).
  - intros e j He Hj. change (fsum (c - 1) (fun i => Q e i * R' i j) = nth j (delete_at k V) (fun _ => 0) e).
    assert (Ec : c = S (c - 1)) by lia.
    destruct (lt_dec j k) as [L|L].
    + rewrite nth_delete_low by lia. rewrite <- (d_prod _ _ _ _ _ _ _ D j ltac:(lia) ltac:(lia) e He). rewrite Ec at 2. cbn [fsum].
      destruct (d_low _ _ _ _ _ _ _ D j L) as [Z _]. rewrite (Z (c - 1)%nat) by lia.
      rewrite (fsum_ext F _ (fun i => Q e i * R' i j) (fun i => Q e i * R i j)); [ring|]. intros i _. rewrite Rlow by exact L. reflexivity.
    + rewrite nth_delete_high by lia. rewrite <- (d_prod _ _ _ _ _ _ _ D (S j) ltac:(lia) ltac:(lia) e He). rewrite Ec at 2. cbn [fsum].
      destruct (d_done _ _ _ _ _ _ _ D (S j) ltac:(lia) ltac:(lia) ltac:(lia)) as [Z _]. rewrite (Z (c - 1)%nat) by lia.
      rewrite (fsum_ext F _ (fun i => Q e i * R' i j) (fun i => Q e i * R i (S j))); [ring|]. intros i Hi. rewrite Rhigh by lia. reflexivity.
Qed.

(** * Orthogonalization *)
Lemma fdot_proj n c Q v : orthonormal n c Q -> forall j, j < c -> fdot n (fun e => Q e j) (withoutProjections n c Q v) = 0.
Proof.
  intros O j Hj. unfold withoutProjections. rewrite fdot_minus, fdot_comb, (fsum_pick F c j); [|exact Hj|].
  - rewrite O by assumption. rewrite Nat.eqb_refl. unfold coefficients. rewrite (proj2 (Nat.ltb_lt _ _) Hj). ring.
  - intros k Hk N. rewrite O by assumption. rewrite (proj2 (Nat.eqb_neq j k) ltac:(lia)). ring.
Qed.
Lemma fdot_scaled n u v (x : F) : x <> 0 -> fdot n u (fun e => v e / x) = fdot n u v / x.
Proof. intros N. transitivity (fdot n u (fun e => (1 / x) * v e)); [apply fdot_ext; [reflexivity|intros; field; exact N]|]. rewrite fdot_scale. field. exact N. Qed.
Lemma not_tiny rho : tiny rho = false -> rho <> 0.
Proof. intros E C. unfold tiny_ok in HT. congruence. Qed.
Lemma normalized n v : norm n v <> 0 -> fdot n (fun e => v e / norm n v) (fun e => v e / norm n v) = 1.
Proof.
  intros N. rewrite fdot_scaled, fdot_sym, fdot_scaled by exact N. rewrite <- (proj1 (proj2 (proj2 HR) n v)). field. exact N.
Qed.
Lemma orth_ok n c Q : orthonormal n c Q -> forall fuel v r rho0 v' u rho,
  orthogonalize norm tiny again fuel n c Q v r rho0 = Some (v', u, rho) -> tiny rho = false ->
  (forall j, j < c -> fdot n (fun e => Q e j) v' = 0) /\ fdot n v' v' = 1 /\ u c = rho /\ rho <> 0 /\
  (forall e, e < n -> v e + fsum c (fun j => Q e j * r j) = fsum c (fun j => Q e j * u j) + v' e * rho).
Proof.
  intros O.
  assert (Last : forall v r v' u rho, tiny (norm n (withoutProjections n c Q v)) = false ->
    Some (fun e => withoutProjections n c Q v e / norm n (withoutProjections n c Q v), setv (fun j => if j <? c then r j + coefficients n c Q v j else r j) c (norm n (withoutProjections n c Q v)), norm n (withoutProjections n c Q v)) = Some (v', u, rho) ->
    (forall j, j < c -> fdot n (fun e => Q e j) v' = 0) /\ fdot n v' v' = 1 /\ u c = rho /\ rho <> 0 /\
    (forall e, e < n -> v e + fsum c (fun j => Q e j * r j) = fsum c (fun j => Q e j * u j) + v' e * rho)).
  { intros v r v' u rho Ht E. pose proof (not_tiny _ Ht) as N. injection E as <- <- <-. split; [|split; [|split; [|split]]].
    - intros j Hj. rewrite fdot_scaled by exact N. rewrite fdot_proj by assumption. field. exact N.
    - apply normalized, N.
    - unfold setv. rewrite Nat.eqb_refl. reflexivity.
    - exact N.
    - intros e _. rewrite (fsum_ext F c (fun j => Q e j * setv _ c _ j) (fun j => Q e j * r j + Q e j * coefficients n c Q v j)).
      2: { intros k Hk. cbv beta. unfold setv. rewrite (proj2 (Nat.eqb_neq k c) ltac:(lia)), (proj2 (Nat.ltb_lt _ _) Hk). ring. }
      rewrite fsum_plus. unfold withoutProjections at 1. field. exact N. }
  assert (T0 : tiny 0 = true) by exact HT.
  intros fuel. induction fuel as [|fuel IH]; intros v r rho0 v' u rho E Ht; cbn [orthogonalize] in E;
    (destruct (n =? c); [injection E as _ _ <-; congruence|]);
    (destruct (tiny (norm n (withoutProjections n c Q v))) eqn:Tw; [destruct (_ && _); [discriminate|injection E as _ _ <-; congruence]|]);
    destruct (again _ _ _).
  - discriminate.
  - apply (Last v r v' u rho); assumption.
  - destruct fuel as [|fuel]; [discriminate|]. destruct (IH _ _ _ _ _ _ E Ht) as [A [B [C [D G]]]].
    split; [exact A|split; [exact B|split; [exact C|split; [exact D|]]]]. intros e He. rewrite <- (G e He).
    rewrite (fsum_ext F c (fun j => Q e j * (if j <? c then r j + coefficients n c Q v j else r j)) (fun j => Q e j * r j + Q e j * coefficients n c Q v j)).
    2: { intros k Hk. rewrite (proj2 (Nat.ltb_lt _ _) Hk). ring. }
    rewrite fsum_plus. unfold withoutProjections. ring.
  - apply (Last v r v' u rho); assumption.
Qed.

(** * Insertion *)
Section Insert.
Variables (n c k : nat) (v : nat -> F) (A : nat -> nat -> F).
Hypothesis Hk : k <= c.
Record iinv (l : nat) (u : nat -> F) (Q R : nat -> nat -> F) : Prop := IInv {
  i_orth : orthonormal n (S c) Q;
  i_v : forall e, e < n -> fsum (S c) (fun i => Q e i * u i) = v e;
  i_u : (forall i, l < i -> i <= c -> u i = 0) /\ u l <> 0;
  i_prod : forall j, j <= c -> j <> k -> forall e, e < n -> fsum (S c) (fun i => Q e i * R i j) = A j e;
  i_low : forall j, j < k -> (forall i, j < i -> i <= c -> R i j = 0) /\ R j j <> 0;
  i_k : forall i, k < i -> i <= c -> R i k = 0;
  i_todo : forall j, k < j -> j <= l -> j <= c -> (forall i, j <= i -> i <= c -> R i j = 0) /\ R (pred j) j <> 0;
  i_done : forall j, l < j -> j <= c -> (forall i, j < i -> i <= c -> R i j = 0) /\ R j j <> 0 }.

Lemma setv_at (w : nat -> F) i x : setv w i x i = x.
Proof. unfold setv. rewrite Nat.eqb_refl. reflexivity. Qed.
Lemma setv_other (w : nat -> F) i x j : j <> i -> setv w i x j = w j.
Proof. intros N. unfold setv. rewrite (proj2 (Nat.eqb_neq _ _) N). reflexivity. Qed.

Lemma insert_step l u Q R g x y : k <= l -> S l <= c -> iinv (S l) u Q R -> computeReflector hyp (u l) (u (S l)) = (g, x, y) ->
  iinv l (setv (setv u l x) (S l) y) (reflectCols g l Q) (reflectRows g l (S l) (S c) R).
Proof.
  intros Hkl Hl I E. destruct (reflector_ok _ _ _ _ _ E) as [G [Ex [Ey [Ey0 Nx]]]].
  destruct (i_u _ _ _ _ I) as [U0 U1]. destruct (Nx U1) as [Nx0 Ns]. clear Nx.
  set (R' := reflectRows g l (S l) (S c) R). set (u' := setv (setv u l x) (S l) y).
  assert (Cold : forall i j, j <= l -> R' i j = R i j) by (intros i j Hj; apply rows_left; lia).
  assert (Cother : forall i j, i <> l -> i <> S l -> R' i j = R i j) by (intros i j A1 A2; apply rows_other; assumption).
  assert (u'l : u' l = x) by (unfold u'; rewrite setv_other by lia; apply setv_at).
  assert (u'm : u' (S l) = y) by (unfold u'; apply setv_at).
  assert (u'o : forall i, i <> l -> i <> S l -> u' i = u i) by (intros i A1 A2; unfold u'; rewrite !setv_other by assumption; reflexivity).
  constructor.
  - apply orthonormal_reflect; [exact G|lia|apply (i_orth _ _ _ _ I)].
  - intros e He. rewrite <- (i_v _ _ _ _ I e He). apply product_reflect; [exact G|lia| | |].
    + intros i _ A1 A2. apply u'o; assumption.
    + rewrite u'l. exact Ex.
    + rewrite u'm. exact Ey.
  - split; [|rewrite u'l; exact Nx0]. intros i A1 A2. destruct (Nat.eq_dec i (S l)) as [->|N]; [rewrite u'm; exact Ey0|]. rewrite u'o by lia. apply U0; lia.
  - intros j Hj Nj e He. rewrite <- (i_prod _ _ _ _ I j Hj Nj e He).
    assert (Zl : j <= l -> R l j = 0 /\ R (S l) j = 0).
    { intros L. destruct (lt_eq_lt_dec j k) as [[L1|L1]|L1].
      - destruct (i_low _ _ _ _ I j L1) as [Z _]. split; apply Z; lia.
      - contradiction.
      - destruct (i_todo _ _ _ _ I j L1 ltac:(lia) ltac:(lia)) as [Z _]. split; apply Z; lia. }
    apply product_reflect; [exact G|lia| | |].
    + intros i Hi A1 A2. apply Cother; assumption.
    + destruct (le_dec j l) as [L|L]; [destruct (Zl L) as [Z1 Z2]; rewrite Cold, Z1, Z2 by exact L; ring|].
      apply rows_l; [exact G|lia|lia].
    + destruct (le_dec j l) as [L|L]; [destruct (Zl L) as [Z1 Z2]; rewrite Cold, Z1, Z2 by exact L; ring|].
      apply rows_Sl; [exact G|lia|lia].
  - intros j Hj. destruct (i_low _ _ _ _ I j Hj) as [Z N]. split; [intros i A1 A2; rewrite Cold by lia; apply Z; assumption|rewrite Cold by lia; exact N].
  - intros i A1 A2. rewrite Cold by lia. apply (i_k _ _ _ _ I); assumption.
  - intros j A1 A2 A3. destruct (i_todo _ _ _ _ I j A1 ltac:(lia) A3) as [Z N]. split; [intros i B1 B2; rewrite Cold by lia; apply Z; assumption|rewrite Cold by lia; exact N].
  - intros j A1 A2. destruct (Nat.eq_dec j (S l)) as [->|N].
    + destruct (i_todo _ _ _ _ I (S l) ltac:(lia) ltac:(lia) A2) as [Z N]. cbn [pred] in N. split.
      * intros i B1 B2. rewrite Cother by lia. apply Z; lia.
      * unfold R'. rewrite rows_Sl; [|exact G|lia|lia]. rewrite (Z (S l)) by lia. intros C. apply (mul_nonzero F (R l (S l)) (sigma g) N Ns). rewrite <- C. ring.
    + destruct (i_done _ _ _ _ I j ltac:(lia) A2) as [Z Nz]. split; [intros i B1 B2; rewrite Cother by lia; apply Z; assumption|rewrite Cother by lia; exact Nz].
Qed.

Lemma insertLoop_ok m : forall u Q R u' Q' R', Nat.add k m <= c -> iinv (Nat.add k m) u Q R -> insertLoop hyp (S c) m k u Q R = (u', Q', R') -> iinv k u' Q' R'.
Proof.
  induction m as [|m IH]; intros u Q R u' Q' R' Hm I E; cbn [insertLoop] in E.
  - injection E as <- <- <-. rewrite Nat.add_0_r in I. exact I.
  - destruct (computeReflector hyp (u (Nat.add k m)) (u (S (Nat.add k m)))) as [[g x] y] eqn:G.
    eapply IH; [lia| |exact E]. apply insert_step; [lia|lia| |exact G]. rewrite <- Nat.add_succ_r. exact I.
Qed.
End Insert.

Theorem insert_ok n V s k v drop : factorizes n V s -> k <= length V -> exists b s', insertColumn hyp norm tiny again k v drop s = Some (b, s') /\
  factorizes n (if b then insert_at k v V else V) s' /\ (b = false -> s' = s).
Proof.
  intros Fs Hk. pose proof Fs as [Hr [Hc [O [[T1 T2] P]]]]. unfold insertColumn. rewrite (proj2 (Nat.leb_le k (cols s)) ltac:(lia)).
  destruct (orthogonalize norm tiny again 4 (rows s) (cols s) (Qm s) v (fun _ => 0) (norm (rows s) v)) as [[[v' u] rho]|] eqn:E.
  2: { exists false, s. split; [reflexivity|]. split; [exact Fs|reflexivity]. }
  destruct (tiny rho) eqn:Ht; [exists false, s; split; [reflexivity|]; split; [exact Fs|reflexivity]|].
  destruct (drop _ rho); [exists false, s; split; [reflexivity|]; split; [exact Fs|reflexivity]|].
  rewrite Hr in E. set (c := cols s) in *.
  destruct (orth_ok n c (Qm s) O 4 v _ _ v' u rho E Ht) as [Ov [Nv [Uc [Nr Ev]]]].
  set (Q0 := fun e j => if j =? c then v' e else Qm s e j). set (R0 := makeRoom c k (Rm s)).
  assert (Qc : forall e, Q0 e c = v' e) by (intros e; unfold Q0; rewrite Nat.eqb_refl; reflexivity).
  assert (Ql : forall e j, j < c -> Q0 e j = Qm s e j) by (intros e j Hj; unfold Q0; rewrite (proj2 (Nat.eqb_neq j c) ltac:(lia)); reflexivity).
  assert (Rlow : forall i j, j < k -> i < c -> R0 i j = Rm s i j).
  { intros i j H1 H2. unfold R0, makeRoom. rewrite (proj2 (Nat.ltb_ge k j) ltac:(lia)). cbn [andb].
    rewrite (proj2 (Nat.eqb_neq i c) ltac:(lia)), (proj2 (Nat.eqb_neq j c) ltac:(lia)). reflexivity. }
  assert (Rlast : forall j, R0 c j = 0).
  { intros j. unfold R0, makeRoom. destruct ((k <? j) && (c =? j)); [reflexivity|].
    destruct ((k <? j) && (j <=? c) && (c <? j)) eqn:B; [|rewrite Nat.eqb_refl; reflexivity].
    apply andb_prop in B. destruct B as [B B']. apply andb_prop in B. destruct B as [_ B]. apply Nat.leb_le in B. apply Nat.ltb_lt in B'. lia. }
  assert (Rhigh : forall i j, k < j -> j <= c -> i < c -> R0 i j = Rm s i (pred j)).
  { intros i j H1 H2 H3. unfold R0, makeRoom. rewrite (proj2 (Nat.ltb_lt k j) H1), (proj2 (Nat.leb_le j c) H2). cbn [andb].
    destruct (Nat.eqb_spec i j) as [->|N]; [symmetry; apply T1; lia|]. destruct (Nat.ltb_spec i j) as [L|L]; [f_equal; lia|].
    rewrite (T1 i (pred j)) by lia. destruct ((i =? c) || (j =? c)) eqn:B; [reflexivity|]. apply T1; lia. }
  assert (Rk : forall i, k < i -> i <= c -> R0 i k = 0).
  { intros i H1 H2. destruct (Nat.eq_dec i c) as [->|N]; [apply Rlast|]. unfold R0, makeRoom. rewrite (proj2 (Nat.ltb_ge k k) ltac:(lia)). cbn [andb].
    destruct ((i =? c) || (k =? c)); [reflexivity|apply T1; lia]. }
  destruct (insertLoop hyp (S c) (c - k) k u Q0 R0) as [[u1 Q1] R1] eqn:L.
  assert (I : iinv n c k v (fun j => nth j (insert_at k v V) (fun _ => 0)) k u1 Q1 R1).
  { eapply insertLoop_ok; [lia| | |exact L]; [lia|]. replace (k + (c - k))%nat with c by lia. constructor.
    - intros i j Hi Hj. destruct (Nat.eq_dec i c) as [->|Ni]; destruct (Nat.eq_dec j c) as [->|Nj].
      + rewrite Nat.eqb_refl. rewrite <- Nv. apply fdot_ext; intros; apply Qc.
      + rewrite (proj2 (Nat.eqb_neq c j) ltac:(lia)), fdot_sym. rewrite <- (Ov j ltac:(lia)). apply fdot_ext; intros; [apply Ql; lia|apply Qc].
      + rewrite (proj2 (Nat.eqb_neq i c) ltac:(lia)). rewrite <- (Ov i ltac:(lia)). apply fdot_ext; intros; [apply Ql; lia|apply Qc].
      + rewrite <- (O i j ltac:(lia) ltac:(lia)). apply fdot_ext; intros; apply Ql; lia.
    - intros e He. cbn [fsum]. rewrite Qc, Uc, (fsum_ext F c _ (fun i => Qm s e i * u i)) by (intros; rewrite Ql by assumption; reflexivity).
      rewrite <- (Ev e He). rewrite (fsum_zero F c); [ring|]. intros. ring.
    - split; [intros; lia|]. rewrite Uc. exact Nr.
    - intros j Hj Nj e He. cbn [fsum]. rewrite Rlast. destruct (lt_dec j k) as [L1|L1].
      + rewrite nth_insert_low by lia. rewrite <- (P e j He ltac:(lia)).
        rewrite (fsum_ext F c _ (fun i => Qm s e i * Rm s i j)); [ring|]. intros i Hi. rewrite Ql, Rlow by lia. reflexivity.
      + rewrite nth_insert_high by lia. rewrite <- (P e (pred j) He ltac:(lia)).
        rewrite (fsum_ext F c _ (fun i => Qm s e i * Rm s i (pred j))); [ring|]. intros i Hi. rewrite Ql, Rhigh by lia. reflexivity.
    - intros j Hj. split; [|rewrite Rlow by lia; apply T2; lia]. intros i A1 A2. destruct (Nat.eq_dec i c) as [->|N]; [apply Rlast|]. rewrite Rlow by lia. apply T1; lia.
    - intros i A1 A2. apply Rk; assumption.
    - intros j A1 A2 A3. split; [|rewrite Rhigh by lia; apply T2; lia]. intros i B1 B2. destruct (Nat.eq_dec i c) as [->|N]; [apply Rlast|]. rewrite Rhigh by lia. apply T1; lia.
    - intros j A1 A2. lia. }
  exists true. eexists. split; [reflexivity|]. split; [|discriminate].
  set (R' := fun i j => if (j =? k) && (i <=? k) then u1 i else R1 i j).
  assert (Rother : forall i j, j <> k -> R' i j = R1 i j) by (intros i j N; unfold R'; rewrite (proj2 (Nat.eqb_neq _ _) N); reflexivity).
  assert (Ru : forall i, i <= c -> R' i k = u1 i).
  { intros i Hi. unfold R'. rewrite Nat.eqb_refl. cbn [andb]. destruct (Nat.leb_spec i k) as [L1|L1]; [reflexivity|].
    rewrite (i_k _ _ _ _ _ _ _ _ _ I) by lia. symmetry. apply (i_u _ _ _ _ _ _ _ _ _ I); lia. }
  split; [exact Hr|]. cbn [rows cols Qm Rm]. split; [rewrite length_insert by exact Hk; lia|]. split; [|split; [split|]].
  - apply (i_orth _ _ _ _ _ _ _ _ _ I).
  - intros i j Hi Hj. change (R' i j = 0). destruct (Nat.eq_dec j k) as [->|N].
    + rewrite Ru by lia. apply (i_u _ _ _ _ _ _ _ _ _ I); lia.
    + rewrite Rother by exact N. destruct (lt_dec j k) as [L1|L1].
      * apply (i_low _ _ _ _ _ _ _ _ _ I); lia.
      * apply (i_done _ _ _ _ _ _ _ _ _ I); lia.
  - intros i Hi. change (R' i i <> 0). destruct (Nat.eq_dec i k) as [->|N].
    + rewrite Ru by lia. apply (i_u _ _ _ _ _ _ _ _ _ I).
    + rewrite Rother by exact N. destruct (lt_dec i k) as [L1|L1].
      * apply (i_low _ _ _ _ _ _ _ _ _ I); lia.
      * apply (i_done _ _ _ _ _ _ _ _ _ I); lia.
  - intros e j He Hj. change (fsum (S c) (fun i => Q1 e i * R' i j) = nth j (insert_at k v V) (fun _ => 0) e). destruct (Nat.eq_dec j k) as [->|N].
    + rewrite nth_insert_at by lia. rewrite <- (i_v _ _ _ _ _ _ _ _ _ I e He). apply fsum_ext. intros i Hi. rewrite Ru by lia. reflexivity.
    + rewrite <- (i_prod _ _ _ _ _ _ _ _ _ I j ltac:(lia) N e He). apply fsum_ext. intros i Hi. rewrite Rother by exact N. reflexivity.
Qed.
End P.
