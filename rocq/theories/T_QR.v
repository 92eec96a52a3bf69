(** C68: the QR factorization of the quasi-Newton accelerations stays a factorization. *)
From Coq Require Import Field Field_theory List Arith Lia Bool QArith Qcanon Reals Lra.
From Verif Require Import S_Field M_QR S_QR P_Field P_Dim P_QR P_QRsolve P_QRfilter.
Import ListNotations.
Local Open Scope nat_scope.

Section T.
Variable F : field.
Variable hyp : F -> F -> F.
Variable norm : nat -> (nat -> F) -> F.
Variable tiny : F -> bool.
Variable again : F -> F -> (nat -> F) -> bool.
Variable singular : (nat -> nat -> F) -> nat -> nat -> bool.

(** A column inserted at any position: the result factorizes the matrix with the column, or the
    column is refused and nothing changes. *)
Theorem C68_insertion n V s k v drop : roots_ok hyp norm -> tiny_ok tiny -> factorizes n V s -> k <= length V ->
  exists inserted s', insertColumn hyp norm tiny again k v drop s = Some (inserted, s') /\
    (if inserted then factorizes n (insert_at k v V) s' else s' = s).
Proof.
  intros HR HT Fs Hk. destruct (insert_ok F hyp norm tiny again HR HT n V s k v drop Fs Hk) as [b [s' [E [F1 N]]]].
  exists b, s'. split; [exact E|]. destruct b; [exact F1|apply N; reflexivity].
Qed.

(** Deleting any column *)
Theorem C68_deletion n V s k : roots_ok hyp norm -> factorizes n V s -> k < length V ->
  exists s', deleteColumn hyp k s = Some s' /\ factorizes n (delete_at k V) s'.
Proof. intros HR Fs Hk. exact (delete_ok F hyp norm HR n V s k Fs Hk). Qed.

(** The columns at the ends *)
Theorem C68_ends n V s v : roots_ok hyp norm -> tiny_ok tiny -> factorizes n V s ->
  (exists inserted s', pushFront hyp norm tiny again v s = Some (inserted, s') /\ if inserted then factorizes n (v :: V) s' else s' = s) /\
  (exists inserted s', pushBack hyp norm tiny again v s = Some (inserted, s') /\ if inserted then factorizes n (V ++ [v]) s' else s' = s) /\
  (V <> [] -> exists s', popFront hyp s = Some s' /\ factorizes n (tl V) s') /\
  (V <> [] -> exists s', popBack hyp s = Some s' /\ factorizes n (removelast V) s').
Proof.
  intros HR HT Fs. assert (L : cols s = length V) by (apply Fs). split; [|split; [|split]].
  - exact (C68_insertion n V s 0 v never HR HT Fs (Nat.le_0_l _)).
  - destruct (C68_insertion n V s (length V) v never HR HT Fs (le_n _)) as (b & s' & E & H). exists b, s'. unfold pushBack. rewrite L. split; [exact E|]. destruct b; [|exact H]. unfold insert_at in H. rewrite firstn_all, skipn_all in H. exact H.
  - intros N. destruct V as [|x V]; [congruence|]. apply (C68_deletion n (x :: V) s 0 HR Fs). cbn. lia.
  - intros N. destruct (exists_last N) as (V0 & x & ->). rewrite removelast_last. destruct (C68_deletion n (V0 ++ [x]) s (length V0) HR Fs) as (s' & E & H); [rewrite app_length; cbn; lia|].
    exists s'. unfold popBack. rewrite L, app_length, Nat.add_sub. split; [exact E|]. unfold delete_at in H. rewrite firstn_app, Nat.sub_diag, firstn_all, firstn_O, app_nil_r in H. rewrite (skipn_all2 (n := S (length V0))) in H by (rewrite app_length; cbn; lia). rewrite app_nil_r in H. exact H.
Qed.

(** Without a filter and in exact arithmetic a column is refused if and only if it depends on the others. *)
Theorem C68_refused_columns_are_dependent n V s k v inserted s' : roots_ok hyp norm -> exact norm tiny again -> factorizes n V s -> k <= length V ->
  insertColumn hyp norm tiny again k v never s = Some (inserted, s') -> (inserted = false <-> in_span n V v).
Proof.
  intros HR HE Fs Hk E. destruct inserted; split; intros H.
  - discriminate.
  - exfalso. exact (inserted_not_span F hyp norm tiny again HR HE n V s k v s' never Fs Hk E H).
  - exact (rejected_span F hyp norm tiny again HR HE n V s k v s' Fs Hk E).
  - reflexivity.
Qed.

(** Rebuilding from a matrix: the result factorizes the columns that are not reported *)
Theorem C68_rebuilding n V drop : roots_ok hyp norm -> tiny_ok tiny ->
  exists s refused, reset hyp norm tiny again n drop V = Some (s, refused) /\ factorizes n (without refused V) s /\ (forall d, In d refused -> d < length V).
Proof.
  intros HR HT. destruct (insertAll_ok F hyp norm tiny again HR HT n drop V 0 [] (empty n) (empty_ok F n)) as [s [del [E [F1 D]]]].
  exists s, del. split; [exact E|]. split; [exact F1|]. intros d Hd. apply D in Hd. lia.
Qed.

(** The QR1 filters end, and report exactly the columns that are gone *)
Theorem C68_filtering n V s : roots_ok hyp norm -> factorizes n V s ->
  exists s' removed, applyQR1 hyp singular s = Some (s', removed) /\ factorizes n (without removed V) s' /\ (forall d, In d removed -> d < length V).
Proof. intros HR Fs. exact (qr1_ok F hyp norm singular HR n V s Fs). Qed.

(** Any history of calls *)
Theorem C68_every_history n calls : roots_ok hyp norm -> tiny_ok tiny -> forall s V, factorizes n V s ->
  positions_ok hyp norm tiny again singular calls s V ->
  exists s' V', history hyp norm tiny again singular calls s V = Some (s', V') /\ factorizes n V' s'.
Proof.
  intros HR HT. induction calls as [|a calls IH]; intros s V Fs Pos.
  - exists s, V. split; [reflexivity|exact Fs].
  - destruct Pos as [Pa Pr]. cbn [history].
    assert (A : exists s1 V1, perform hyp norm tiny again singular a s V = Some (s1, V1) /\ factorizes n V1 s1).
    { destruct a as [k v drop|k| |V0 drop]; cbn [perform position_ok] in *.
      - destruct (C68_insertion n V s k v drop HR HT Fs Pa) as [b [s1 [E F1]]]. rewrite E. destruct b; [exists s1, (insert_at k v V)|exists s1, V]; (split; [reflexivity|]); [exact F1|rewrite F1; exact Fs].
      - destruct (C68_deletion n V s k HR Fs Pa) as [s1 [E F1]]. rewrite E. exists s1, (delete_at k V). split; [reflexivity|exact F1].
      - destruct (C68_filtering n V s HR Fs) as [s1 [d [E [F1 _]]]]. rewrite E. exists s1, (without d V). split; [reflexivity|exact F1].
      - rewrite (proj1 Fs). destruct (C68_rebuilding n V0 drop HR HT) as [s1 [d [E [F1 _]]]]. rewrite E. exists s1, (without d V0). split; [reflexivity|exact F1]. }
    destruct A as [s1 [V1 [E F1]]]. rewrite E. apply IH; [exact F1|]. apply Pr, E.
Qed.

(** Solving with the factorization: the coefficients minimize the sum of squares of r + V c, every
    other choice is worse by the sum of squares of V times the difference. *)
Theorem C68_least_squares n V s r : factorizes n V s ->
  let c := solveUpper (cols s) (Rm s) (fun i => @opp F (fdot n (fun e => Qm s e i) r)) in
  let rest (y : nat -> F) := fun e => add (r e) (combination V y e) in
  (forall j, j < length V -> fdot n (nth j V (fun _ => zero)) (rest c) = zero) /\
  (forall y : nat -> F, let d := combination V (fun j => sub (y j) (c j)) in fdot n (rest y) (rest y) = add (fdot n (rest c) (rest c)) (fdot n d d)).
Proof.
  intros Fs c rest. assert (N := normal_equations F n V s r Fs). split; [exact N|]. intros y d. apply pythagoras, N.
Qed.
(** The columns are independent, so the coefficients are unique. *)
Theorem C68_columns_are_independent n V (s : qr F) x : factorizes n V s -> (forall e, e < n -> combination V x e = zero) -> forall j, j < length V -> x j = zero.
Proof. intros Fs H. exact (independent F n V s x Fs H). Qed.
End T.
Print Assumptions C68_insertion.
Print Assumptions C68_deletion.
Print Assumptions C68_ends.
Print Assumptions C68_refused_columns_are_dependent.
Print Assumptions C68_rebuilding.
Print Assumptions C68_filtering.
Print Assumptions C68_every_history.
Print Assumptions C68_least_squares.
Print Assumptions C68_columns_are_independent.

(** * Examples *)
(** The hypotheses hold for the real numbers with their square root. *)
Section Reals.
Local Open Scope R_scope.
Definition real_zero (x : R) : bool := if Req_EM_T x 0 then true else false.
Lemma real_zero_ok x : real_zero x = true <-> x = 0.
Proof. unfold real_zero. destruct (Req_EM_T x 0); split; congruence. Qed.
Definition reals : field := Field R 0 1 Rplus Rmult Rminus Ropp Rdiv Rinv real_zero Rfield real_zero_ok.
Definition real_hyp (x y : reals) : reals := if Rlt_dec x 0 then - sqrt (x * x + y * y) else sqrt (x * x + y * y).
Definition real_norm (n : nat) (v : nat -> reals) : reals := sqrt (@fdot reals n v v).
Lemma dot_nonneg n (v : nat -> reals) : 0 <= @fdot reals n v v.
Proof. induction n as [|n IH]; [apply Rle_refl|]. change (0 <= @fdot reals n v v + v n * v n). pose proof (Rle_0_sqr (v n)). unfold Rsqr in *. lra. Qed.
Lemma dot_zero n (v : nat -> reals) : @fdot reals n v v = 0 -> forall e, (e < n)%nat -> v e = 0.
Proof.
  induction n as [|n IH]; intros H e He; [lia|]. change (@fdot reals n v v + v n * v n = 0) in H. pose proof (dot_nonneg n v). pose proof (Rle_0_sqr (v n)) as S. unfold Rsqr in S.
  destruct (Nat.eq_dec e n) as [->|N]; [apply Rsqr_0_uniq; unfold Rsqr; lra|apply IH; [lra|lia]].
Qed.
Lemma sum_pos x y : y <> 0 -> 0 < x * x + y * y.
Proof. intros N. pose proof (Rle_0_sqr x) as A. pose proof (Rsqr_pos_lt y N) as B. unfold Rsqr in *. lra. Qed.
Example ex_roots : roots_ok real_hyp real_norm.
Proof.
  split; [|split].
  - cbn [add one zero reals K]. lra.
  - intros x y N. cbn [add mul zero reals K] in *. pose proof (sum_pos x y N) as P. pose proof (sqrt_lt_R0 _ P) as Q. pose proof (sqrt_sqrt _ (Rlt_le _ _ P)) as S. unfold real_hyp.
    destruct (Rlt_dec x 0) as [L|L].
    + split; [rewrite <- S at 3; cbn; ring|]. split; lra.
    + split; [exact S|]. split; lra.
  - intros n v. split; [apply sqrt_sqrt, dot_nonneg|]. intros H. apply dot_zero. apply sqrt_eq_0; [apply dot_nonneg|exact H].
Qed.
(** theta = 1 / 0.7 and omega = 0, the values the accelerations use *)
Definition real_again (rho1 rho0 : reals) (_ : nat -> reals) : bool := if Rle_dec (rho1 * (10 / 7)) rho0 then true else false.
Example ex_exact : exact real_norm real_zero real_again.
Proof.
  split; [exact real_zero_ok|]. split.
  - intros n v w H. unfold real_norm. f_equal. apply (fdot_ext reals); exact H.
  - intros n v s N _. unfold real_again. destruct (Rle_dec _ _) as [L|L]; [|reflexivity]. exfalso. apply N.
    cbn [zero reals K]. pose proof (sqrt_pos (@fdot reals n v v)). change (sqrt (@fdot reals n v v)) with (real_norm n v) in *. unfold K, reals in *. lra.
Qed.
(** so every history of calls on real matrices keeps a factorization *)
Example ex_history n calls : positions_ok real_hyp real_norm real_zero real_again (fun _ _ _ => false) calls (empty n) [] ->
  exists s V, history real_hyp real_norm real_zero real_again (fun _ _ _ => false) calls (empty n) [] = Some (s, V) /\ factorizes n V s.
Proof. apply C68_every_history; [exact ex_roots|apply (exact_tiny reals real_norm real_zero real_again), ex_exact|apply empty_ok]. Qed.
End Reals.

(** Rational columns whose norms are rational: (3, 4), then (4, 3) in front of it, a third one is
    refused, then the first is deleted. *)
Section Rationals.
Local Open Scope Qc_scope.
Lemma q_zero_ok x : Qc_eq_bool x 0 = true <-> x = 0.
Proof. split; [apply Qc_eq_bool_correct|]. intros ->. reflexivity. Qed.
Definition rationals : field := Field Qc 0 1 Qcplus Qcmult Qcminus Qcopp Qcdiv Qcinv (fun x => Qc_eq_bool x 0) Qcft q_zero_ok.
Definition q (a : Z) (b : positive) : rationals := Q2Qc (a # b).
Definition vector (l : list rationals) : nat -> rationals := fun e => nth e l 0.
Definition q_norm (n : nat) (v : nat -> rationals) : rationals :=
  let d := @fdot rationals n v v in if Qc_eq_bool d (q 25 1) then q 5 1 else if Qc_eq_bool d (q 49 25) then q 7 5 else 0.
Definition q_hyp (x y : rationals) : rationals := q 5 1.
Definition entries (s : qr rationals) : list rationals * list rationals :=
  (flat_map (fun j => map (fun e => Qm s e j) (seq 0 (rows s))) (seq 0 (cols s)), flat_map (fun j => map (fun i => Rm s i j) (seq 0 (cols s))) (seq 0 (cols s))).
Definition same (a b : list rationals) : bool := (length a =? length b) && forallb (fun p => Qc_eq_bool (fst p) (snd p)) (combine a b).
Definition no (_ _ : rationals) (_ : nat -> rationals) : bool := false.
Definition put k l s := insertColumn q_hyp q_norm (@is_zero rationals) no k (vector l) never s.
Example ex_insert :
  match put 0 [q 3 1; q 4 1] (empty 2) with
  | Some (true, s1) => same (fst (entries s1)) [q 3 5; q 4 5] && same (snd (entries s1)) [q 5 1] &&
      match put 0 [q 4 1; q 3 1] s1 with
      | Some (true, s2) => same (fst (entries s2)) [q 4 5; q 3 5; q (-3) 5; q 4 5] && same (snd (entries s2)) [q 5 1; 0; q 24 5; q 7 5] &&
          match put 1 [q 1 1; q 0 1] s2 with
          | Some (false, s3) => match deleteColumn q_hyp 0 s3 with
                                | Some s4 => same (fst (entries s4)) [q 3 5; q 4 5] && same (snd (entries s4)) [q 5 1]
                                | None => false
                                end
          | _ => false
          end
      | _ => false
      end
  | _ => false
  end = true.
Proof. vm_compute. reflexivity. Qed.
End Rationals.
(** the examples with real numbers use the axioms of the standard library's real numbers *)
Print Assumptions ex_history.
Print Assumptions ex_exact.
