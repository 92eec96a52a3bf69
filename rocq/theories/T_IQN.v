(** C69: quasi-Newton acceleration on values. *)
From Coq Require Import Field Field_theory List Arith Lia Bool ZArith QArith Qcanon Reals Lra.
From Verif Require Import S_Field M_QR S_QR M_IQN S_IQN P_Field P_Dim P_QR P_QRsolve P_QRfilter P_IQNlist P_IQN P_IQNrun P_IQNlin P_IQNend T_QR.
From Verif Require M_QN.
Import ListNotations.
Local Open Scope nat_scope.

Section T.
Variable F : field.
Add Field KQ : (K_theory F).
Notation vec := (nat -> F).
Variable hyp : F -> F -> F.
Variable norm : nat -> vec -> F.
Variable tiny : F -> bool.
Variable again : F -> F -> vec -> bool.
Variable singular : (nat -> nat -> F) -> nat -> nat -> bool.
Variable drop weak : F -> F -> bool.
Variable small : F -> bool.
Variable moved : vec -> vec -> bool.
Variable c : config F.
Notation n := (rowsOf c).
Notation run := (run hyp norm tiny again singular drop weak small moved c).
Notation perform := (performAcceleration hyp norm tiny again singular drop weak small moved c).
Notation iterate := (iterate hyp norm tiny again singular drop weak small moved c).
Definition numbers_ok : Prop := roots_ok hyp norm /\ tiny_ok tiny /\ small_ok small /\ factors_ok c.

(** Whatever the preconditioner, the weights can be undone after every history of calls. *)
Theorem C69_weights evs s : numbers_ok -> run evs (start c) = Some s -> forall e, e < n -> mul (p_w (a_p s) e) (p_inv (a_p s) e) = one.
Proof.
  intros [HR [HT [HS HF]]] E. destruct (run_inv F hyp norm tiny again singular drop weak small moved c HR HT HS HF evs [] None _ _ (start_inv F c) E) as [I _]. exact (i_w _ _ _ _ _ I).
Qed.

(** What a call does after every history of calls.  The first iteration of a window is relaxed if this
    is forced or no difference was ever seen; every other iteration is a least-squares step in some
    weights with independent columns, all of them differences of two consecutive iterations of one
    window. *)
Theorem C69_steps evs s x xt x' s' : numbers_ok -> run evs (start c) = Some s -> perform x xt s = Some (x', s') -> a_several s' = false ->
  let relaxed := new_window evs /\ (M_QN.c_force (c_qn c) = true \/ differences c None evs = []) in
  (relaxed -> forall e, x' e = add (mul (c_relaxation c) (xt e)) (mul (sub one (c_relaxation c)) (x e))) /\
  (~ relaxed -> exists w V W, (forall e, e < n -> w e <> zero) /\ Forall2 (fun v u => In (v, u) (differences c None (evs ++ [Perform x xt]))) V W /\
     least_squares_step c w V W (residual c x xt) xt x').
Proof.
  intros [HR [HT [HS HF]]] E EP Sv relaxed. destruct (run_inv F hyp norm tiny again singular drop weak small moved c HR HT HS HF evs [] None _ _ (start_inv F c) E) as [I _].
  cbn [app] in I. destruct (perform_inv F hyp norm tiny again singular drop weak small moved c HR HT HS HF _ _ x xt s x' s' I EP) as [_ [_ P]].
  assert (NW : a_first s = true <-> new_window evs).
  { unfold new_window. split; intros H.
    - destruct (i_new _ _ _ _ _ I H) as [N _]. rewrite prevAfter_new in N. destruct (rev evs) as [|[y yt|y yt] r]; [exact Logic.I|discriminate|exact Logic.I].
    - destruct (a_first s) eqn:Fi; [reflexivity|]. destruct (i_old _ _ _ _ _ I Fi) as [y [yt [N _]]]. rewrite prevAfter_new in N. destruct (rev evs) as [|[z zt|z zt] r]; [discriminate|destruct H|discriminate]. }
  assert (D : differences c None (evs ++ [Perform x xt]) = differences c None evs ++ now F c (prevAfter F None evs) x xt).
  { rewrite differences_app. f_equal. cbn [differences]. rewrite app_nil_r. reflexivity. }
  assert (RX : a_first s && (a_firstWindow s || M_QN.c_force (c_qn c)) = true <-> relaxed).
  { unfold relaxed. rewrite <- NW. split.
    - intros H. apply andb_prop in H. destruct H as [H1 H2]. split; [exact H1|]. apply orb_prop in H2. destruct H2 as [H2|H2]; [right|left; exact H2]. exact (proj1 (proj2 (i_new _ _ _ _ _ I H1)) H2).
    - intros [H1 H2]. rewrite H1. cbn [andb]. destruct H2 as [H2|H2]; [rewrite H2; apply orb_true_r|]. rewrite (proj2 (proj2 (i_new _ _ _ _ _ I H1)) H2). reflexivity. }
  destruct (a_first s && (a_firstWindow s || M_QN.c_force (c_qn c))) eqn:B.
  - split; [intros _; exact P|intros N; exfalso; apply N, RX; reflexivity].
  - split; [intros N; apply RX in N; discriminate|]. intros _. destruct (P Sv) as [w [V [W [P1 [P2 P3]]]]]. exists w, V, W. split; [exact P1|split; [|exact P3]]. rewrite D. exact P2.
Qed.

(** The condition on several refused columns holds after every history with the filters QR2 and QR3,
    or a constant preconditioner, if differences of old windows are reused or relaxation is forced. *)
Theorem C69_nothing_refused evs s x xt x' s' : numbers_ok ->
  (M_QN.isQR23 (M_QN.c_filter (c_qn c)) = true \/ exists f, c_precond c = Constant f) -> (M_QN.c_reused (c_qn c) <> 0 \/ M_QN.c_force (c_qn c) = true) ->
  run evs (start c) = Some s -> perform x xt s = Some (x', s') -> a_several s' = false.
Proof.
  intros [HR [HT [HS HF]]] H1 H2 E EP.
  assert (E' : run (evs ++ [Perform x xt]) (start c) = Some s').
  { revert E. generalize (start c). induction evs as [|ev r IH]; intros s0 E; cbn [app M_IQN.run] in *.
    - injection E as ->. cbn [M_IQN.step]. rewrite EP. reflexivity.
    - destruct (step hyp norm tiny again singular drop weak small moved c ev s0) as [s1|]; [|discriminate]. cbn [bind] in *. apply IH, E. }
  refine (proj1 (calm_run F hyp norm tiny again singular drop weak small moved c HR HT HS HF _ H1 H2 [] None _ _ (start_inv F c) _ E')). split; reflexivity.
Qed.

(** Linear problems: every column tells exactly what the solvers do with some change of the primary data ... *)
Theorem C69_columns_are_secants A b evs v u : solves c A b 0 evs -> In (v, u) (differences c None evs) ->
  exists d : vec, (forall e, u e = fsum n (fun k => mul (A e k) (d k))) /\ (forall e, v e = sub (primary c u e) (d e)).
Proof. intros S H. exact (differences_secant F c A b evs 0 None S ltac:(discriminate) v u H). Qed.
Lemma last_solves A b x xt evs : forall w0, solves c A b w0 (evs ++ [Perform x xt]) -> forall e, xt e = affine c A (b (w0 + windows evs)) x e.
Proof.
  induction evs as [|[y yt|y yt] r IH]; intros w0 S0; cbn [app solves] in S0; destruct S0 as [S0 S1].
  - change (windows []) with 0. rewrite Nat.add_0_r. exact S0.
  - exact (IH w0 S1).
  - change (windows (Converged y yt :: r)) with (S (windows r)). rewrite Nat.add_succ_r, <- Nat.add_succ_l. exact (IH (S w0) S1).
Qed.
(** ... so as soon as the columns span the residual, the next values solve the problem of this window. *)
Theorem C69_linear_problems_are_solved A b evs s x xt x' s' : numbers_ok -> run evs (start c) = Some s -> perform x xt s = Some (x', s') -> a_several s' = false ->
  ~ (new_window evs /\ (M_QN.c_force (c_qn c) = true \/ differences c None evs = [])) ->
  solves c A b 0 (evs ++ [Perform x xt]) ->
  exists w V W, Forall2 (fun v u => In (v, u) (differences c None (evs ++ [Perform x xt]))) V W /\ least_squares_step c w V W (residual c x xt) xt x' /\
    (in_span n V (residual c x xt) -> fixed_point c A (b (windows evs)) x').
Proof.
  intros N E EP Sv NR S. destruct (C69_steps evs s x xt x' s' N E EP Sv) as [_ P]. destruct (P NR) as [w [V [W [P1 [P2 P3]]]]]. exists w, V, W. split; [exact P2|split; [exact P3|]].
  intros Sp. destruct N as [HR _]. apply (linear_solved F hyp norm HR c A (b (windows evs)) w V W x xt x' P1); [| |exact P3|exact Sp].
  - clear -P2 S. induction P2 as [|v u V W H P2 IH]; constructor; [|exact IH]. exact (C69_columns_are_secants A b _ v u S H).
  - exact (last_solves A b x xt evs 0 S).
Qed.

(** Values that are already right stay: without a residual the new values are the ones of the solvers. *)
Theorem C69_solutions_stay evs s x xt x' s' : numbers_ok -> run evs (start c) = Some s -> perform x xt s = Some (x', s') -> a_several s' = false ->
  ~ (new_window evs /\ (M_QN.c_force (c_qn c) = true \/ differences c None evs = [])) ->
  (forall e, e < n -> residual c x xt e = zero) -> forall e, x' e = xt e.
Proof.
  intros N E EP Sv NR Z. destruct (C69_steps evs s x xt x' s' N E EP Sv) as [_ P]. destruct (P NR) as [w [V [W [P1 [P2 P3]]]]]. destruct N as [HR _].
  assert (LW : length V = length W) by (apply (Forall2_len _ _ _ P2)).
  pose proof P3 as [y0 [X0 [N0 [M0 Ind]]]].
  assert (W0 : weighted c w (fun e => add (residual c x xt e) (combination V y0 e)) = zero).
  { unfold weighted. rewrite <- (perp_combination F c w V (fun e => add (residual c x xt e) (combination V y0 e)) y0 N0). apply fdot_ext; intros e He; [|reflexivity]. rewrite Z by exact He. ring. }
  assert (Y0 : forall j, j < length V -> y0 j = zero).
  { apply Ind. intros e He. pose proof (weighted_zero F hyp norm HR c w _ P1 W0 e He) as Q. cbv beta in Q. rewrite Z in Q by exact He. refine (eq_trans _ Q). ring. }
  intros e. rewrite X0. unfold combination. rewrite fsum_zero; [ring|]. intros j Hj. rewrite Y0 by lia. ring.
Qed.

(** In exact arithmetic, a linear problem with n primary unknowns is solved after at most n + 1
    iterations of the first window: with a constant preconditioner, no filter, enough columns allowed
    and a relaxation factor that is not 0, if I - A vanishes in no direction.  No call fails before. *)
Theorem C69_iterations_are_bounded A b f x0 : roots_ok hyp norm -> exact norm tiny again ->
  c_precond c = Constant f -> (forall k, f k <> zero) -> M_QN.c_filter (c_qn c) = M_QN.NoFilter -> n <= M_QN.c_max (c_qn c) -> c_relaxation c <> zero ->
  definite c A f ->
  exists k x s, k <= S n /\ iterate (affine c A b) k x0 = Some (x, s) /\ (forall e, e < n -> primary c (affine c A b x) e = primary c x e).
Proof.
  intros HR HE HP Hf HN HM Hrel D. destruct (ends F hyp norm tiny again singular drop weak small moved c HR HE A b f HP Hf HN HM Hrel D x0) as [j [y [t [L [E S]]]]].
  exists j, y, t. split; [exact L|split; [exact E|]]. intros e He. specialize (S e He). unfold residual in S.
  transitivity (add (sub (primary c (affine c A b y) e) (primary c y e)) (primary c y e)); [ring|]. rewrite S. ring.
Qed.
End T.
Print Assumptions C69_weights.
Print Assumptions C69_steps.
Print Assumptions C69_nothing_refused.
Print Assumptions C69_columns_are_secants.
Print Assumptions C69_linear_problems_are_solved.
Print Assumptions C69_solutions_stay.
Print Assumptions C69_iterations_are_bounded.

(** * Examples *)
(** Real numbers, [m] primary unknowns and one more entry: the solvers compute b - x, and the first
    unknown once more for the additional entry.  All hypotheses of the bound hold. *)
Section Real.
Local Open Scope R_scope.
Definition real_config (m : nat) : config reals :=
  @Config reals (M_QN.Config (S m) 3 false M_QN.NoFilter m) (1 / 2) (seq 0 m) [m] (@Constant reals (fun _ => 2)) 0%nat.
Definition mirror (m : nat) : nat -> nat -> reals := fun e k => if (e =? k)%nat then -1 else if (e =? m)%nat && (k =? 0)%nat then 1 else 0.
Lemma mirror_definite m : @definite reals (real_config m) (mirror m) (fun _ => 2).
Proof.
  unfold definite. change (rowsOf (real_config m)) with m. intros u H. apply dot_zero.
  assert (B : forall e, (e < m)%nat -> @fsum reals m (fun k => mul (mirror m (nth e (c_ids (real_config m)) 0%nat) k) (u k)) = - u e).
  { intros e He. cbn [real_config c_ids]. rewrite seq_nth by exact He. cbn [Nat.add]. rewrite (fsum_pick reals m e) by (try exact He; intros k Hk N; unfold mirror; rewrite (proj2 (Nat.eqb_neq e k)) by congruence; rewrite (proj2 (Nat.eqb_neq e m)) by lia; cbn; ring).
    unfold mirror. rewrite Nat.eqb_refl. cbn. ring. }
  transitivity (@zero reals * -2); [|cbn; ring]. rewrite <- H. unfold fdot. change (@mul reals) with Rmult in *. rewrite <- (fsum_scale_r reals m (-2)).
  apply (fsum_ext reals). intros e He. rewrite B by exact He. cbn. field.
Qed.
Example ex_bounded m x0 b : exists k x s, (k <= S m)%nat /\
  iterate real_hyp real_norm real_zero real_again (fun _ _ _ => false) never never real_zero (fun _ _ => false) (real_config m) (affine (real_config m) (mirror m) b) k x0 = Some (x, s) /\
  (forall e, (e < m)%nat -> primary (real_config m) (affine (real_config m) (mirror m) b x) e = primary (real_config m) x e).
Proof.
  apply (C69_iterations_are_bounded reals real_hyp real_norm real_zero real_again (fun _ _ _ => false) never never real_zero (fun _ _ => false) (real_config m) (mirror m) b (fun _ => 2) x0).
  - exact ex_roots.
  - exact ex_exact.
  - reflexivity.
  - intros k. cbn. lra.
  - reflexivity.
  - cbn. lia.
  - cbn. lra.
  - exact (mirror_definite m).
Qed.
Example ex_numbers m : numbers_ok reals real_hyp real_norm real_zero real_zero (real_config m).
Proof.
  split; [exact ex_roots|]. split; [apply (exact_tiny reals real_norm real_zero real_again), ex_exact|]. split.
  - intros x H E. rewrite (proj2 (real_zero_ok x) E) in H. discriminate.
  - intros k. cbn. lra.
Qed.
End Real.

(** Rational numbers whose square roots are rational *)
Section Rational.
Local Open Scope Qc_scope.
Definition q_root (x : rationals) : rationals := let a := this x in Q2Qc (Z.sqrt (Qnum a) # Z.to_pos (Z.sqrt (Zpos (Qden a)))).
Definition root_norm (n : nat) (v : nat -> rationals) : rationals := q_root (@fdot rationals n v v).
Definition root_hyp (x y : rationals) : rationals := if Qle_bool 0%Q (this x) then q_root (x * x + y * y) else - q_root (x * x + y * y).
Notation q_perform := (performAcceleration root_hyp root_norm (@is_zero rationals) no (fun _ _ _ => false) never never (@is_zero rationals) (fun _ _ => false)).
Notation q_run := (run root_hyp root_norm (@is_zero rationals) no (fun _ _ _ => false) never never (@is_zero rationals) (fun _ _ => false)).
Notation q_iterate := (iterate root_hyp root_norm (@is_zero rationals) no (fun _ _ _ => false) never never (@is_zero rationals) (fun _ _ => false)).
Definition first_ (m : nat) (v : nat -> rationals) : list rationals := map v (seq 0 m).
(** two primary entries and a secondary one, relaxation 1/10 *)
Definition q_config : config rationals := @Config rationals (M_QN.Config 10 3 false M_QN.QR2 2) (q 1 10) [0%nat; 1%nat] [2%nat] Residual 0%nat.
Definition q_solver (b : list rationals) (x : nat -> rationals) : nat -> rationals := vector [nth 0 b 0 - x 0%nat; nth 1 b 0 - x 1%nat; x 0%nat].
(** The first window is solved by the second iteration.  The second window has another right-hand
    side and is solved by the first iteration with the column of the first window. *)
Example ex_windows :
  let b1 := [q 3 1; q 4 1; 0] in let b2 := [q 6 1; q 8 1; 0] in let x0 := vector [0; 0; 0] in
  match q_perform q_config x0 (q_solver b1 x0) (start q_config) with
  | Some (x1, s1) => same (first_ 3 x1) [q 3 10; q 4 10; 0] &&
      match q_perform q_config x1 (q_solver b1 x1) s1 with
      | Some (x2, s2) => same (first_ 3 x2) [q 3 2; q 2 1; q 3 2] &&
          match iterationsConverged root_hyp root_norm (@is_zero rationals) no (@is_zero rationals) (fun _ _ => false) q_config x1 (q_solver b1 x1) s2 with
          | Some s3 => match q_perform q_config x2 (q_solver b2 x2) s3 with
                       | Some (x4, s4) => same (first_ 3 x4) [q 3 1; q 4 1; q 3 1] && negb (a_several s4)
                       | None => false
                       end
          | None => false
          end
      | None => false
      end
  | None => false
  end = true.
Proof. vm_compute. reflexivity. Qed.

(** Without the hypothesis on the directions the bound is false, although the problem has exactly one
    solution.  The solvers turn (x, y) into (x - y, x + y).  From (1, 0) the first two iterations give
    (1, 1), which is not the solution (0, 0), and the third one repeats the same residual: its
    difference is a zero column, the factorization has no column left and an assertion fails. *)
Definition turn : nat -> nat -> rationals := fun e k => match e, k with 0, 0 => q 1 1 | 0, 1 => q (-1) 1 | 1, 0 => q 1 1 | 1, 1 => q 1 1 | _, _ => Q2Qc 0 end%nat.
Definition turn_config : config rationals :=
  @Config rationals (M_QN.Config 10 3 false M_QN.NoFilter 2) (q 1 1) [0%nat; 1%nat] [2%nat] (@Constant rationals (fun _ => q 1 1)) 0%nat.
Notation turned := (affine turn_config turn (fun _ => 0)).
Lemma same_true (a b : list rationals) : same a b = true -> a = b.
Proof.
  unfold same. revert b. induction a as [|x a IH]; intros [|y b] H; try reflexivity; try discriminate H.
  apply andb_prop in H. destruct H as [L H]. cbn [combine forallb] in H. apply andb_prop in H. destruct H as [E H].
  f_equal; [apply Qc_eq_bool_correct; exact E|]. apply IH. rewrite H. cbn [length] in L. change (length a =? length b = true)%nat in L. rewrite L. reflexivity.
Qed.
Lemma turn_unique (a b : Qc) : a - b = a -> a + b = b -> a = 0 /\ b = 0.
Proof.
  intros A B. split; [transitivity (a + b - b); [ring|rewrite B; ring]|transitivity (a - (a - b)); [ring|rewrite A; ring]].
Qed.
Lemma turn_first_ (a b : Qc) : a - b = 0 + q 1 1 * a + q (-1) 1 * b + 0.
Proof. replace (q (-1) 1) with (- (1)) by (apply Qc_is_canon; reflexivity). change (q 1 1) with 1. ring. Qed.
Lemma turn_second_ (a b : Qc) : a + b = 0 + q 1 1 * a + q 1 1 * b + 0.
Proof. change (q 1 1) with 1. ring. Qed.
Lemma turn_first (x : nat -> rationals) : (x 0%nat : Qc) - x 1%nat = turned x 0%nat. Proof. exact (turn_first_ (x 0%nat) (x 1%nat)). Qed.
Lemma turn_second (x : nat -> rationals) : (x 0%nat : Qc) + x 1%nat = turned x 1%nat. Proof. exact (turn_second_ (x 0%nat) (x 1%nat)). Qed.
Theorem C69_stagnation_refuted :
  (forall x : nat -> rationals, (forall e, (e < 2)%nat -> turned x e = x e) -> forall e, (e < 2)%nat -> x e = 0) /\
  exists x s x' s', q_iterate turn_config turned 1 (vector [q 1 1; 0]) = Some (x, s) /\ q_iterate turn_config turned 2 (vector [q 1 1; 0]) = Some (x', s') /\
    q_iterate turn_config turned 3 (vector [q 1 1; 0]) = None /\ first_ 2 x' = first_ 2 x /\ turned x' 0%nat <> x' 0%nat.
Proof.
  split.
  - intros x H e He. assert (A := H 0%nat ltac:(lia)). assert (B := H 1%nat ltac:(lia)).
    destruct (turn_unique (x 0%nat) (x 1%nat)) as [X Y]; [refine (eq_trans _ A)|refine (eq_trans _ B)| ];
      [apply turn_first|apply turn_second|]. destruct e as [|[|e]]; [exact X|exact Y|lia].
  - assert (G1 : match q_iterate turn_config turned 1 (vector [q 1 1; 0]) with Some (y, _) => same (first_ 2 y) [q 1 1; q 1 1] | None => false end = true) by (vm_compute; reflexivity).
    assert (G2 : match q_iterate turn_config turned 2 (vector [q 1 1; 0]) with Some (y, _) => same (first_ 2 y) [q 1 1; q 1 1] && negb (same [turned y 0%nat] [y 0%nat]) | None => false end = true) by (vm_compute; reflexivity).
    assert (G3 : match q_iterate turn_config turned 3 (vector [q 1 1; 0]) with Some _ => false | None => true end = true) by (vm_compute; reflexivity).
    destruct (q_iterate turn_config turned 3 (vector [q 1 1; 0])) as [u|]; [discriminate G3|clear G3].
    destruct (q_iterate turn_config turned 2 (vector [q 1 1; 0])) as [[x' s']|]; [|discriminate G2].
    destruct (q_iterate turn_config turned 1 (vector [q 1 1; 0])) as [[x s]|]; [|discriminate G1].
    exists x, s, x', s'. split; [reflexivity|]. split; [reflexivity|]. split; [reflexivity|].
    apply andb_prop in G2. destruct G2 as [G2 G3].
    split; [transitivity [q 1 1; q 1 1]; [|symmetry]; apply same_true; assumption|].
    intros C. rewrite C in G3. unfold same in G3. cbn [length combine forallb fst snd] in G3. unfold Qc_eq_bool in G3. destruct (Qc_eq_dec (x' 0%nat) (x' 0%nat)) as [_|N]; [discriminate G3|apply N; reflexivity].
Qed.
End Rational.
Print Assumptions C69_stagnation_refuted.
