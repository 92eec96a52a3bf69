From Coq Require Import List Arith Bool ZArith QArith Qcanon Lqa Lia.
From Verif Require Import M_Grid S_Grid.
Import ListNotations.
Open Scope list_scope.
Open Scope nat_scope.

Ltac qin H := unfold Qclt, Qcle, Qcminus, Qcplus, Qcopp, Qcmult in H; cbn [this Q2Qc] in H; rewrite ?Qred_correct in H.
Ltac q := repeat match goal with H : (_ < _)%Qc |- _ => qin H | H : (_ <= _)%Qc |- _ => qin H end; unfold Qclt, Qcle, Qcminus, Qcplus, Qcopp, Qcmult; cbn [this Q2Qc] in *; rewrite ?Qred_correct; try lra.

Lemma ltb_lt x y : ltb x y = true <-> (x < y)%Qc.
Proof. unfold ltb. destruct (Qclt_le_dec x y) as [H|H]; split; try congruence; intros; q. Qed.
Lemma ltb_ge x y : ltb x y = false <-> (y <= x)%Qc.
Proof. unfold ltb. destruct (Qclt_le_dec x y) as [H|H]; split; try congruence; intros H1; q. Qed.

Lemma mapM_ok {A B} (f : A -> option B) h l : (forall x, In x l -> f x = Some (h x)) -> mapM f l = Some (map h l).
Proof. induction l as [|x r IH]; intros H; [reflexivity|]. cbn [mapM map]. rewrite (H x) by (left; reflexivity). cbn [bind]. rewrite IH by (intros; apply H; right; assumption). reflexivity. Qed.
Lemma mapM_map {A B C} (f : B -> option C) (g : A -> B) h l : (forall x, In x l -> f (g x) = Some (h x)) -> mapM f (map g l) = Some (map h l).
Proof. intros H. induction l as [|x r IH]; [reflexivity|]. cbn [mapM map]. rewrite (H x) by (left; reflexivity). cbn [bind]. rewrite IH by (intros; apply H; right; assumption). reflexivity. Qed.
Lemma at_map {A} (h : nat -> A) ids id : In id ids -> at_ (map (fun i => (i, h i)) ids) id = Some (h id).
Proof. induction ids as [|i r IH]; [contradiction|]. intros H. cbn [map at_]. destruct (Nat.eqb_spec i id) as [->|N]; [reflexivity|]. apply IH. destruct H as [H|H]; [contradiction|exact H]. Qed.
Lemma at_put {A} (m : list (nat * A)) i x id : at_ m i <> None -> at_ (put m i x) id = if i =? id then Some x else at_ m id.
Proof.
  induction m as [|[j d] r IH]; intros H; [contradiction H; reflexivity|]. cbn [put]. cbn [at_] in H. destruct (Nat.eqb_spec j i) as [->|N].
  - cbn [at_]. destruct (Nat.eqb_spec i id); reflexivity.
  - cbn [at_]. rewrite (IH H). destruct (Nat.eqb_spec j id) as [->|N2]; [|reflexivity]. destruct (Nat.eqb_spec i id); [congruence|reflexivity].
Qed.
Lemma lastOf_last {A} (l : list A) x : l <> [] -> lastOf l = Some (last l x).
Proof.
  intros H. destruct (exists_last H) as (a & b & ->). unfold lastOf. rewrite rev_app_distr, last_last. reflexivity.
Qed.
Lemma hd_error_hd {A} (l : list A) x : l <> [] -> hd_error l = Some (hd x l).
Proof. destruct l; [congruence|reflexivity]. Qed.
Lemma foldM_app {A B} (f : A -> B -> option A) l r a : foldM f a (l ++ r) = bind (foldM f a l) (fun a' => foldM f a' r).
Proof. revert a. induction l as [|x l IH]; intros a; [reflexivity|]. cbn [foldM app]. destruct (f a x); cbn [bind]; [apply IH|reflexivity]. Qed.

Lemma skipn_skipn {A} x y (l : list A) : skipn x (skipn y l) = skipn (x + y) l.
Proof. revert l. induction y as [|y IH]; intros l; [rewrite Nat.add_0_r; reflexivity|]. destruct l as [|a l]; [rewrite !skipn_nil; reflexivity|]. rewrite Nat.add_succ_r. cbn [skipn]. apply IH. Qed.
Lemma Qc_nz (a b : Qc) : (a < b)%Qc -> (b - a <> 0)%Qc.
Proof. intros L E. assert (X : b = a) by (transitivity ((b - a) + a)%Qc; [ring|rewrite E; ring]). subst. q. Qed.

Section Proofs.
Variable eps : Qc.
Hypothesis eps0 : (0 <= eps)%Qc.
Context {V : Type}.
Variable zero : V.
Variable interp : @wave V -> Qc -> list V.
Variable relax : list V -> list V -> list V.
Hypothesis interp_length : forall w t k, w <> [] -> Forall (fun p => length (snd p) = k) w -> length (interp w t) = k.
Notation spread := (spread eps).

(** * Times *)
Lemma spread_tl a l : spread (a :: l) -> spread l.
Proof. destruct l; cbn; tauto. Qed.
Lemma spread_after a l t : spread (a :: l) -> In t l -> (eps < t - a)%Qc.
Proof.
  revert a. induction l as [|b l IH]; intros a H I; [contradiction|]. destruct H as [H1 H2]. destruct I as [->|I]; [exact H1|]. specialize (IH b H2 I). q.
Qed.
Lemma filter_all {A} (p : A -> bool) l : (forall x, In x l -> p x = true) -> filter p l = l.
Proof. induction l as [|x r IH]; intros H; [reflexivity|]. cbn. rewrite (H x) by (left; reflexivity). f_equal. apply IH. intros; apply H; right; assumption. Qed.
Lemma filter_none {A} (p : A -> bool) l : (forall x, In x l -> p x = false) -> filter p l = [].
Proof. induction l as [|x r IH]; intros H; [reflexivity|]. cbn. rewrite (H x) by (left; reflexivity). apply IH. intros; apply H; right; assumption. Qed.
Lemma after_spread a l : spread (a :: l) -> filter (fun d => greater eps d a) (a :: l) = l.
Proof.
  intros H. cbn [filter]. replace (greater eps a a) with false by (symmetry; apply ltb_ge; q). apply filter_all. intros t I. apply ltb_lt. apply (spread_after a l); assumption.
Qed.
Lemma last_spread a b l : spread (a :: b :: l) -> (a < last (a :: b :: l) 0)%Qc.
Proof.
  intros H. assert (I : In (last (b :: l) 0%Qc) (b :: l)). { destruct (exists_last (l := b :: l)) as (x & y & E); [discriminate|]. rewrite E, last_last. apply in_or_app. right. left. reflexivity. }
  change (last (a :: b :: l) 0%Qc) with (last (b :: l) 0%Qc). pose proof (spread_after a (b :: l) _ H I). q.
Qed.

(** positions: from 0 to 1 *)
Definition positions (r : list Qc) : Prop := exists r', r = 0%Qc :: r' /\ r' <> [] /\ last r 0%Qc = 1%Qc.
Lemma map_last {A B} (f : A -> B) l x y : l <> [] -> last (map f l) y = f (last l x).
Proof. intros H. destruct (exists_last H) as (a & b & ->). rewrite map_app. cbn [map]. rewrite !last_last. reflexivity. Qed.
Lemma relative_positions a b l : spread (a :: b :: l) -> positions (relative (a :: b :: l)).
Proof.
  intros H. pose proof (last_spread a b l H) as L. assert (N : (last (a :: b :: l) 0 - a <> 0)%Qc) by (apply Qc_nz; exact L).
  unfold positions, relative. eexists. split; [|split].
  - cbn [map hd]. f_equal. field. exact N.
  - cbn [map]. discriminate.
  - rewrite (map_last _ _ 0%Qc) by discriminate. cbn [hd]. field. exact N.
Qed.
Lemma placed_relative a b l : spread (a :: b :: l) -> placed (relative (a :: b :: l)) (a, last (a :: b :: l) 0%Qc) = a :: b :: l.
Proof.
  intros H. pose proof (last_spread a b l H) as L. assert (N : (last (a :: b :: l) 0 - a <> 0)%Qc) by (apply Qc_nz; exact L).
  unfold placed, relative. rewrite map_map. transitivity (map (fun t : Qc => t) (a :: b :: l)); [|apply map_id]. apply map_ext. intros t. cbn [fst snd hd]. field. exact N.
Qed.
Lemma placed_hd r w : positions r -> placed r w = fst w :: placed (tl r) w.
Proof. intros (r' & -> & _ & _). unfold placed. cbn [map tl]. f_equal. ring. Qed.
Lemma placed_last r w : positions r -> last (placed r w) 0%Qc = snd w.
Proof. intros (r' & E & N & L). unfold placed. rewrite (map_last _ _ 0%Qc) by (rewrite E; discriminate). rewrite L. ring. Qed.
Lemma placed_length r w : length (placed r w) = length r.
Proof. apply map_length. Qed.

Lemma move_placed r w0 w : positions r -> (fst w0 < snd w0)%Qc -> w <> [] ->
  moveOne (V := V) (placed r w0) w = Some (placed r (hd 0%Qc (times w), last (times w) 0%Qc)).
Proof.
  intros P L W. pose proof P as (r' & E & N & _). assert (T : times w <> []) by (destruct w; [congruence|discriminate]). unfold moveOne. rewrite placed_length. replace (length r =? 1) with false by (symmetry; apply Nat.eqb_neq; rewrite E; destruct r'; [congruence|cbn; lia]).
  rewrite (hd_error_hd _ 0%Qc T), (lastOf_last _ 0%Qc T). cbn [bind]. assert (NP : placed r w0 <> []) by (rewrite placed_hd by exact P; discriminate). rewrite (hd_error_hd _ 0%Qc NP), (lastOf_last _ 0%Qc NP). cbn [bind]. rewrite placed_last by exact P. replace (hd 0%Qc (placed r w0)) with (fst w0) by (rewrite placed_hd by exact P; reflexivity).
  assert (D : (snd w0 - fst w0 <> 0)%Qc) by (apply Qc_nz; exact L).
  unfold eqb. destruct (Qc_eq_dec _ _) as [Z|_]; [contradiction|]. f_equal. unfold placed. rewrite map_map. apply map_ext. intros t. cbn [fst snd]. field. exact D.
Qed.
Lemma move_reduced t w : w <> [] -> moveOne (V := V) [t] w = Some [last (times w) 0%Qc].
Proof. intros W. unfold moveOne. cbn [length Nat.eqb]. rewrite (lastOf_last _ 0%Qc) by (destruct w; [congruence|discriminate]). reflexivity. Qed.

(** * Vectors *)
Lemma gatherTimes n d l : d_wave d <> [] -> d_prev d <> [] -> Forall (fun p => length (snd p) = n) (d_wave d) -> Forall (fun p => length (snd p) = n) (d_prev d) ->
  forall v o off, off + length l * n <= length v -> length o = length v ->
  foldM (gatherTime interp n d) (v, o, off) l = Some (write v off (flat_map (interp (d_wave d)) l), write o off (flat_map (interp (d_prev d)) l), off + length l * n).
Proof.
  intros W P FW FP. assert (LW : forall l, length (flat_map (interp (d_wave d)) l) = length l * n) by (induction l0 as [|t r IH]; [reflexivity|]; cbn [flat_map length]; rewrite app_length, (interp_length _ _ n W FW), IH; reflexivity).
  assert (LP : forall l, length (flat_map (interp (d_prev d)) l) = length l * n) by (induction l0 as [|t r IH]; [reflexivity|]; cbn [flat_map length]; rewrite app_length, (interp_length _ _ n P FP), IH; reflexivity).
  assert (WW : forall (v a b : list V) off, off + length (a ++ b) <= length v -> write (write v off a) (off + length a) b = write v off (a ++ b)).
  { clear. intros v a b off H. rewrite app_length in H. unfold write. rewrite !firstn_app, !skipn_app, firstn_length, !app_length. replace (min off (length v)) with off by lia.
    rewrite (firstn_all2 (firstn off v)) by (rewrite firstn_length; lia). replace (off + length a - off) with (length a) by lia. rewrite firstn_all. replace (length a - length a) with 0 by lia. cbn [firstn]. rewrite app_nil_r, <- !app_assoc. f_equal. f_equal. f_equal.
    rewrite (skipn_all2 (firstn off v)) by (rewrite firstn_length; lia). rewrite (skipn_all2 a) by lia. cbn [app]. rewrite skipn_skipn. f_equal. lia. }
  assert (WL : forall (v a : list V) off, off + length a <= length v -> length (write v off a) = length v) by (clear; intros v a off H; unfold write; rewrite !app_length, firstn_length, skipn_length; lia).
  induction l as [|t r IH]; intros v o off H O.
  - cbn [foldM flat_map length]. unfold write. cbn [length app]. rewrite !Nat.add_0_r, !firstn_skipn. reflexivity.
  - cbn [length] in H. cbn [foldM]. unfold gatherTime at 1. replace (length v <? off + n) with false by (symmetry; apply Nat.ltb_ge; lia). replace (length o <? off + n) with false by (symmetry; apply Nat.ltb_ge; lia). cbn [orb].
    rewrite (interp_length _ t n W FW), (interp_length _ t n P FP), Nat.ltb_irrefl. cbn [orb bind]. rewrite !firstn_all2 by (rewrite ?(interp_length _ t n W FW), ?(interp_length _ t n P FP); lia).
    assert (Lw := interp_length _ t n W FW). assert (Lp := interp_length _ t n P FP).
    rewrite IH by (rewrite ?WL; rewrite ?Lw, ?Lp; lia). cbn [flat_map length]. rewrite <- !WW by (rewrite app_length, ?Lw, ?Lp, ?LW, ?LP; lia). rewrite Lw, Lp. f_equal. f_equal. lia.
Qed.
Lemma write_write (v a b : list V) off : off + length (a ++ b) <= length v -> write (write v off a) (off + length a) b = write v off (a ++ b).
Proof.
  intros H. rewrite app_length in H. unfold write. rewrite !firstn_app, !skipn_app, firstn_length, !app_length. replace (min off (length v)) with off by lia.
  rewrite (firstn_all2 (firstn off v)) by (rewrite firstn_length; lia). replace (off + length a - off) with (length a) by lia. rewrite firstn_all. replace (length a - length a) with 0 by lia. cbn [firstn]. rewrite app_nil_r, <- !app_assoc. f_equal. f_equal. f_equal.
  rewrite (skipn_all2 (firstn off v)) by (rewrite firstn_length; lia). rewrite (skipn_all2 a) by lia. cbn [app]. rewrite skipn_skipn. f_equal. lia.
Qed.
Lemma write_length (v a : list V) off : off + length a <= length v -> length (write v off a) = length v.
Proof. intros H. unfold write. rewrite !app_length, firstn_length, skipn_length. lia. Qed.

Lemma flat_length w k l : w <> [] -> Forall (fun p => length (snd p) = k) w -> length (flat_map (interp w) l) = length l * k.
Proof. intros N H. induction l as [|t r IH]; [reflexivity|]. cbn [flat_map length]. rewrite app_length, (interp_length _ _ k N H), IH. reflexivity. Qed.
Definition total (n : nat -> nat) (ids : list nat) (G : nat -> list Qc) : nat := list_sum (map (fun id => length (G id) * n id) ids).
Definition sized (n : nat -> nat) (m : @dataMap V) (ids : list nat) : Prop := forall id, In id ids -> exists d, at_ m id = Some d /\ d_size d = n id /\ d_wave d <> [] /\ Forall (fun p => length (snd p) = n id) (d_wave d) /\ d_prev d <> [] /\ Forall (fun p => length (snd p) = n id) (d_prev d).
Lemma gathered_length n m ids G : sized n m ids -> length (gathered interp (waveOf m) ids G) = total n ids G /\ length (gathered interp (prevOf m) ids G) = total n ids G.
Proof.
  unfold gathered, total. induction ids as [|id r IH]; intros S; [split; reflexivity|]. destruct (S id (or_introl eq_refl)) as (d & Ed & _ & W & FW & P & FP). destruct IH as [I1 I2]; [intros i I; apply S; right; exact I|].
  cbn [flat_map map list_sum fold_right]. rewrite !app_length. fold (list_sum (map (fun id => length (G id) * n id) r)). rewrite I1, I2. unfold waveOf at 1, prevOf at 1. rewrite Ed.
  assert (LL : forall w, w <> [] -> Forall (fun p => length (snd p) = n id) w -> length (flat_map (interp w) (G id)) = length (G id) * n id). { intros w Nw Fw. apply flat_length; assumption. }
  rewrite !LL by assumption. split; reflexivity.
Qed.
Lemma concatenate_ok n m ids g G t : sized n m ids -> (forall id, In id ids -> after eps g id t = Some (G id)) ->
  forall v o, length v = total n ids G -> length o = length v ->
  concatenate eps interp v o m ids g t = Some (gathered interp (waveOf m) ids G, gathered interp (prevOf m) ids G).
Proof.
  intros S A v o Lv Lo. unfold concatenate.
  assert (K : forall l v o off, (forall id, In id l -> In id ids) -> off + total n l G <= length v -> length o = length v ->
    foldM (fun s id => bind (at_ m id) (fun d => bind (after eps g id t) (fun q => foldM (gatherTime interp (d_size d) d) s q))) (v, o, off) l
    = Some (write v off (gathered interp (waveOf m) l G), write o off (gathered interp (prevOf m) l G), off + total n l G)).
  { induction l as [|id r IH]; intros v' o' off I H O.
    - cbn. unfold write. cbn [length app]. rewrite !Nat.add_0_r, !firstn_skipn. reflexivity.
    - cbn [foldM]. destruct (S id (I id (or_introl eq_refl))) as (d & Ed & Sz & W & FW & P & FP). rewrite Ed. cbn [bind]. rewrite (A id (I id (or_introl eq_refl))). cbn [bind]. rewrite Sz.
      unfold total in H. cbn [map list_sum fold_right] in H. fold (list_sum (map (fun id => length (G id) * n id) r)) in H. fold (total n r G) in H. rewrite (gatherTimes _ _ _ W P FW FP) by lia. cbn [bind].
      assert (LL : forall w, w <> [] -> Forall (fun p => length (snd p) = n id) w -> length (flat_map (interp w) (G id)) = length (G id) * n id). { intros w Nw Fw. apply flat_length; assumption. }
      assert (Sr : sized n m r) by (intros i J; apply S, I; right; exact J). destruct (gathered_length n m r G Sr) as [G1 G2]. pose proof (LL _ W FW) as L1. pose proof (LL _ P FP) as L2.
      rewrite IH; [|intros i J; apply I; right; exact J|rewrite write_length; lia|rewrite !write_length; lia].
      assert (X1 : write (write v' off (flat_map (interp (d_wave d)) (G id))) (off + length (G id) * n id) (gathered interp (waveOf m) r G) = write v' off (gathered interp (waveOf m) (id :: r) G)).
      { rewrite <- L1. rewrite write_write by (rewrite app_length; lia). unfold gathered at 2. cbn [flat_map]. unfold waveOf at 2. rewrite Ed. reflexivity. }
      assert (X2 : write (write o' off (flat_map (interp (d_prev d)) (G id))) (off + length (G id) * n id) (gathered interp (prevOf m) r G) = write o' off (gathered interp (prevOf m) (id :: r) G)).
      { rewrite <- L2. rewrite write_write by (rewrite app_length; lia). unfold gathered at 2. cbn [flat_map]. unfold prevOf at 2. rewrite Ed. reflexivity. }
      rewrite X1, X2. replace (off + length (G id) * n id + total n r G) with (off + total n (id :: r) G); [reflexivity|]. change (total n (id :: r) G) with (length (G id) * n id + total n r G). lia. }
  rewrite K by (auto; lia). cbn [bind]. destruct (gathered_length n m ids G S) as [G1 G2]. unfold write. cbn [firstn app Nat.add]. rewrite !skipn_all2 by lia. rewrite !app_nil_r. reflexivity.
Qed.
Lemma entries_ok n m ids g G t : sized n m ids -> (forall id, In id ids -> after eps g id t = Some (G id)) -> entries eps m ids g t = Some (total n ids G).
Proof.
  intros S A. unfold entries. assert (K : forall l k, (forall id, In id l -> In id ids) -> foldM (fun sum id => bind (after eps g id t) (fun l => bind (at_ m id) (fun d => Some (sum + length l * d_size d)))) k l = Some (k + total n l G)); [|rewrite K by auto; reflexivity].
  induction l as [|id r IH]; intros k I; [cbn; f_equal; unfold total; cbn; lia|]. cbn [foldM]. rewrite (A id (I id (or_introl eq_refl))). cbn [bind]. destruct (S id (I id (or_introl eq_refl))) as (d & Ed & Sz & _). rewrite Ed. cbn [bind]. rewrite Sz, IH by (intros i J; apply I; right; exact J). f_equal. unfold total. cbn [map list_sum fold_right]. unfold list_sum. lia.
Qed.

(** * Samples *)
Fixpoint slices (n : nat) (l : list Qc) (v : list V) : @wave V := match l with [] => [] | t :: r => (t, firstn n v) :: slices n r (skipn n v) end.
Lemma slices_times n l v : times (slices n l v) = l.
Proof. revert v. induction l as [|t r IH]; intros v; [reflexivity|]. unfold times in *. cbn [slices map fst]. rewrite IH. reflexivity. Qed.
Lemma slices_values n l v : length l * n <= length v -> flat_map snd (slices n l v) = firstn (length l * n) v.
Proof.
  revert v. induction l as [|t r IH]; intros v H; [reflexivity|]. cbn [slices flat_map snd length]. cbn [length] in H. rewrite IH by (rewrite skipn_length; lia). cbn [Nat.mul]. rewrite <- (firstn_skipn n v) at 3. rewrite firstn_app, firstn_length. replace (min n (length v)) with n by lia. rewrite firstn_firstn. replace (min (n + length r * n) n) with n by lia. replace (n + length r * n - n) with (length r * n) by lia. reflexivity.
Qed.
Lemma slices_length n l v : length l * n <= length v -> Forall (fun p => length (snd p) = n) (slices n l v).
Proof. revert v. induction l as [|t r IH]; intros v H; [constructor|]. cbn [slices]. cbn [length] in H. constructor; [cbn [snd]; rewrite firstn_length; lia|]. apply IH. rewrite skipn_length. lia. Qed.
Lemma override_none w t x : (forall s, In s (times w) -> (eps < t - s)%Qc) -> override eps (V := V) w t x = None.
Proof.
  induction w as [|[s y] r IH]; intros H; [reflexivity|]. cbn [override]. pose proof (H s (or_introl eq_refl)) as B. unfold equals. replace (ltb (s - t) (- eps)) with true by (symmetry; apply ltb_lt; q). rewrite andb_false_r. rewrite IH by (intros s' I; apply H; right; exact I). reflexivity.
Qed.
Lemma set_push w t x : w <> [] -> (forall s, In s (times w) -> (eps < t - s)%Qc) -> setSample eps (V := V) w t x = Some (w ++ [(t, x)]).
Proof.
  intros N H. unfold setSample. destruct w as [|[t0 x0] r] eqn:E; [congruence|]. rewrite <- E in *. assert (I0 : In t0 (times w)) by (rewrite E; left; reflexivity). pose proof (H t0 I0) as B. unfold smallerEquals. replace (ltb eps (t0 - t)) with false by (symmetry; apply ltb_ge; q). cbn [negb].
  rewrite override_none by exact H. assert (T : times w <> []) by (rewrite E; discriminate). rewrite (lastOf_last _ 0%Qc T). cbn [bind]. assert (IL : In (last (times w) 0%Qc) (times w)). { destruct (exists_last T) as (a & b & ->). rewrite last_last. apply in_or_app. right. left. reflexivity. }
  pose proof (H _ IL) as BL. unfold smaller. replace (ltb (last (times w) 0%Qc - t) (- eps)) with true by (symmetry; apply ltb_lt; q). reflexivity.
Qed.
Lemma scatter_ok n values l : forall w off, w <> [] -> off + length l * n <= length values -> (forall s t, In s (times w) -> In t l -> (eps < t - s)%Qc) -> spread l ->
  foldM (scatterTime eps n values) (w, off) l = Some (w ++ slices n l (skipn off values), off + length l * n).
Proof.
  induction l as [|t r IH]; intros w off N H A Sp.
  - cbn. rewrite app_nil_r, Nat.add_0_r. reflexivity.
  - cbn [length] in H. cbn [foldM]. unfold scatterTime at 1. replace (length values <? off + n) with false by (symmetry; apply Nat.ltb_ge; lia). rewrite set_push; [|exact N|intros s I; apply A; [exact I|left; reflexivity]]. cbn [bind].
    rewrite IH; [|destruct w; discriminate|lia| |exact (spread_tl _ _ Sp)].
    + cbn [slices length]. rewrite <- app_assoc. cbn [app]. rewrite skipn_skipn. replace (n + off) with (off + n) by lia. f_equal. f_equal. lia.
    + intros s t' I J. unfold times in I. rewrite map_app in I. apply in_app_or in I. destruct I as [I|[<-|[]]]; [apply A; [exact I|right; exact J]|]. cbn [fst]. exact (spread_after t r t' Sp J).
Qed.
Lemma trim_ok t v0 rest : spread (t :: times rest) -> trimAfter eps (V := V) ((t, v0) :: rest) t = [(t, v0)].
Proof.
  intros Sp. unfold trimAfter. cbn [filter fst]. unfold greater at 1. replace (ltb eps (t - t)) with false by (symmetry; apply ltb_ge; q). cbn [negb]. f_equal. apply filter_none. intros [s x] I. cbn [fst]. unfold greater. replace (ltb eps (s - t)) with true; [reflexivity|]. symmetry. apply ltb_lt. apply (spread_after t (times rest)); [exact Sp|]. apply in_map_iff. exists (s, x). auto.
Qed.

Lemma fits_sized n m ids t : fits eps n m ids t -> sized n m ids.
Proof. intros Ft id I. destruct (Ft id I) as (d & v0 & p0 & rest & Ed & Sz & W & Sp & FW & P & FP). exists d. rewrite W in *. repeat split; auto. discriminate. Qed.

Lemma update_ok n m ids t (s : @qn V) G (values : list V) : fits eps n m ids t -> NoDup ids -> q_ids s = ids -> (forall id, In id ids -> after eps (q_grids s) id t = Some (G id) /\ spread (t :: G id)) -> length values = total n ids G ->
  exists m' : @dataMap V, updateCouplingData eps s m values t = Some m' /\ flat_map (fun id => flat_map snd (tl (waveOf m' id))) ids = values /\
    (forall id, In id ids -> times (waveOf m' id) = t :: G id /\ hd_error (waveOf m' id) = hd_error (waveOf m id) /\ prevOf m' id = prevOf m id /\ Forall (fun p => length (snd p) = n id) (waveOf m' id)) /\ (forall id, ~ In id ids -> at_ m' id = at_ m id).
Proof.
  intros Ft ND Q A L. unfold updateCouplingData. rewrite Q.
  assert (K : forall l (m0 : @dataMap V) off, (forall id, In id l -> In id ids) -> NoDup l -> (forall id, In id l -> at_ m0 id = at_ m id) -> off + total n l G <= length values ->
    exists m' : @dataMap V, foldM (fun '(m, offset) id => bind (at_ m id) (fun d => bind (after eps (q_grids s) id t) (fun l =>
      bind (foldM (scatterTime eps (d_size d) values) (trimAfter eps (d_wave d) t, offset) l) (fun '(w, offset) => Some (put m id (Data (d_size d) w (d_prev d)), offset))))) (m0, off) l = Some (m', off + total n l G) /\
      flat_map (fun id => flat_map snd (tl (waveOf m' id))) l = firstn (total n l G) (skipn off values) /\
      (forall id, In id l -> times (waveOf m' id) = t :: G id /\ hd_error (waveOf m' id) = hd_error (waveOf m id) /\ prevOf m' id = prevOf m id /\ Forall (fun p => length (snd p) = n id) (waveOf m' id)) /\ (forall id, ~ In id l -> at_ m' id = at_ m0 id)).
  { induction l as [|id r IH]; intros m0 off I N E H.
    - exists m0. cbn [foldM]. change (total n [] G) with 0. rewrite Nat.add_0_r. split; [reflexivity|]. split; [reflexivity|]. split; [intros ? []|auto].
    - pose proof (proj1 (NoDup_cons_iff _ _) N) as [Nid Nr]. destruct (Ft id (I id (or_introl eq_refl))) as (d & v0 & p0 & rest & Ed & Sz & W & Sp & FW & P & FP). destruct (A id (I id (or_introl eq_refl))) as [Af SpG].
      assert (T : total n (id :: r) G = length (G id) * n id + total n r G) by reflexivity.
      cbn [foldM]. rewrite (E id (or_introl eq_refl)), Ed. cbn [bind]. rewrite Af. cbn [bind]. rewrite Sz, W, trim_ok by (rewrite W in Sp; exact Sp).
      rewrite scatter_ok; [|discriminate|lia|intros s0 t' [<-|[]] J; exact (spread_after t (G id) t' SpG J)|exact (spread_tl _ _ SpG)]. cbn [bind app].
      set (d' := Data (n id) ((t, v0) :: slices (n id) (G id) (skipn off values)) (d_prev d)).
      destruct (IH (put m0 id d') (off + length (G id) * n id)) as (m' & F1 & F2 & F3 & F4).
      + intros i J. apply I. right. exact J.
      + exact Nr.
      + intros i J. rewrite at_put by (rewrite (E id (or_introl eq_refl)), Ed; discriminate). destruct (Nat.eqb_spec id i) as [->|_]; [contradiction|]. apply E. right. exact J.
      + lia.
      + exists m'. assert (At : at_ m' id = Some d') by (rewrite F4 by exact Nid; rewrite at_put by (rewrite (E id (or_introl eq_refl)), Ed; discriminate); rewrite Nat.eqb_refl; reflexivity).
        split; [etransitivity; [exact F1|]; rewrite T; f_equal; f_equal; lia|]. split; [|split].
        * cbn [flat_map]. rewrite F2. unfold waveOf at 1. rewrite At. cbn [d_wave d' tl]. rewrite slices_values by (rewrite skipn_length; lia). rewrite T. rewrite <- (firstn_skipn (length (G id) * n id) (firstn (length (G id) * n id + total n r G) (skipn off values))). rewrite firstn_firstn. replace (min (length (G id) * n id) (length (G id) * n id + total n r G)) with (length (G id) * n id) by lia.
          f_equal. rewrite skipn_firstn_comm, skipn_skipn. replace (length (G id) * n id + total n r G - length (G id) * n id) with (total n r G) by lia. f_equal. f_equal. lia.
        * intros i [<-|J]; [|apply F3, J]. unfold waveOf, prevOf. rewrite At, Ed. cbn [d_wave d_prev d']. split; [|split; [rewrite W; reflexivity|split; [reflexivity|constructor; [rewrite W in FW; inversion FW; assumption|apply slices_length; rewrite skipn_length; lia]]]]. change (times ((t, v0) :: slices (n id) (G id) (skipn off values))) with (t :: times (slices (n id) (G id) (skipn off values))). rewrite slices_times. reflexivity.
        * intros i J. rewrite F4 by (intro; apply J; right; assumption). rewrite at_put by (rewrite (E id (or_introl eq_refl)), Ed; discriminate). destruct (Nat.eqb_spec id i) as [->|_]; [exfalso; apply J; left; reflexivity|reflexivity]. }
  destruct (K ids m 0) as (m' & F1 & F2 & F3 & F4); [auto|exact ND|auto|lia|]. exists m'. split; [exact (f_equal (fun x => bind x (fun y => let (m0, _) := y : @dataMap V * nat in Some m0)) F1)|]. split; [|split; [exact F3|exact F4]]. rewrite F2. cbn [skipn]. rewrite <- L. apply firstn_all.
Qed.
Lemma relaxation_ok n (m : @dataMap V) ids t : fits eps n m ids t -> forall id, In id ids ->
  waveOf (applyRelaxation eps interp relax m t) id = hd (0%Qc, []) (waveOf m id) :: map (fun p => (fst p, relax (snd p) (interp (prevOf m id) (fst p)))) (tl (waveOf m id)) /\ prevOf (applyRelaxation eps interp relax m t) id = prevOf m id.
Proof.
  intros Ft id I. destruct (Ft id I) as (d & v0 & p0 & rest & Ed & Sz & W & Sp & _). set (h := fun d : @data V => Data (d_size d) (map (fun '(s, x) => if greater eps s t then (s, relax x (interp (d_prev d) s)) else (s, x)) (d_wave d)) (d_prev d)).
  assert (At : at_ (applyRelaxation eps interp relax m t) id = Some (h d)). { clear - Ed. unfold applyRelaxation. revert Ed. induction m as [|[i e] r IH]; [discriminate|]. cbn [at_ map]. destruct (i =? id); [intros [= ->]; reflexivity|exact IH]. }
  unfold waveOf, prevOf. rewrite At, Ed. cbn [h d_wave d_prev]. split; [|reflexivity]. rewrite W in Sp |- *. set (q0 := p0 :: rest) in *. cbn [hd tl map]. unfold greater at 1. replace (ltb eps (t - t)) with false by (symmetry; apply ltb_ge; q). f_equal.
  apply map_ext_in. intros [s x] J. cbn [fst snd]. unfold greater. replace (ltb eps (s - t)) with true; [reflexivity|]. symmetry. apply ltb_lt. apply (spread_after t (times q0)); [exact Sp|]. apply in_map_iff. exists (s, x). auto.
Qed.

(** * The invariant *)
Section Run.
Variable n : nat -> nat.
Variable ids prim : list nat.
Variable reduced force : bool.
Hypothesis nodup : NoDup ids.
Hypothesis sub : incl prim ids.

Record inv (s : @qn V) (x : spec) : Prop := Inv { i_ids : q_ids s = ids; i_prim : q_primary s = prim; i_red : q_reduced s = reduced; i_force : q_force s = force; i_first : q_first s = first x; i_unset : q_firstWindow s = unset x;
  i_set : unset x && first x = false -> q_grids s = map (fun id => (id, placed (R x id) (F x id))) ids /\ q_pgrids s = map (fun id => (id, if reduced then [snd (F x id)] else placed (R x id) (F x id))) prim /\
     (forall id, In id ids -> positions (R x id) /\ (fst (F x id) < snd (F x id))%Qc) /\
     length (q_values s) = total n ids (steps x) /\ length (q_old s) = total n ids (steps x) /\ length (q_pvalues s) = total n prim (psteps reduced x) /\ length (q_pold s) = total n prim (psteps reduced x) }.

Lemma psteps_length x y id : R x id = R y id -> length (psteps reduced x id) = length (psteps reduced y id).
Proof. intros E. unfold psteps, steps. destruct reduced; [reflexivity|]. rewrite !placed_length, E. reflexivity. Qed.
Lemma total_ext l G H : (forall id, In id l -> length (G id) = length (H id)) -> total n l G = total n l H.
Proof. intros E. unfold total. f_equal. apply map_ext_in. intros id I. rewrite (E id I). reflexivity. Qed.
Lemma frame_ok (m : @dataMap V) t id : fits eps n m ids t -> In id ids -> fst (frameOf m id) = t /\ (fst (frameOf m id) < snd (frameOf m id))%Qc /\ waveOf m id <> [] /\ spread (times (waveOf m id)) /\ exists b l, times (waveOf m id) = t :: b :: l.
Proof.
  intros Ft I. destruct (Ft id I) as (d & v0 & p0 & rest & Ed & Sz & W & Sp & _). unfold frameOf, waveOf. rewrite Ed, W in *. cbn [fst snd]. split; [reflexivity|]. split; [|split; [discriminate|split; [exact Sp|exists (fst p0), (times rest); reflexivity]]].
  change (times ((t, v0) :: p0 :: rest)) with (t :: fst p0 :: times rest) in *. exact (last_spread _ _ _ Sp).
Qed.

Lemma after_of g G r id t : In id r -> g = map (fun id => (id, t :: G id)) r -> spread (t :: G id) -> after eps g id t = Some (G id).
Proof. intros I -> Sp. unfold after. rewrite (at_map (fun i => t :: G i)) by exact I. cbn [bind]. rewrite after_spread by exact Sp. reflexivity. Qed.

Lemma prepare_ok (s : @qn V) x (e : @event V) : inv s x -> fits eps n (mapIn e) ids (startIn e) -> (forall id, In id ids -> fst (F (enter x e) id) = startIn e /\ spread (startIn e :: steps (enter x e) id)) ->
  exists t, prepare eps zero interp s (mapIn e) (startIn e) = Some t /\ inv t (enter x e) /\ q_values t = gathered interp (waveOf (mapIn e)) ids (steps (enter x e)) /\ q_old t = gathered interp (prevOf (mapIn e)) ids (steps (enter x e)) /\
    q_pvalues t = gathered interp (waveOf (mapIn e)) prim (psteps reduced (enter x e)) /\ q_pold t = gathered interp (prevOf (mapIn e)) prim (psteps reduced (enter x e)) /\
    (forall id, In id ids -> after eps (q_grids t) id (startIn e) = Some (steps (enter x e) id)) /\
    (q_grids t = map (fun id => (id, placed (R (enter x e) id) (F (enter x e) id))) ids /\ q_pgrids t = map (fun id => (id, if reduced then [snd (F (enter x e) id)] else placed (R (enter x e) id) (F (enter x e) id))) prim /\ forall id, In id ids -> positions (R (enter x e) id) /\ (fst (F (enter x e) id) < snd (F (enter x e) id))%Qc).
Proof.
  intros [Hi Hp Hr Hf H1 Hu Hs] Ft Sp. set (m := mapIn e) in *. set (t0 := startIn e) in *. set (y := enter x e) in *. pose proof (fits_sized _ _ _ _ Ft) as Sz. assert (Szp : sized n m prim) by (intros id I; apply Sz, sub, I).
  assert (Y : (forall id, In id ids -> positions (R y id) /\ (fst (F y id) < snd (F y id))%Qc)).
  { intros id I. destruct (frame_ok m t0 id Ft I) as (A1 & A2 & A3 & A4 & b & l & A5). unfold y, enter. cbn [R F]. destruct (first x) eqn:E1.
    - rewrite andb_true_r. split; [|exact A2]. destruct (unset x) eqn:E2; [fold m; rewrite A5 in A4 |- *; apply relative_positions; exact A4|]. destruct Hs as (_ & _ & P & _); [reflexivity|]. apply P, I.
    - rewrite andb_false_r. destruct Hs as (_ & _ & P & _); [apply andb_false_r|]. apply P, I. }
  (* the grids after both steps *)
  assert (St : exists s1, bind (if q_firstWindow s && q_first s then initVectors eps zero s m t0 else Some s) (fun s => if q_first s then bind (move (q_grids s) m) (fun g => bind (move (q_pgrids s) m) (fun pg =>
     Some (QN (q_ids s) (q_primary s) (q_reduced s) (q_force s) (q_first s) (q_firstWindow s) g pg (q_values s) (q_old s) (q_pvalues s) (q_pold s)))) else Some s) = Some s1 /\
     q_ids s1 = ids /\ q_primary s1 = prim /\ q_reduced s1 = reduced /\ q_force s1 = force /\ q_first s1 = first x /\ q_firstWindow s1 = unset x /\
     q_grids s1 = map (fun id => (id, placed (R y id) (F y id))) ids /\ q_pgrids s1 = map (fun id => (id, if reduced then [snd (F y id)] else placed (R y id) (F y id))) prim /\
     length (q_values s1) = total n ids (steps y) /\ length (q_old s1) = total n ids (steps y) /\ length (q_pvalues s1) = total n prim (psteps reduced y) /\ length (q_pold s1) = total n prim (psteps reduced y)).
  { assert (Mv : forall g pg rr ww, g = map (fun id => (id, placed (rr id) (ww id))) ids -> pg = map (fun id => (id, if reduced then [snd (ww id)] else placed (rr id) (ww id))) prim -> (forall id, In id ids -> positions (rr id) /\ (fst (ww id) < snd (ww id))%Qc) ->
      move g m = Some (map (fun id => (id, placed (rr id) (frameOf m id))) ids) /\ move pg m = Some (map (fun id => (id, if reduced then [snd (frameOf m id)] else placed (rr id) (frameOf m id))) prim)).
    { intros g pg rr ww -> -> P. split; unfold move; apply mapM_map.
      - intros id I. destruct (frame_ok m t0 id Ft I) as (_ & _ & A3 & _). unfold waveOf in A3. unfold frameOf, waveOf. destruct (Ft id I) as (d & v0 & p0 & rest & Ed & _). rewrite Ed in *. cbn [bind]. destruct (P id I) as [P1 P2]. rewrite move_placed by assumption. reflexivity.
      - intros id I0. pose proof (sub id I0) as I. destruct (frame_ok m t0 id Ft I) as (_ & _ & A3 & _). unfold waveOf in A3. unfold frameOf, waveOf. destruct (Ft id I) as (d & v0 & p0 & rest & Ed & _). rewrite Ed in *. cbn [bind]. destruct (P id I) as [P1 P2]. destruct reduced; [rewrite move_reduced by assumption; reflexivity|]. rewrite move_placed by assumption. reflexivity. }
    rewrite Hu, H1. destruct (unset x && first x) eqn:E.
    - apply andb_prop in E. destruct E as [E1 E2]. unfold initVectors. rewrite Hi, Hp, Hr.
      assert (Own : forall id, In id ids -> placed (R y id) (F y id) = times (waveOf m id)).
      { intros id I. destruct (frame_ok m t0 id Ft I) as (A1 & A2 & A3 & A4 & b & l & A5). unfold y, enter. cbn [R F]. rewrite E1, E2. cbn [andb]. fold m. unfold frameOf. rewrite A5 in A4 |- *. apply placed_relative. exact A4. }
      assert (G1 : newGrids m ids false = Some (map (fun id => (id, placed (R y id) (F y id))) ids)). { unfold newGrids. apply mapM_ok. intros id I. rewrite (Own id I). unfold waveOf. destruct (Ft id I) as (d & v0 & p0 & rest & Ed & _). rewrite Ed. reflexivity. }
      assert (G2 : newGrids m prim reduced = Some (map (fun id => (id, if reduced then [snd (F y id)] else placed (R y id) (F y id))) prim)).
      { unfold newGrids. apply mapM_ok. intros id I. pose proof (Own id (sub id I)) as O. pose proof (placed_last (R y id) (F y id) (proj1 (Y id (sub id I)))) as PL. rewrite O in *. clear O. destruct (frame_ok m t0 id Ft (sub id I)) as (A1 & A2 & A3 & A4 & b & l & A5). unfold waveOf in *. destruct (Ft id (sub id I)) as (d & v0 & p0 & rest & Ed & _). rewrite Ed in *. cbn [bind]. destruct reduced; [|reflexivity]. rewrite (lastOf_last _ 0%Qc) by (rewrite A5; discriminate). cbn [bind]. rewrite PL. reflexivity. }
      rewrite G1, G2. cbn [bind].
      assert (Afi : forall id, In id ids -> after eps (map (fun id => (id, placed (R y id) (F y id))) ids) id t0 = Some (steps y id)).
      { intros id I. unfold after. rewrite (at_map (fun i => placed (R y i) (F y i))) by exact I. cbn [bind]. rewrite placed_hd by (apply Y, I). destruct (Sp id I) as [S1 S2]. rewrite S1. rewrite after_spread by exact S2. reflexivity. }
      assert (Afp : forall id, In id prim -> after eps (map (fun id => (id, if reduced then [snd (F y id)] else placed (R y id) (F y id))) prim) id t0 = Some (psteps reduced y id)).
      { intros id I0. pose proof (sub id I0) as I. unfold after. rewrite (at_map (fun id => if reduced then [snd (F y id)] else placed (R y id) (F y id))) by exact I0. cbn [bind]. destruct (Sp id I) as [S1 S2]. unfold psteps. destruct reduced.
        - cbn [filter]. replace (greater eps (snd (F y id)) t0) with true; [reflexivity|]. symmetry. apply ltb_lt. destruct (Y id I) as [Y1 Y2]. pose proof (placed_last _ (F y id) Y1) as PL. rewrite placed_hd in PL by exact Y1. destruct Y1 as (r' & Er & Nr & Lr). assert (Nn : placed (tl (R y id)) (F y id) <> []) by (rewrite Er; cbn [tl]; destruct r'; [congruence|discriminate]). apply (spread_after t0 (steps y id)); [exact S2|]. rewrite <- PL. unfold steps. destruct (exists_last Nn) as (a & b & Eab). rewrite Eab. rewrite app_comm_cons, last_last. apply in_or_app. right. left. reflexivity.
        - rewrite placed_hd by (apply Y, I). rewrite S1, after_spread by exact S2. reflexivity. }
      rewrite (entries_ok n m prim _ (psteps reduced y) t0 Szp Afp), (entries_ok n m ids _ (steps y) t0 Sz Afi). cbn [bind]. cbn [q_first q_grids q_pgrids q_ids q_primary q_reduced q_force q_firstWindow q_values q_old q_pvalues q_pold]. rewrite H1, E2.
      destruct (Mv _ _ (R y) (F y) eq_refl eq_refl Y) as [M1 M2]. rewrite M1, M2. cbn [bind]. assert (Fy : forall id, frameOf m id = F y id) by (intros id; unfold y, enter; cbn [F]; rewrite E2; reflexivity).
      eexists. split; [reflexivity|]. cbn [q_first q_grids q_pgrids q_ids q_primary q_reduced q_force q_firstWindow q_values q_old q_pvalues q_pold]. rewrite !repeat_length. repeat split; auto; apply map_ext; intros id; rewrite Fy; reflexivity.
    - destruct Hs as (Q1 & Q2 & Q3 & Q4 & Q5 & Q6 & Q7); [reflexivity|]. cbn [bind]. rewrite H1. assert (Ry : R y = R x) by (unfold y, enter; cbn [R]; rewrite E; reflexivity).
      assert (T1 : total n ids (steps x) = total n ids (steps y)) by (apply total_ext; intros id I; unfold steps; rewrite !placed_length, Ry; reflexivity).
      assert (T2 : total n prim (psteps reduced x) = total n prim (psteps reduced y)) by (apply total_ext; intros id I; apply psteps_length; rewrite Ry; reflexivity).
      destruct (first x) eqn:E2.
      + destruct (Mv _ _ (R x) (F x) Q1 Q2 Q3) as [M1 M2]. rewrite M1, M2. cbn [bind]. assert (Fy : forall id, frameOf m id = F y id) by (intros id; unfold y, enter; cbn [F]; rewrite E2; reflexivity).
        eexists. split; [reflexivity|]. cbn [q_first q_grids q_pgrids q_ids q_primary q_reduced q_force q_firstWindow q_values q_old q_pvalues q_pold]. rewrite <- T1, <- T2, Ry. repeat split; auto; apply map_ext; intros id; rewrite Fy; reflexivity.
      + assert (Fy : F y = F x) by (unfold y, enter; cbn [F]; rewrite E2; reflexivity). exists s. rewrite <- T1, <- T2, Ry, Fy. repeat split; auto. }
  destruct St as (s1 & E & B1 & B2 & B3 & B4 & B5 & B6 & B7 & B8 & B9 & B10 & B11 & B12).
  assert (Afi : forall id, In id ids -> after eps (q_grids s1) id t0 = Some (steps y id)).
  { intros id I. unfold after. rewrite B7, (at_map (fun i => placed (R y i) (F y i))) by exact I. cbn [bind]. rewrite placed_hd by (apply Y, I). destruct (Sp id I) as [S1 S2]. rewrite S1. rewrite after_spread by exact S2. reflexivity. }
  assert (Afp : forall id, In id prim -> after eps (q_pgrids s1) id t0 = Some (psteps reduced y id)).
  { intros id I0. pose proof (sub id I0) as I. unfold after. rewrite B8, (at_map (fun id => if reduced then [snd (F y id)] else placed (R y id) (F y id))) by exact I0. cbn [bind]. destruct (Sp id I) as [S1 S2]. unfold psteps. destruct reduced.
    - cbn [filter]. replace (greater eps (snd (F y id)) t0) with true; [reflexivity|]. symmetry. apply ltb_lt. destruct (Y id I) as [Y1 Y2]. pose proof (placed_last _ (F y id) Y1) as PL. rewrite placed_hd in PL by exact Y1. destruct Y1 as (r' & Er & Nr & Lr). assert (Nn : placed (tl (R y id)) (F y id) <> []) by (rewrite Er; cbn [tl]; destruct r'; [congruence|discriminate]). apply (spread_after t0 (steps y id)); [exact S2|]. rewrite <- PL. unfold steps. destruct (exists_last Nn) as (a & b & Eab). rewrite Eab. rewrite app_comm_cons, last_last. apply in_or_app. right. left. reflexivity.
    - rewrite placed_hd by (apply Y, I). rewrite S1, after_spread by exact S2. reflexivity. }
  assert (P : prepare eps zero interp s m t0 = bind (concatenate eps interp (q_values s1) (q_old s1) m (q_ids s1) (q_grids s1) t0) (fun '(v, o) =>
    bind (concatenate eps interp (q_pvalues s1) (q_pold s1) m (q_primary s1) (q_pgrids s1) t0) (fun '(pv, po) =>
    Some (QN (q_ids s1) (q_primary s1) (q_reduced s1) (q_force s1) (q_first s1) (q_firstWindow s1) (q_grids s1) (q_pgrids s1) v o pv po)))).
  { unfold prepare. destruct (if q_firstWindow s && q_first s then initVectors eps zero s m t0 else Some s) as [s0|]; [|discriminate E]. cbn [bind] in E |- *. rewrite E. reflexivity. }
  rewrite B1, (concatenate_ok n m ids (q_grids s1) (steps y) t0 Sz Afi) in P by congruence. cbn [bind] in P. rewrite B2, (concatenate_ok n m prim (q_pgrids s1) (psteps reduced y) t0 Szp Afp) in P by congruence. cbn [bind] in P.
  eexists. split; [exact P|]. destruct (gathered_length n m ids (steps y) Sz) as [L1 L2]. destruct (gathered_length n m prim (psteps reduced y) Szp) as [L3 L4].
  assert (Fl : first y = first x /\ unset y = unset x) by (split; reflexivity). destruct Fl as [Fl1 Fl2].
  split; [|split; [reflexivity|split; [reflexivity|split; [reflexivity|split; [reflexivity|split; [exact Afi|split; [exact B7|split; [exact B8|exact Y]]]]]]]].
  split; cbn [q_first q_grids q_pgrids q_ids q_primary q_reduced q_force q_firstWindow q_values q_old q_pvalues q_pold]; try congruence. intros _. split; [exact B7|]. split; [exact B8|]. split; [exact Y|]. auto.
Qed.

Lemma run_ok (evs : list (@event V)) : forall s x, inv s x -> possible eps n ids x evs -> exists outs, run eps zero interp relax s evs = Some outs /\ asExpected interp relax n ids prim reduced force x evs outs.
Proof.
  induction evs as [|e r IH]; intros s x I P; [exists []; split; reflexivity|]. cbn [possible] in P. destruct P as (Ft & Sp & Le & Pr). destruct (prepare_ok s x e I Ft Sp) as (t & Et & It & V1 & V2 & V3 & V4 & Af & G1 & G2 & G3). set (y := enter x e) in *.
  pose proof It as [Hi Hp Hr Hf H1 Hu Hs]. pose proof (fits_sized _ _ _ _ Ft) as Sz. destruct (gathered_length n (mapIn e) ids (steps y) Sz) as [L1 L2]. assert (Szp : sized n (mapIn e) prim) by (intros id J; apply Sz, sub, J). destruct (gathered_length n (mapIn e) prim (psteps reduced y) Szp) as [L3 L4].
  destruct e as [m t0 f|m t0]; cbn [mapIn startIn] in *.
  - cbn [run]. unfold perform. rewrite Et. cbn [bind]. rewrite H1, Hu, Hf. destruct (first y && (unset y || force)) eqn:Rx.
    + cbn [bind]. match goal with |- context [run _ _ _ _ ?u r] => set (s' := u) end. assert (I' : inv s' (leave y (Iterate m t0 f))).
      { unfold s'. split; cbn [q_first q_grids q_pgrids q_ids q_primary q_reduced q_force q_firstWindow q_values q_old q_pvalues q_pold leave first unset R F]; try congruence. intros _. split; [exact G1|]. split; [exact G2|]. split; [exact G3|]. change (steps (leave y (Iterate m t0 f))) with (steps y). change (psteps reduced (leave y (Iterate m t0 f))) with (psteps reduced y). rewrite V1, V2, V3, V4. auto. }
      destruct (IH s' _ I' Pr) as (outs & E1 & E2). rewrite E1. cbn [bind]. eexists. split; [reflexivity|]. cbn [asExpected]. fold y. split; [|exact E2]. unfold output. cbn [mapIn]. rewrite Rx. unfold s'. cbn [q_values q_old q_pvalues q_pold]. split; [exact V2|]. split; [exact V3|]. split; [exact V4|]. split; [exact V1|]. exact (relaxation_ok n m ids t0 Ft).
    + assert (A2 : forall id, In id ids -> after eps (q_grids t) id t0 = Some (steps y id) /\ spread (t0 :: steps y id)) by (intros id J; split; [apply Af, J|apply Sp, J]).
      destruct (update_ok n m ids t0 t (steps y) (f (q_values t)) Ft nodup Hi A2) as (m' & U1 & U2 & U3 & U4); [rewrite Le, V1; exact L1|]. rewrite U1. cbn [bind]. match goal with |- context [run _ _ _ _ ?u r] => set (s' := u) end. assert (I' : inv s' (leave y (Iterate m t0 f))).
      { unfold s'. split; cbn [q_first q_grids q_pgrids q_ids q_primary q_reduced q_force q_firstWindow q_values q_old q_pvalues q_pold leave first unset R F]; try congruence. intros _. split; [exact G1|]. split; [exact G2|]. split; [exact G3|]. change (steps (leave y (Iterate m t0 f))) with (steps y). change (psteps reduced (leave y (Iterate m t0 f))) with (psteps reduced y). rewrite Le, V1, V2, V3, V4. auto. }
      destruct (IH s' _ I' Pr) as (outs & E1 & E2). rewrite E1. cbn [bind]. eexists. split; [reflexivity|]. cbn [asExpected]. fold y. split; [|exact E2]. unfold output. cbn [mapIn]. rewrite Rx. unfold s'. cbn [q_values q_old q_pvalues q_pold]. split; [exact V2|]. split; [exact V3|]. split; [exact V4|]. rewrite <- V1. split; [reflexivity|]. split; [exact U2|]. split; [exact U3|exact U4].
  - cbn [run]. unfold converged. rewrite Et. cbn [bind]. match goal with |- context [run _ _ _ _ ?u r] => set (s' := u) end. assert (I' : inv s' (leave y (Converge m t0))).
    { unfold s'. split; cbn [q_first q_grids q_pgrids q_ids q_primary q_reduced q_force q_firstWindow q_values q_old q_pvalues q_pold leave first unset R F]; try congruence. intros _. split; [exact G1|]. split; [exact G2|]. split; [exact G3|]. change (steps (leave y (Converge m t0))) with (steps y). change (psteps reduced (leave y (Converge m t0))) with (psteps reduced y). rewrite V1, V2, V3, V4. auto. }
    destruct (IH s' _ I' Pr) as (outs & E1 & E2). rewrite E1. cbn [bind]. eexists. split; [reflexivity|]. cbn [asExpected]. fold y. split; [|exact E2]. unfold output. cbn [mapIn]. unfold s'. cbn [q_values q_old q_pvalues q_pold]. auto.
Qed.
Lemma inv_start : inv (start ids prim reduced force) begin.
Proof. split; try reflexivity. discriminate. Qed.
End Run.
End Proofs.
