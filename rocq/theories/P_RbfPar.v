(** Proofs about radial-basis-function mappings on several ranks. *)
From Coq Require Import List Arith Bool QArith Lia Permutation Setoid Morphisms.
From Verif Require Import M_Rbf S_Rbf P_Rbf.
Import ListNotations.
Open Scope Q_scope.

Lemma pieces_length {A} sizes (l : list A) : length (pieces sizes l) = length sizes.
Proof. revert l. induction sizes as [|n r IH]; intros l; cbn; [reflexivity|]. rewrite IH. reflexivity. Qed.
(** where the entries of the pieces come from *)
Lemma pieces_nth {B} (bs : list (list B)) (db : B) : forall (l : vec) r b j, length l = length (concat bs) -> nth_error bs r = Some b -> (j < length b)%nat ->
  exists g, (g < length (concat bs))%nat /\ nth g (concat bs) db = nth j b db /\ at_ (nth r (pieces (map (@length B) bs) l) []) j = at_ l g.
Proof.
  induction bs as [|b0 bs IH]; intros l r b j L E Hj; [destruct r; discriminate E|]. cbn [concat map pieces] in *. destruct r as [|r].
  - cbn in E. injection E as <-. exists j. rewrite app_length in *. split; [lia|]. split; [rewrite app_nth1 by exact Hj; reflexivity|]. cbn [nth]. apply at_firstn. exact Hj.
  - cbn in E. rewrite app_length in L. destruct (IH (skipn (length b0) l) r b j) as (g & Hg & E1 & E2); [rewrite skipn_length; lia|exact E|exact Hj|].
    exists (length b0 + g)%nat. rewrite app_length. split; [lia|]. split.
    + rewrite app_nth2 by lia. replace (length b0 + g - length b0)%nat with g by lia. exact E1.
    + cbn [nth]. rewrite E2. rewrite <- (firstn_skipn (length b0) l) at 2. symmetry. apply at_app_k. rewrite firstn_length. lia.
Qed.
Lemma pieces_concat {A} sizes : forall l : list A, length l = fold_right plus 0%nat sizes -> concat (pieces sizes l) = l /\ map (@length A) (pieces sizes l) = sizes.
Proof.
  induction sizes as [|n r IH]; intros l L; cbn in *; [destruct l; [split; reflexivity|discriminate L]|].
  destruct (IH (skipn n l)) as (E1 & E2); [rewrite skipn_length; lia|]. rewrite E1, E2. split; [apply firstn_skipn|]. f_equal. rewrite firstn_length. lia.
Qed.

Lemma Qeq_eq (a b : Q) : a = b -> a == b. Proof. intros ->. reflexivity. Qed.
Section Par.
Variable phi : Q -> Q.
Hypothesis phi_ext : forall x y, x == y -> phi x == phi y.

Lemma owned_pairs_spec vs x : length x = length vs -> map fst (owned_pairs vs x) = map fst (filter snd vs) /\ map snd (owned_pairs vs x) = map snd (filter (fun p => snd (fst p)) (combine vs x)).
Proof.
  intros L. unfold owned_pairs. rewrite !map_map. cbn [fst snd]. split; [|apply map_ext; intros; reflexivity].
  revert x L. induction vs as [|[v o] vs IH]; intros [|y x] L; try discriminate L; cbn; [reflexivity|]. injection L as L. destruct o; cbn; [rewrite IH by exact L; reflexivity|apply IH; exact L].
Qed.
Lemma ownedData_length r : length (r_values r) = length (r_in r) -> length (ownedData r) = length (ownedMesh r).
Proof.
  intros L. unfold ownedData, ownedMesh. destruct (owned_pairs_spec (r_in r) (r_values r) L) as (A & B). rewrite <- A, <- B, !map_length. reflexivity.
Qed.
Lemma gathered_pairs rs : (forall r, In r rs -> length (r_values r) = length (r_in r)) ->
  length (concat (map ownedData rs)) = length (globalIn rs) /\ all_owned rs (map r_values rs) = combine (globalIn rs) (concat (map ownedData rs)).
Proof.
  unfold all_owned, globalIn. induction rs as [|r rs IH]; intros H; cbn [map concat combine]; [split; reflexivity|].
  destruct IH as (IL & IE); [intros q Hq; apply H; right; exact Hq|]. pose proof (ownedData_length r (H r (or_introl eq_refl))) as Lr.
  split; [rewrite !app_length, Lr, IL; reflexivity|]. cbn [fst snd]. rewrite IE.
  destruct (owned_pairs_spec (r_in r) (r_values r) (H r (or_introl eq_refl))) as (A & B). fold (ownedMesh r) in A. fold (ownedData r) in B.
  assert (forall l : list (vertex * Q), l = combine (map fst l) (map snd l)) as S by (induction l as [|[u w] l IHl]; cbn; [reflexivity|f_equal; exact IHl]).
  rewrite (S (owned_pairs (r_in r) (r_values r))), A, B. clear - Lr.
  revert Lr. generalize (ownedData r). induction (ownedMesh r) as [|u m IH]; intros [|y d] L; try discriminate L; cbn; [reflexivity|]. f_equal. apply IH. injection L as L. exact L.
Qed.

Lemma consistent_len s v : good_solver phi s -> length v = length (s_in s) -> length (mapConsistent phi s v) = length (s_out s).
Proof.
  intros G L. unfold mapConsistent, solveConsistent. destruct (s_poly s); try (rewrite mul_length; reflexivity).
  rewrite vadd_length; rewrite !mul_length; reflexivity.
Qed.
Lemma parallel_consistent s N rs s' v' : good_solver phi s -> s_in s = globalIn rs -> s_out s = globalOut rs ->
  (forall r, In r rs -> length (r_values r) = length (r_in r)) ->
  (length (globalIn rs) <= N <= length (globalIn rs) + polyparams (s_axes s) (s_poly s))%nat ->
  good_solver phi s' -> s_axes s = s_axes s' -> s_poly s = s_poly s' -> s_local s = s_local s' ->
  length v' = length (s_in s') -> Permutation (all_owned rs (map r_values rs)) (combine (s_in s') v') ->
  exists outs, mapConsistentParallel phi s N rs = Some outs /\ length outs = length rs /\
  forall r rd j k, nth_error rs r = Some rd -> (j < length (r_out rd))%nat -> (k < length (s_out s'))%nat ->
    same_place (s_axes s) (vtx (r_out rd) j) (vtx (s_out s') k) -> at_ (nth r outs []) j == at_ (mapConsistent phi s' v') k.
Proof.
  intros G EI EO HL HN G' EA EP EL Lv' P. destruct (gathered_pairs rs HL) as (LG & EG).
  set (gat := concat (map ownedData rs)) in *.
  assert (mapConsistentParallel phi s N rs = Some (pieces (map (fun r => length (r_out r)) rs) (mapConsistent phi s gat))) as EM.
  { unfold mapConsistentParallel. fold gat. change (m_cols (s_C phi s)) with (length (s_in s) + polyparams (s_axes s) (s_poly s))%nat. rewrite EI.
    rewrite (proj2 (Nat.ltb_ge _ N)) by lia. rewrite (proj2 (Nat.ltb_ge N _)) by lia. cbn [orb]. unfold mapConsistent. do 3 f_equal.
    rewrite <- repeat_app. rewrite firstn_all2 by (rewrite app_length, repeat_length; lia). do 2 f_equal. lia. }
  exists (pieces (map (fun r => length (r_out r)) rs) (mapConsistent phi s gat)). split; [exact EM|]. split; [etransitivity; [apply pieces_length|apply map_length]|].
  intros r rd j k Er Hj Hk SP. replace (map (fun r => length (r_out r)) rs) with (map (@length vertex) (map r_out rs)) by (rewrite map_map; reflexivity).
  assert (length gat = length (s_in s)) as Lg by (rewrite EI; exact LG).
  destruct (pieces_nth (map r_out rs) origin (mapConsistent phi s gat) r (r_out rd) j) as (g & Hg & E1 & E2);
    [rewrite consistent_len by assumption; rewrite EO; reflexivity|rewrite nth_error_map, Er; reflexivity|exact Hj|].
  transitivity (at_ (mapConsistent phi s gat) g); [exact (Qeq_eq _ _ E2)|]. fold (globalOut rs) in E1, Hg. apply (consistent_order phi phi_ext s s' (combine (s_in s) gat) (combine (s_in s') v')); try assumption.
  - apply pairs_combine. exact Lg.
  - apply pairs_combine. exact Lv'.
  - rewrite EI, <- EG. exact P.
  - rewrite EO. exact Hg.
  - unfold vtx in *. rewrite EO, E1. exact SP.
Qed.

(** ** conservative *)
Lemma putOwned_length vs : forall old new, length old = length vs -> length (putOwned vs old new) = length vs.
Proof. induction vs as [|[v o] vs IH]; intros [|y old] new L; try discriminate L; cbn; [reflexivity|]. injection L as L. destruct o, new; cbn; rewrite IH by exact L; reflexivity. Qed.
Lemma putOwned_pairs vs : forall old new, length old = length vs -> length new = length (filter snd vs) -> owned_pairs vs (putOwned vs old new) = combine (map fst (filter snd vs)) new.
Proof.
  induction vs as [|[v o] vs IH]; intros [|y old] new L Ln; try discriminate L; cbn in *; [reflexivity|]. injection L as L. destruct o; cbn in *.
  - destruct new as [|x new]; [discriminate Ln|]. injection Ln as Ln. unfold owned_pairs in *. cbn. f_equal. apply IH; assumption.
  - destruct new as [|x new]; unfold owned_pairs in *; cbn; apply IH; assumption.
Qed.
Lemma putOwned_other vs : forall old new i, length old = length vs -> (exists v, nth_error vs i = Some (v, false)) -> at_ (putOwned vs old new) i = at_ old i.
Proof.
  unfold at_. induction vs as [|[v o] vs IH]; intros [|y old] new i L (w & Hi); try discriminate L; [destruct i; discriminate Hi|]. injection L as L. destruct i as [|i].
  - cbn in Hi. injection Hi as -> ->. reflexivity.
  - cbn in Hi. destruct o, new; cbn; apply IH; try assumption; exists w; exact Hi.
Qed.
Lemma combine_app {A B} (a a' : list A) (b b' : list B) : length a = length b -> combine (a ++ a') (b ++ b') = combine a b ++ combine a' b'.
Proof. revert b. induction a as [|x a IH]; intros [|y b] L; try discriminate L; cbn; [reflexivity|]. f_equal. apply IH. injection L as L. exact L. Qed.
Lemma weighted_lsum w l : weighted w l == lsum (fun p => w (fst p) * snd p) l.
Proof. induction l as [|p l IH]; cbn; [reflexivity|]. rewrite IH. reflexivity. Qed.
Lemma weighted_sumn w m x : length x = length m -> weighted w (combine m x) == sumn (length m) (fun i => at_ (map w m) i * at_ x i).
Proof.
  intros L. rewrite weighted_lsum, <- (lsum_sumn _ (origin, 0)). rewrite combine_length, L, Nat.min_id. apply sumn_ext. intros i Hi.
  rewrite combine_nth_at by exact L. cbn [fst snd]. unfold at_ at 2. erewrite (nth_indep (map w m)) by (rewrite map_length; exact Hi). rewrite map_nth. reflexivity.
Qed.
Lemma all_owned_pieces rs : forall out, length out = length (globalIn rs) ->
  all_owned rs (map (fun p => putOwned (r_in (fst p)) (repeat 0 (length (r_in (fst p)))) (snd p)) (combine rs (pieces (map (fun r => length (ownedMesh r)) rs) out))) = combine (globalIn rs) out.
Proof.
  unfold all_owned, globalIn. induction rs as [|r rs IH]; intros out L; cbn [map concat combine pieces fst snd] in *; [destruct out; reflexivity|]. rewrite app_length in L.
  rewrite IH by (rewrite skipn_length; lia). rewrite putOwned_pairs; [|apply repeat_length|].
  - fold (ownedMesh r). rewrite <- combine_app by (rewrite firstn_length; lia). rewrite firstn_skipn. reflexivity.
  - rewrite firstn_length. unfold ownedMesh in *. rewrite map_length in *. lia.
Qed.
Lemma combine_nth_error_some {A B} (l : list A) (m : list B) i a : length l = length m -> nth_error l i = Some a -> exists b, nth_error (combine l m) i = Some (a, b).
Proof.
  revert m i. induction l as [|x l IH]; intros [|y m] i L E; try discriminate L; [destruct i; discriminate E|]. destruct i as [|i]; cbn in *.
  - injection E as ->. exists y. reflexivity.
  - apply IH; [injection L as L; exact L|exact E].
Qed.
Lemma parallel_conservative s N rs s' u' w : good_solver phi s -> s_in s = globalIn rs -> s_out s = globalOut rs ->
  (forall r, In r rs -> length (r_values r) = length (r_out r)) ->
  (length (globalIn rs) <= N <= length (globalIn rs) + polyparams (s_axes s) (s_poly s))%nat ->
  good_solver phi s' -> s_axes s = s_axes s' -> s_poly s = s_poly s' -> s_local s = s_local s' ->
  length u' = length (s_out s') -> Permutation (combine (globalOut rs) (concat (map r_values rs))) (combine (s_out s') u') ->
  Permutation (globalIn rs) (s_in s') ->
  exists outs, mapConservativeParallel phi s N rs = Some outs /\ length outs = length rs /\
  (forall r rd, nth_error rs r = Some rd -> length (nth r outs []) = length (r_in rd) /\
     forall i v, nth_error (r_in rd) i = Some (v, false) -> at_ (nth r outs []) i = 0) /\
  weighted w (all_owned rs outs) == weighted w (combine (s_in s') (mapConservative phi s' u')).
Proof.
  intros G EI EO HL HN G' EA EP EL Lu' PO PI.
  assert (length (concat (map r_values rs)) = length (globalOut rs)) as Lg.
  { unfold globalOut. clear - HL. induction rs as [|r rs IH]; cbn [map concat]; [reflexivity|]. rewrite !app_length, IH by (intros q Hq; apply HL; right; exact Hq). rewrite (HL r (or_introl eq_refl)). reflexivity. }
  set (u := concat (map r_values rs)) in *. assert (length u = length (s_out s)) as Lu by (rewrite EO; exact Lg).
  set (full := solveConservative phi s u). assert (length full = sizeC s) as Lf by (apply (conservative_length phi s G u Lu)).
  set (outs := map (fun p => putOwned (r_in (fst p)) (repeat 0 (length (r_in (fst p)))) (snd p)) (combine rs (pieces (map (fun r => length (ownedMesh r)) rs) (firstn N full)))).
  assert (length (pieces (map (fun r => length (ownedMesh r)) rs) (firstn N full)) = length rs) as LP by (etransitivity; [apply pieces_length|apply map_length]).
  exists outs. split; [|split; [|split]].
  - unfold mapConservativeParallel. change (m_cols (s_C phi s)) with (length (s_in s) + polyparams (s_axes s) (s_poly s))%nat. rewrite EI.
    rewrite (proj2 (Nat.ltb_ge _ N)) by lia. reflexivity.
  - unfold outs. rewrite map_length, combine_length, LP. apply Nat.min_id.
  - intros r rd Er. destruct (combine_nth_error_some rs (pieces (map (fun r => length (ownedMesh r)) rs) (firstn N full)) r rd (eq_sym LP) Er) as (b & Eb).
    assert (nth r outs [] = putOwned (r_in rd) (repeat 0 (length (r_in rd))) b) as E. { apply nth_error_nth. exact (map_nth_error _ r _ Eb). }
    rewrite E. split; [apply putOwned_length, repeat_length|]. intros i v Hi. rewrite putOwned_other; [apply at_repeat|apply repeat_length|exists v; exact Hi].
  - assert (mapConservative phi s u = firstn (length (globalIn rs)) full) as EM by (unfold mapConservative; rewrite EI; reflexivity).
    assert (outs = map (fun p => putOwned (r_in (fst p)) (repeat 0 (length (r_in (fst p)))) (snd p)) (combine rs (pieces (map (fun r => length (ownedMesh r)) rs) (mapConservative phi s u)))) as EOuts.
    { unfold outs. do 2 f_equal. rewrite EM. assert (forall sizes (l : vec) M M', (fold_right plus 0 sizes <= M)%nat -> (fold_right plus 0 sizes <= M')%nat -> pieces sizes (firstn M l) = pieces sizes (firstn M' l)) as PC.
      { induction sizes as [|z sizes IH]; intros l M M' H H'; cbn in *; [reflexivity|]. rewrite !firstn_firstn, !Nat.min_l by lia. f_equal. rewrite !skipn_firstn_comm. apply IH; lia. }
      apply PC; (assert (fold_right plus 0%nat (map (fun r => length (ownedMesh r)) rs) = length (globalIn rs)) as ES;
        [unfold globalIn; clear; induction rs as [|r rs IH]; cbn [map concat fold_right]; [reflexivity|]; rewrite app_length, IH; reflexivity|rewrite ES; lia]). }
    assert (length (mapConservative phi s u) = length (globalIn rs)) as LM by (rewrite EM, firstn_length, Lf; unfold sizeC, sizeN; rewrite EI; lia).
    rewrite EOuts, all_owned_pieces by exact LM.
    assert (length (mapConservative phi s' u') = length (s_in s')) as LM'. { unfold mapConservative. rewrite firstn_length, (conservative_length phi s' G' u' Lu'). unfold sizeC, sizeN. lia. }
    rewrite !weighted_sumn by assumption. rewrite <- EI.
    change (length (s_in s)) with (sizeN s). change (length (s_in s')) with (sizeN s').
    apply (conservative_order phi phi_ext s s' (map (fun x => (x, w x)) (s_in s)) (map (fun x => (x, w x)) (s_in s')) (map w (s_in s)) (map w (s_in s')) (combine (s_out s) u) (combine (s_out s') u')); try assumption.
    + split; rewrite map_map; [apply map_id|]. cbn. clear. induction (s_in s); constructor; [reflexivity|assumption].
    + split; rewrite map_map; [apply map_id|]. cbn. clear. induction (s_in s'); constructor; [reflexivity|assumption].
    + apply Permutation_map. rewrite EI. exact PI.
    + apply pairs_combine. exact Lu.
    + apply pairs_combine. exact Lu'.
    + rewrite EO. exact PO.
Qed.
End Par.
