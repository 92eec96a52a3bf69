(** Proofs about data actions. *)
From Coq Require Import ZArith QArith Bool List Lia Arith Sorted.
From Verif Require Import M_Time M_Wave M_WaveCache M_MapTime S_Wave P_Wave P_MapTime M_Action S_Action.
Import ListNotations.
Open Scope nat_scope.

Lemma get_map n f i : i < n -> get (map f (seq 0 n)) i = f i.
Proof. intros H. unfold get. rewrite (nth_indep _ 0%Q (f 0)) by (rewrite map_length, seq_length; exact H). rewrite map_nth, seq_nth by exact H. reflexivity. Qed.
Lemma addAt_length i x l : length (addAt i x l) = length l.
Proof. unfold addAt. rewrite map_length, seq_length. reflexivity. Qed.
Lemma addAt_get i x l k : k < length l -> get (addAt i x l) k = if k =? i then (get l k + x)%Q else get l k.
Proof. intros H. unfold addAt. rewrite get_map by exact H. reflexivity. Qed.
Lemma get_repeat n k : get (repeat 0%Q n) k = 0%Q.
Proof. unfold get. revert k. induction n as [|n IH]; intros [|k]; cbn; auto. Qed.

(** * Areas *)
Definition addShares (l : values) (e : list nat * Q) : values := fold_left (fun l i => addAt i (share e) l) (fst e) l.
Lemma addShares_length e l : length (addShares l e) = length l.
Proof.
  unfold addShares. generalize (share e). intros x. generalize (fst e). intros c. revert l. induction c as [|a r IH]; intros l; cbn [fold_left]; [reflexivity|].
  rewrite IH. apply addAt_length.
Qed.
Lemma addShares_get e l k : k < length l -> (get (addShares l e) k == get l k + times_in k (fst e) * share e)%Q.
Proof.
  unfold addShares, times_in. generalize (share e). intros x. generalize (fst e). intros c. revert l. induction c as [|a r IH]; intros l H; cbn [fold_left count_occ].
  - change (inject_Z (Z.of_nat 0)) with 0%Q. ring.
  - rewrite IH by (rewrite addAt_length; exact H). rewrite addAt_get by exact H. destruct (Nat.eq_dec a k) as [E|E].
    + rewrite E, Nat.eqb_refl, Nat2Z.inj_succ. unfold Z.succ. rewrite inject_Z_plus. change (inject_Z 1) with 1%Q. ring.
    + rewrite (proj2 (Nat.eqb_neq k a)) by congruence. reflexivity.
Qed.
Lemma fold_shares_length es : forall l, length (fold_left addShares es l) = length l.
Proof. induction es as [|e r IH]; intros l; cbn [fold_left]; [reflexivity|]. rewrite IH. apply addShares_length. Qed.
Lemma fold_shares_get es : forall l k, k < length l ->
  (get (fold_left addShares es l) k == get l k + total_list (map (fun e => times_in k (fst e) * share e)%Q es))%Q.
Proof.
  induction es as [|e r IH]; intros l k H; cbn [fold_left map total_list fold_right]; [ring|].
  rewrite IH by (rewrite addShares_length; exact H). rewrite addShares_get by exact H. unfold total_list. ring.
Qed.
Lemma areas_elements m l : areas m = Ok l -> l = fold_left addShares (elements m) (repeat 0%Q (am_n m)).
Proof.
  unfold areas, elements. destruct (am_dim m =? 2).
  - destruct (am_edges m) as [|e es] eqn:E; [discriminate|]. rewrite <- E. clear e es E. intros H. injection H as <-. generalize (repeat 0%Q (am_n m)).
    induction (am_edges m) as [|[[a b] x] r IH]; intros l; cbn [map fold_left]; [reflexivity|]. rewrite IH. reflexivity.
  - destruct (am_triangles m) as [|e es] eqn:E; [discriminate|]. rewrite <- E. clear e es E. intros H. injection H as <-. generalize (repeat 0%Q (am_n m)).
    induction (am_triangles m) as [|[[[a b] c] x] r IH]; intros l; cbn [map fold_left]; [reflexivity|]. rewrite IH. reflexivity.
Qed.
Lemma areas_ok m l : areas m = Ok l -> length l = am_n m /\ forall i, i < am_n m -> (get l i == vertex_area m i)%Q.
Proof.
  intros H. rewrite (areas_elements m l H). split; [rewrite fold_shares_length, repeat_length; reflexivity|].
  intros i Hi. rewrite fold_shares_get by (rewrite repeat_length; exact Hi). rewrite get_repeat. unfold vertex_area. ring.
Qed.

(** * Scaling one sample *)
Lemma index_div dims i c : c < dims -> (i * dims + c) / dims = i.
Proof. intros H. rewrite Nat.add_comm, Nat.div_add by lia. rewrite Nat.div_small by exact H. lia. Qed.
Lemma index_bound n dims i c : i < n -> c < dims -> i * dims + c < n * dims.
Proof. intros H1 H2. nia. Qed.
Definition scaled (divide : bool) := if divide then divided else multiplied.
Lemma scaleValues_ok divide dims m v v' : scaleValues divide dims m v = Ok v' -> scaled divide dims m v v'.
Proof.
  unfold scaleValues. destruct (length v =? am_n m * dims) eqn:L; [|discriminate]. apply Nat.eqb_eq in L. destruct (areas m) as [l| |] eqn:A; try discriminate. cbn [bindR].
  destruct (areas_ok m l A) as [Ll Hl]. destruct (divide && (0 <? dims) && existsb (fun a => Qeq_bool a 0) l) eqn:Z; [discriminate|]. intros H. injection H as <-.
  assert (G : forall i c, i < am_n m -> c < dims -> i * dims + c < am_n m * dims) by (intros; apply index_bound; assumption).
  destruct divide; cbn [scaled]; (split; [exact L|split; [rewrite map_length, seq_length; reflexivity|]]); intros i c Hi Hc; unfold component.
  - assert (N : ~ (vertex_area m i == 0)%Q).
    { intros E. apply andb_false_iff in Z. destruct Z as [Z|Z]; [cbn [andb] in Z; apply Nat.ltb_ge in Z; lia|]. rewrite <- Hl in E by exact Hi.
      assert (X : existsb (fun a => Qeq_bool a 0) l = true); [|rewrite X in Z; discriminate]. apply existsb_exists. exists (get l i). split; [apply nth_In; lia|apply Qeq_bool_iff; exact E]. }
    split; [exact N|]. rewrite get_map by (apply G; assumption). rewrite index_div by exact Hc. rewrite Hl by exact Hi. reflexivity.
  - rewrite get_map by (apply G; assumption). rewrite index_div by exact Hc. rewrite Hl by exact Hi. reflexivity.
Qed.
Lemma scaleValues_succeeds divide dims m v : length v = am_n m * dims -> elements m <> [] ->
  (divide = true -> forall i, i < am_n m -> ~ (vertex_area m i == 0)%Q) -> exists v', scaleValues divide dims m v = Ok v'.
Proof.
  intros L N D. unfold scaleValues. rewrite L, Nat.eqb_refl.
  assert (A : exists l, areas m = Ok l).
  { unfold areas, elements in *. destruct (am_dim m =? 2); [destruct (am_edges m)|destruct (am_triangles m)]; try (exfalso; apply N; reflexivity); eexists; reflexivity. }
  destruct A as [l A]. rewrite A. cbn [bindR]. destruct (divide && (0 <? dims) && existsb (fun a => Qeq_bool a 0) l) eqn:Z; [|eexists; reflexivity].
  exfalso. apply andb_prop in Z as [Z1 Z2]. apply andb_prop in Z1 as [Z1 _]. apply existsb_exists in Z2 as [a [Z3 Z4]]. destruct (areas_ok m l A) as [Ll Hl].
  destruct (In_nth l a 0%Q Z3) as [i [Hi Ei]]. rewrite Ll in Hi. apply (D Z1 i Hi). rewrite <- Hl by exact Hi. unfold get. rewrite Ei. apply Qeq_bool_iff, Z4.
Qed.

(** * Integrals *)
Lemma total_ext n f g : (forall i, i < n -> (f i == g i)%Q) -> (total n f == total n g)%Q.
Proof. induction n as [|n IH]; intros H; cbn [total]; [reflexivity|]. rewrite IH by (intros i Hi; apply H; lia). rewrite H by lia. reflexivity. Qed.
Lemma total_plus n f g : (total n (fun i => f i + g i) == total n f + total n g)%Q.
Proof. induction n as [|n IH]; cbn [total]; [ring|]. rewrite IH. ring. Qed.
Lemma total_scale n x f : (total n (fun i => f i * x) == total n f * x)%Q.
Proof. induction n as [|n IH]; cbn [total]; [ring|]. rewrite IH. ring. Qed.
Lemma total_zero n f : (forall i, i < n -> (f i == 0)%Q) -> (total n f == 0)%Q.
Proof. induction n as [|n IH]; intros H; cbn [total]; [reflexivity|]. rewrite IH by (intros i Hi; apply H; lia). rewrite H by lia. ring. Qed.
Lemma total_pick n f j : j < n -> (total n (fun i => if Nat.eq_dec j i then f i else 0) == f j)%Q.
Proof.
  induction n as [|n IH]; intros H; [lia|]. cbn [total]. destruct (Nat.eq_dec j n) as [->|N].
  - rewrite total_zero; [ring|]. intros i Hi. destruct (Nat.eq_dec n i); [lia|reflexivity].
  - rewrite IH by lia. ring.
Qed.
Lemma total_times n f l : (forall i, In i l -> i < n) -> (total n (fun i => f i * times_in i l) == total_list (map f l))%Q.
Proof.
  induction l as [|a r IH]; intros H; cbn [map total_list fold_right].
  - apply total_zero. intros i _. unfold times_in. cbn. ring.
  - rewrite (total_ext _ _ (fun i => (if Nat.eq_dec a i then f i else 0) + f i * times_in i r)%Q).
    + rewrite total_plus, total_pick by (apply H; left; reflexivity). rewrite IH by (intros i Hi; apply H; right; exact Hi). reflexivity.
    + intros i _. unfold times_in. cbn [count_occ]. destruct (Nat.eq_dec a i); [|ring]. rewrite Nat2Z.inj_succ. unfold Z.succ. rewrite inject_Z_plus. change (inject_Z 1) with 1%Q. ring.
Qed.
Lemma integral_ok m f : corners_ok m -> (total (am_n m) (fun i => f i * vertex_area m i) == integral m f)%Q.
Proof.
  unfold corners_ok, vertex_area, integral. induction (elements m) as [|e r IH]; intros H; cbn [map total_list fold_right].
  - apply total_zero. intros i _. ring.
  - rewrite (total_ext _ _ (fun i => f i * times_in i (fst e) * share e + f i * total_list (map (fun e0 => times_in i (fst e0) * share e0) r))%Q).
    + rewrite total_plus, total_scale. rewrite IH by (intros e' He'; apply H; right; exact He'). rewrite total_times by (apply H; left; reflexivity). unfold total_list, share, Qdiv. ring.
    + intros i _. unfold total_list. ring.
Qed.

(** * Loops over samples *)
Section Loops.
Variable eps : Z.
Hypothesis E0 : (0 <= eps)%Z.
Notation store := (store values).

Lemma ord_not_in (a b : wave values) t v q : Ord eps (a ++ (t, v) :: b) -> In q a \/ In q b -> (fst q =? t)%Z = false.
Proof.
  intros O H. apply Z.eqb_neq. revert O. induction a as [|p r IH]; intros O.
  - cbn [app] in O. destruct H as [[]|H]. pose proof (ord_after eps _ _ O _ H). cbn in *. lia.
  - cbn [app] in O. destruct H as [[->|H]|H].
    + pose proof (ord_after eps _ _ O (t, v) ltac:(apply in_or_app; right; left; reflexivity)). cbn in *. lia.
    + apply IH; [left; exact H|]. inversion O; assumption.
    + apply IH; [right; exact H|]. inversion O; assumption.
Qed.
Lemma set_middle (a b : wave values) t v v' : Ord eps (a ++ (t, v) :: b) -> w_set eps (a ++ (t, v) :: b) t v' = Some (a ++ (t, v') :: b).
Proof.
  intros O. rewrite (set_exact eps E0 _ t v v' O) by (apply in_or_app; right; left; reflexivity). f_equal. rewrite map_app. cbn [map fst]. rewrite Z.eqb_refl. f_equal; [|f_equal].
  - rewrite <- map_id. apply map_ext_in. intros q Hq. rewrite (ord_not_in a b t v q O) by (left; exact Hq). reflexivity.
  - rewrite <- map_id. apply map_ext_in. intros q Hq. rewrite (ord_not_in a b t v q O) by (right; exact Hq). reflexivity.
Qed.
Lemma ord_middle (a b : wave values) t v v' : Ord eps (a ++ (t, v) :: b) -> Ord eps (a ++ (t, v') :: b).
Proof. apply ord_times. rewrite !map_app. reflexivity. Qed.
Lemma nth_middle (a b : wave values) p : nth_error (a ++ p :: b) (length a) = Some p.
Proof. rewrite nth_error_app2 by lia. rewrite Nat.sub_diag. reflexivity. Qed.
Lemma app_assoc1 (a b : wave values) p : a ++ p :: b = (a ++ [p]) ++ b.
Proof. rewrite <- app_assoc. reflexivity. Qed.

Lemma scaleLoop_ok divide dims m : forall b a w', Ord eps (a ++ b) -> scaleLoop eps divide dims m (length b) (length a) (a ++ b) = Ok w' ->
  exists b', w' = a ++ b' /\ every_sample (scaled divide dims m) b b'.
Proof.
  induction b as [|(t, v) b IH]; intros a w' O H.
  - cbn in H. injection H as <-. exists []. split; [reflexivity|constructor].
  - cbn [length scaleLoop] in H. rewrite nth_middle in H. destruct (scaleValues divide dims m v) as [v'| |] eqn:E; try discriminate. cbn [bindR] in H.
    rewrite set_middle in H by exact O. rewrite app_assoc1 in H. replace (S (length a)) with (length (a ++ [(t, v')])) in H by (rewrite app_length; cbn; lia).
    assert (O' : Ord eps ((a ++ [(t, v')]) ++ b)) by (rewrite <- app_assoc1; exact (ord_middle a b t v v' O)).
    destruct (IH _ _ O' H) as [b' [-> B]]. exists ((t, v') :: b'). split; [rewrite <- app_assoc; reflexivity|].
    constructor; [split; [reflexivity|]|exact B]. apply scaleValues_ok, E.
Qed.
Lemma scaleLoop_succeeds divide dims m : elements m <> [] -> (divide = true -> forall i, i < am_n m -> ~ (vertex_area m i == 0)%Q) ->
  forall b a, Ord eps (a ++ b) -> (forall p, In p b -> length (snd p) = am_n m * dims) -> exists w', scaleLoop eps divide dims m (length b) (length a) (a ++ b) = Ok w'.
Proof.
  intros N D. induction b as [|(t, v) b IH]; intros a O L; [eexists; reflexivity|]. cbn [length scaleLoop]. rewrite nth_middle.
  destruct (scaleValues_succeeds divide dims m v (L _ (or_introl eq_refl)) N D) as [v' E]. rewrite E. cbn [bindR]. rewrite set_middle by exact O. rewrite app_assoc1.
  replace (S (length a)) with (length (a ++ [(t, v')])) by (rewrite app_length; cbn; lia). apply IH; [rewrite <- app_assoc1; exact (ord_middle a b t v v' O)|].
  intros p Hp. apply L. right. exact Hp.
Qed.

(** * Sums *)
Definition at_ (k : nat) (i : nat) (w : wave values) : Q := match nth_error w k with Some (_, x) => get x i | None => 0%Q end.
Lemma addValues_ok a b c : addValues a b = Ok c -> length c = length a /\ length b = length a /\ forall i, i < length a -> (get c i == get a i + get b i)%Q.
Proof.
  unfold addValues. destruct (length a =? length b) eqn:L; [|discriminate]. apply Nat.eqb_eq in L. intros H. injection H as <-. split; [rewrite map_length, seq_length; reflexivity|]. split; [lia|].
  intros i Hi. rewrite get_map by exact Hi. reflexivity.
Qed.
Lemma sumSources_ok k t (s : store) : forall sources acc v, sumSources eps sources k t s acc = Ok v ->
  length v = length acc /\ (forall d, In d sources -> exists u x, nth_error (s d) k = Some (u, x) /\ (Z.abs (u - t) <= eps)%Z /\ length x = length acc) /\
  forall i, i < length acc -> (get v i == get acc i + total_list (map (at_ k i) (map s sources)))%Q.
Proof.
  induction sources as [|d r IH]; intros acc v H; cbn [sumSources] in H.
  - injection H as <-. split; [reflexivity|split; [intros d []|]]. intros i _. cbn. ring.
  - destruct (nth_error (s d) k) as [[u x]|] eqn:E; [|discriminate]. destruct (equals eps u t) eqn:Q; [|discriminate]. destruct (addValues acc x) as [c| |] eqn:A; try discriminate. cbn [bindR] in H.
    destruct (addValues_ok _ _ _ A) as [A1 [A2 A3]]. destruct (IH _ _ H) as [I1 [I2 I3]]. split; [lia|]. split.
    + intros e [<-|He]; [exists u, x; split; [exact E|split; [|exact A2]]|]. { apply Z.leb_le in Q. exact Q. }
      destruct (I2 e He) as [u' [x' [J1 [J2 J3]]]]. exists u', x'. rewrite J3, A1. auto.
    + intros i Hi. rewrite I3 by lia. rewrite A3 by exact Hi. cbn [map total_list fold_right]. unfold at_ at 2. rewrite E. unfold total_list. ring.
Qed.
Lemma sumSources_succeeds k t (s : store) : forall sources acc, (forall d, In d sources -> exists u x, nth_error (s d) k = Some (u, x) /\ (Z.abs (u - t) <= eps)%Z /\ length x = length acc) ->
  exists v, sumSources eps sources k t s acc = Ok v.
Proof.
  induction sources as [|d r IH]; intros acc H; cbn [sumSources]; [eexists; reflexivity|]. destruct (H d (or_introl eq_refl)) as [u [x [H1 [H2 H3]]]]. rewrite H1.
  unfold equals. rewrite (proj2 (Z.leb_le _ _) H2). unfold addValues. rewrite H3, Nat.eqb_refl. cbn [bindR]. apply IH. intros e He. rewrite map_length, seq_length. apply H. right. exact He.
Qed.
Lemma sumSources_ext k t (s s' : store) sources : (forall d, In d sources -> s' d = s d) -> forall acc, sumSources eps sources k t s' acc = sumSources eps sources k t s acc.
Proof.
  induction sources as [|d r IH]; intros H acc; cbn [sumSources]; [reflexivity|]. rewrite (H d (or_introl eq_refl)). destruct (nth_error (s d) k) as [[u x]|]; [|reflexivity].
  destruct (equals eps u t); [|reflexivity]. destruct (addValues acc x); cbn [bindR]; [|reflexivity|reflexivity]. apply IH. intros e He. apply H. right. exact He.
Qed.
Lemma sumSources_adds_up k t (s : store) sources size v : sumSources eps sources k t s (repeat 0%Q size) = Ok v -> adds_up (map s sources) k size v.
Proof.
  intros H. destruct (sumSources_ok _ _ _ _ _ _ H) as [H1 [H2 H3]]. rewrite repeat_length in *. split; [exact H1|split].
  - intros w Hw. apply in_map_iff in Hw as [d [<- Hd]]. destruct (H2 d Hd) as [u [x [J1 [_ J3]]]]. exists u, x. auto.
  - intros i Hi. rewrite H3 by exact Hi. rewrite get_repeat, Qplus_0_l. reflexivity.
Qed.

Lemma summationLoop_ok d r target size (s0 : store) : ~ In target (d :: r) ->
  forall b a (s : store) new, s0 d = a ++ b -> (forall e, e <> target -> s e = s0 e) -> Ord eps (s0 d) -> Ord eps (s target) -> fits eps b (s target) new ->
  (forall k p, nth_error b k = Some p -> forall e, In e (d :: r) -> exists u x, nth_error (s0 e) (length a + k) = Some (u, x) /\ (Z.abs (u - fst p) <= eps)%Z /\ length x = size) ->
  exists s', summationLoop eps (d :: r) target size (length b) (length a) s = Ok s' /\ (forall e, e <> target -> s' e = s0 e) /\ Ord eps (s' target) /\
    map fst (s' target) = map fst (s target) ++ new /\
    (forall k p, nth_error b k = Some p -> exists v, In (fst p, v) (s' target) /\ adds_up (map s0 (d :: r)) (length a + k) size v) /\
    (forall q, In q (s target) -> ~ In (fst q) (map fst b) -> In q (s' target)).
Proof.
  intros NT. induction b as [|(t, x) b IH]; intros a s new Hd Hs O0 Ot [old [F1 [F2 F3]]] HS.
  - exists s. split; [reflexivity|]. split; [exact Hs|]. split; [exact Ot|]. cbn in F1. symmetry in F1. apply app_eq_nil in F1 as [-> ->]. rewrite app_nil_r. split; [reflexivity|].
    split; [intros [|k] p H; discriminate|]. intros q H _. exact H.
  - assert (Sd : forall e, In e (d :: r) -> s e = s0 e) by (intros e He; apply Hs; intros ->; exact (NT He)).
    cbn [length summationLoop hd]. rewrite (Sd d (or_introl eq_refl)), Hd, nth_middle.
    rewrite (sumSources_ext _ _ s0 s) by exact Sd.
    destruct (sumSources_succeeds (length a) t s0 (d :: r) (repeat 0%Q size)) as [v E].
    { intros e He. rewrite repeat_length. specialize (HS 0 (t, x) eq_refl e He). rewrite Nat.add_0_r in HS. exact HS. }
    rewrite E. cbn [bindR].
    assert (T : exists w new', w_set eps (s target) t v = Some w /\ Ord eps w /\ In (t, v) w /\ (forall q, In q (s target) -> fst q <> t -> In q w) /\
                 map fst w ++ new' = map fst (s target) ++ new /\ fits eps b w new').
    { assert (Ob : Ord eps ((t, x) :: b)). { rewrite Hd in O0. clear -O0. induction a as [|p a IH]; [exact O0|]. apply IH. inversion O0; assumption. }
      assert (Late : forall u, In u (map fst b) -> (t + eps < u)%Z).
      { intros u Hu. apply in_map_iff in Hu as [q [<- Hq]]. exact (ord_after eps _ _ Ob _ Hq). }
      destruct old as [|t' old]; cbn [map app fst] in F1.
      - destruct new as [|t' new]; [discriminate|]. cbn [app] in F1. injection F1 as <- F1. exists (s target ++ [(t, v)]), new.
        assert (B : forall u, In u (map fst (s target)) -> (u + eps < t)%Z) by (intros u Hu; apply F3; [left; reflexivity|exact Hu]).
        split; [apply set_append; assumption|]. split; [apply (ord_set eps E0 (s target) t v _ Ot); apply set_append; assumption|].
        split; [apply in_or_app; right; left; reflexivity|]. split; [intros q Hq _; apply in_or_app; left; exact Hq|]. split; [rewrite map_app; cbn; rewrite <- app_assoc; reflexivity|].
        exists []. split; [exact F1|]. split; [intros u []|]. intros u z Hu Hz. rewrite map_app in Hz. apply in_app_or in Hz as [Hz|[<-|[]]]; [apply F3; [right; exact Hu|exact Hz]|].
        apply Late. rewrite F1. exact Hu.
      - injection F1 as <- F1. assert (It : In t (map fst (s target))) by (apply F2; left; reflexivity). apply in_map_iff in It as [[t0 y] [Et Hy]]. cbn in Et. subst t0.
        exists (map (fun p => if (fst p =? t)%Z then (t, v) else p) (s target)), new.
        assert (W := set_exact eps E0 (s target) t y v Ot Hy).
        assert (M : map fst (map (fun p => if (fst p =? t)%Z then (t, v) else p) (s target)) = map fst (s target)).
        { rewrite map_map. apply map_ext. intros [u z]. cbn. destruct (Z.eqb_spec u t); [subst; reflexivity|reflexivity]. }
        split; [exact W|]. split; [exact (ord_set eps E0 _ _ _ _ Ot W)|]. split; [apply in_map_iff; exists (t, y); split; [cbn; rewrite Z.eqb_refl; reflexivity|exact Hy]|].
        split; [intros q Hq Nq; apply in_map_iff; exists q; split; [rewrite (proj2 (Z.eqb_neq _ _) Nq); reflexivity|exact Hq]|].
        split; [rewrite M; reflexivity|]. exists old. rewrite M. split; [exact F1|]. split; [intros u Hu; apply F2; right; exact Hu|exact F3]. }
    destruct T as [w [new' [W1 [W2 [W3 [W4 [W5 W6]]]]]]]. rewrite W1.
    replace (S (length a)) with (length (a ++ [(t, x)])) by (rewrite app_length; cbn; lia).
    destruct (IH (a ++ [(t, x)]) (upd s target w) new') as [s' [I1 [I2 [I3 [I4 [I5 I6]]]]]].
    + rewrite <- app_assoc. exact Hd.
    + intros e He. rewrite upd_other by exact He. apply Hs, He.
    + exact O0.
    + rewrite upd_same. exact W2.
    + rewrite upd_same. exact W6.
    + intros k p Hk e He. destruct (HS (S k) p Hk e He) as [u [z HH]]. exists u, z. rewrite app_length. cbn [length]. replace (length a + 1 + k) with (length a + S k) by lia. exact HH.
    + exists s'. split; [exact I1|]. split; [exact I2|]. split; [exact I3|]. rewrite upd_same in I4, I6. split; [rewrite I4; exact W5|]. split.
      * intros [|k] p Hk.
        -- cbn in Hk. injection Hk as <-. exists v. split; [|rewrite Nat.add_0_r; exact (sumSources_adds_up _ _ _ _ _ _ E)]. apply I6; [exact W3|].
           cbn [fst]. intros Hin. apply in_map_iff in Hin as [q [Eq Hq]]. rewrite Hd in O0. pose proof (ord_not_in a b t x q O0 (or_intror Hq)) as Z. rewrite Eq, Z.eqb_refl in Z. discriminate.
        -- destruct (I5 k p Hk) as [v' [V1 V2]]. exists v'. split; [exact V1|]. rewrite app_length in V2. cbn [length] in V2. replace (length a + S k) with (length a + 1 + k) by lia. exact V2.
      * intros q Hq Nq. cbn [map] in Nq. apply I6; [apply W4; [exact Hq|]|]; intros H; apply Nq; [left; symmetry; exact H|right; exact H].
Qed.
(** what a successful summation says about its sources *)
Lemma summationLoop_checks d r target size (s0 : store) : ~ In target (d :: r) ->
  forall n k s s', (forall e, e <> target -> s e = s0 e) -> summationLoop eps (d :: r) target size n k s = Ok s' ->
  forall j, k <= j < k + n -> forall e, In e (d :: r) -> exists t v u x, nth_error (s0 d) j = Some (t, v) /\ nth_error (s0 e) j = Some (u, x) /\ (Z.abs (u - t) <= eps)%Z.
Proof.
  intros NT. induction n as [|n IH]; intros k s s' Hs H j Hj e He; [lia|]. cbn [summationLoop hd] in H.
  assert (Sd : forall e, In e (d :: r) -> s e = s0 e) by (intros e' He'; apply Hs; intros ->; exact (NT He')).
  rewrite (Sd d (or_introl eq_refl)) in H. destruct (nth_error (s0 d) k) as [[t v]|] eqn:E; [|discriminate].
  rewrite (sumSources_ext _ _ s0 s) in H by exact Sd. destruct (sumSources eps (d :: r) k t s0 (repeat 0%Q size)) as [y| |] eqn:SS; try discriminate. cbn [bindR] in H.
  destruct (w_set eps (s target) t y) as [w|]; [|discriminate]. destruct (Nat.eq_dec j k) as [->|Nk].
  - destruct (sumSources_ok _ _ _ _ _ _ SS) as [_ [S2 _]]. destruct (S2 e He) as [u [x [J1 [J2 _]]]]. exists t, v, u, x. auto.
  - apply (IH (S k) (upd s target w) s'); [|exact H|lia|exact He]. intros e' He'. rewrite upd_other by exact He'. apply Hs, He'.
Qed.
End Loops.
