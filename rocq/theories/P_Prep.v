From Coq Require Import ZArith QArith Bool List Arith Lia Permutation Sorted.
From Verif Require Import M_Mesh M_Prep S_Mesh S_Prep P_SerMesh.
Import ListNotations.
Open Scope nat_scope.

(** ** sorting *)
Lemma insertBy_perm {A} lt (x : A) l : Permutation (insertBy lt x l) (x :: l).
Proof. induction l as [|y r IH]; cbn; [reflexivity|]. destruct (lt y x); [|reflexivity]. rewrite IH. apply perm_swap. Qed.
Lemma sortBy_perm {A} lt (l : list A) : Permutation (sortBy lt l) l.
Proof. induction l as [|x r IH]; cbn; [reflexivity|]. rewrite insertBy_perm. auto. Qed.
Lemma insertBy_sorted {A} (lt : A -> A -> bool) x l :
  (forall a b c, lt b a = false -> lt c b = false -> lt c a = false) ->
  (forall a b, lt a b = true -> lt b a = false) ->
  StronglySorted (fun a b => lt b a = false) l -> StronglySorted (fun a b => lt b a = false) (insertBy lt x l).
Proof.
  intros T As H. induction H as [|y r Hr IH Hy]; cbn; [repeat constructor|].
  destruct (lt y x) eqn:E.
  - constructor; [exact IH|]. apply Forall_forall. intros z Hz.
    apply (Permutation_in _ (insertBy_perm lt x r)) in Hz. destruct Hz as [<-|Hz]; [auto|].
    rewrite Forall_forall in Hy. auto.
  - constructor; [constructor; auto|]. constructor; [exact E|].
    eapply Forall_impl; [|exact Hy]. cbn. intros z Hz. eapply T; eauto.
Qed.
Lemma sortBy_sorted {A} (lt : A -> A -> bool) l :
  (forall a b c, lt b a = false -> lt c b = false -> lt c a = false) ->
  (forall a b, lt a b = true -> lt b a = false) ->
  StronglySorted (fun a b => lt b a = false) (sortBy lt l).
Proof. intros T As. induction l as [|x r IH]; cbn; [constructor|]. apply insertBy_sorted; auto. Qed.
(** a sorted list is determined by its elements *)
Lemma sorted_perm_eq {A} (R : A -> A -> Prop) : (forall a b, R a b -> R b a -> a = b) ->
  forall l l', StronglySorted R l -> StronglySorted R l' -> Permutation l l' -> l = l'.
Proof.
  intros As l. induction l as [|x r IH]; intros l' S S' P; [apply Permutation_nil in P; congruence|].
  destruct l' as [|y r']; [symmetry in P; apply Permutation_nil in P; discriminate|].
  assert (x = y).
  { inversion S as [|? ? Sr Fr]; subst. inversion S' as [|? ? Sr' Fr']; subst. rewrite Forall_forall in *.
    assert (Hx : In x (y :: r')) by (apply (Permutation_in _ P); left; reflexivity).
    assert (Hy : In y (x :: r)) by (apply (Permutation_in _ (Permutation_sym P)); left; reflexivity).
    destruct Hx as [->|Hx]; [reflexivity|]. destruct Hy as [->|Hy]; [reflexivity|]. apply As; auto. }
  subst y. f_equal. inversion S; subst. inversion S'; subst. apply IH; auto. eapply Permutation_cons_inv; exact P.
Qed.

(** ** unique *)
Section U.
Context {A : Type} (eqb lt : A -> A -> bool).
Let le a b := lt b a = false.
Hypothesis anti : forall a b, le a b -> le b a -> a = b.
Lemma uniqueFrom_ok : forall l x, Forall (le x) l -> StronglySorted le l ->
  (forall a b, In a (x :: l) -> In b (x :: l) -> (eqb a b = true <-> a = b)) ->
  NoDup (uniqueFrom eqb x l) /\ forall z, In z (uniqueFrom eqb x l) <-> z = x \/ In z l.
Proof.
  induction l as [|y r IH]; intros x Fx S He; cbn.
  - split; [repeat constructor; auto|]. intros z. intuition congruence.
  - inversion S as [|? ? Sr Fr]; subst. inversion Fx as [|? ? Hxy Fxr]; subst.
    destruct (eqb x y) eqn:E.
    + apply He in E; [subst y|left; reflexivity|right; left; reflexivity].
      destruct (IH x Fr Sr) as [N I]; [intros a b Ha Hb; apply He; cbn in *; tauto|]. split; [exact N|].
      intros z. rewrite I. cbn. intuition congruence.
    + destruct (IH y Fr Sr) as [N I]; [intros a b Ha Hb; apply He; cbn in *; tauto|]. split.
      * constructor; [|exact N]. rewrite I. intros [->|H].
        -- assert (eqb y y = true) by (apply He; cbn; auto). congruence.
        -- rewrite Forall_forall in Fr. assert (x = y) by (apply anti; auto). subst y.
           assert (eqb x x = true) by (apply He; cbn; auto). congruence.
      * intros z. cbn. rewrite I. cbn. intuition congruence.
Qed.
Lemma unique_ok l : StronglySorted le l -> (forall a b, In a l -> In b l -> (eqb a b = true <-> a = b)) ->
  NoDup (unique eqb l) /\ forall z, In z (unique eqb l) <-> In z l.
Proof.
  destruct l as [|x r]; intros S He; cbn; [split; [constructor|tauto]|].
  inversion S; subst. destruct (uniqueFrom_ok r x) as [N I]; auto. split; auto. intros z. rewrite I. intuition congruence.
Qed.
End U.

(** ** lexicographic order *)
Lemma lexlt_asym a : forall b, lexlt a b = true -> lexlt b a = false.
Proof.
  induction a as [|x a IH]; intros [|y b]; cbn [lexlt]; auto; try discriminate.
  destruct (Nat.ltb_spec x y), (Nat.eqb_spec x y), (Nat.ltb_spec y x), (Nat.eqb_spec y x); cbn [orb andb]; try lia; try discriminate; auto.
Qed.
Lemma lexlt_trans a : forall b c, lexlt b a = false -> lexlt c b = false -> lexlt c a = false.
Proof.
  induction a as [|x a IH]; intros [|y b] [|z c]; cbn [lexlt]; auto; try discriminate.
  destruct (Nat.ltb_spec y x), (Nat.eqb_spec y x), (Nat.ltb_spec z y), (Nat.eqb_spec z y), (Nat.ltb_spec z x), (Nat.eqb_spec z x);
    cbn [orb andb]; try lia; try discriminate; auto. apply IH.
Qed.
Lemma lexlt_anti a : forall b, lexlt b a = false -> lexlt a b = false -> a = b.
Proof.
  induction a as [|x a IH]; intros [|y b]; cbn [lexlt]; auto; try discriminate.
  destruct (Nat.ltb_spec y x), (Nat.eqb_spec y x), (Nat.ltb_spec x y), (Nat.eqb_spec x y); cbn [orb andb]; try lia; try discriminate.
  intros H1 H2. f_equal; [lia|auto].
Qed.

(** ** is_permutation *)
Lemma countIf_ext {A} (p q : A -> bool) l : (forall x, In x l -> p x = q x) -> countIf p l = countIf q l.
Proof. intros H. unfold countIf. f_equal. apply filter_ext_in. exact H. Qed.
Lemma scan_ok p b : forall rest seen, (forall x y, In x (seen ++ rest ++ b) -> In y (seen ++ rest ++ b) -> p x y = (x =? y)) ->
  scanPermutation p seen rest b = true ->
  forall x, In x rest -> ~ In x seen ->
  countIf (fun y => y =? x) rest = countIf (fun y => y =? x) b /\ countIf (fun y => y =? x) b <> 0.
Proof.
  induction rest as [|z r IH]; intros seen Hp H x Hx Nx; [contradiction|].
  cbn [scanPermutation] in H.
  assert (Ein : existsb (fun y => p y z) seen = true <-> In z seen).
  { rewrite existsb_exists. split.
    - intros (y & Hy & E). rewrite Hp in E by (rewrite ?in_app_iff; cbn; auto). apply Nat.eqb_eq in E. congruence.
    - intros Hz. exists z. split; [auto|]. rewrite Hp by (rewrite ?in_app_iff; cbn; auto). apply Nat.eqb_refl. }
  assert (Rec : scanPermutation p (seen ++ [z]) r b = true -> x <> z -> 
    countIf (fun y => y =? x) (z :: r) = countIf (fun y => y =? x) b /\ countIf (fun y => y =? x) b <> 0).
  { intros H' N. destruct Hx as [->|Hx]; [congruence|].
    replace (countIf (fun y => y =? x) (z :: r)) with (countIf (fun y => y =? x) r).
    - apply (IH (seen ++ [z])); auto.
      + intros u v Hu Hv. apply Hp; rewrite !in_app_iff in *; cbn in *; tauto.
      + rewrite in_app_iff. cbn. intros [?|[?|[]]]; congruence.
    - unfold countIf. cbn. destruct (Nat.eqb_spec z x); [congruence|reflexivity]. }
  destruct (Nat.eq_dec x z) as [->|N].
  - destruct (existsb _ seen) eqn:E; [apply proj1 in Ein; specialize (Ein eq_refl); contradiction|].
    assert (E1 : countIf (fun y => p y z) b = countIf (fun y => y =? z) b).
    { apply countIf_ext. intros y Hy. apply Hp; rewrite !in_app_iff; cbn; auto. }
    assert (E2 : countIf (fun y => p y z) (z :: r) = countIf (fun y => y =? z) (z :: r)).
    { apply countIf_ext. intros y Hy. apply Hp; rewrite !in_app_iff; cbn; cbn in Hy; tauto. }
    rewrite E1, E2 in H. destruct (Nat.eqb_spec (countIf (fun y => y =? z) b) 0); [discriminate|].
    destruct (Nat.eqb_spec (countIf (fun y => y =? z) (z :: r)) (countIf (fun y => y =? z) b)); [auto|discriminate].
  - destruct (existsb _ seen); [apply Rec; auto|].
    destruct (_ || _); [discriminate|]. apply Rec; auto.
Qed.
Lemma countIf_app {A} (p : A -> bool) l l' : countIf p (l ++ l') = countIf p l + countIf p l'.
Proof. unfold countIf. rewrite filter_app, app_length. reflexivity. Qed.
Lemma counts_perm : forall a b : list nat, length a = length b ->
  (forall x, In x a -> countIf (fun y => y =? x) a = countIf (fun y => y =? x) b) -> Permutation a b.
Proof.
  induction a as [|x a IH]; intros b L H; [destruct b; [constructor|discriminate]|].
  assert (Hx : In x b).
  { pose proof (H x (or_introl eq_refl)) as E. unfold countIf in E. cbn in E. rewrite Nat.eqb_refl in E. cbn in E.
    destruct (filter (fun y => y =? x) b) as [|y l] eqn:F; [discriminate|].
    assert (In y (y :: l)) as I by (left; reflexivity). rewrite <- F in I. apply filter_In in I. destruct I as [I E'].
    apply Nat.eqb_eq in E'. congruence. }
  apply in_split in Hx. destruct Hx as (b1 & b2 & ->). rewrite app_length in L. cbn in L.
  apply Permutation_cons_app. apply IH; [rewrite app_length; lia|].
  intros y Hy. pose proof (H y (or_intror Hy)) as E. rewrite countIf_app in *. unfold countIf in *. cbn in E.
  destruct (x =? y); cbn in *; lia.
Qed.
Lemma isPermutation_ok p : forall a b, length a = length b ->
  (forall x y, In x (a ++ b) -> In y (a ++ b) -> p x y = (x =? y)) ->
  isPermutation p a b = true -> Permutation a b.
Proof.
  induction a as [|x a IH]; intros [|y b] L Hp H; try discriminate; [constructor|].
  cbn [isPermutation] in H. destruct (p x y) eqn:E.
  - rewrite Hp in E by (rewrite in_app_iff; cbn; auto). apply Nat.eqb_eq in E. subst y. constructor.
    apply IH; auto. intros u v Hu Hv. apply Hp; rewrite in_app_iff in *; cbn; tauto.
  - apply counts_perm; [exact L|]. intros z Hz. eapply (scan_ok p (y :: b) (x :: a) []); auto.
Qed.
Lemma isPermutation_refl p : forall a, (forall x, In x a -> p x x = true) -> isPermutation p a a = true.
Proof. induction a as [|x a IH]; intros H; cbn; [reflexivity|]. rewrite H by (left; reflexivity). apply IH. intros y Hy. apply H. right. exact Hy. Qed.

(** ** coordinates *)
Lemma sqdist_minus a b : sqdist a b = sum_sq (minus a b).
Proof. unfold sqdist, sum_sq, minus. rewrite map_map. reflexivity. Qed.
Lemma sqdist_refl a : (sqdist a a == 0)%Q.
Proof. induction a as [|x a IH]; [reflexivity|]. unfold sqdist in *. cbn [combine map fold_right fst snd]. rewrite IH. ring. Qed.
Lemma sqnorm_nonneg a : (0 <= sqnorm a)%Q.
Proof.
  induction a as [|x a IH]; cbn; [apply Qle_refl|]. fold (sqnorm a).
  apply Qle_trans with (0 + 0)%Q; [apply Qle_refl|]. apply Qplus_le_compat; [|exact IH].
  destruct (Qlt_le_dec x 0) as [H|H].
  - setoid_replace (x * x)%Q with ((-x) * (-x))%Q by ring.
    assert (0 <= - x)%Q by (apply Qlt_le_weak; apply (Qopp_lt_compat x 0) in H; exact H).
    apply Qmult_le_0_compat; auto.
  - apply Qmult_le_0_compat; auto.
Qed.
Lemma isApprox_refl tol2 a : (0 <= tol2)%Q -> isApprox tol2 a a = true.
Proof.
  intros H. unfold isApprox. apply Qle_bool_iff. rewrite sqdist_refl. apply Qmult_le_0_compat; [exact H|].
  unfold qmin. destruct (Qle_bool _ _); apply sqnorm_nonneg.
Qed.
Lemma qmin_l a b : (qmin a b <= a)%Q.
Proof.
  unfold qmin. destruct (Qle_bool a b) eqn:E; [apply Qle_refl|].
  destruct (Qlt_le_dec b a) as [H|H]; [apply Qlt_le_weak, H|]. apply Qle_bool_iff in H. congruence.
Qed.
Lemma qmin_r a b : (qmin a b <= b)%Q.
Proof. unfold qmin. destruct (Qle_bool a b) eqn:E; [apply Qle_bool_iff, E|apply Qle_refl]. Qed.
Lemma far_approx tol2 a b : (0 <= tol2)%Q -> far tol2 a b -> isApprox tol2 a b = false.
Proof.
  intros H F. unfold isApprox. destruct (Qle_bool _ _) eqn:E; [|reflexivity]. apply Qle_bool_iff in E.
  rewrite sqdist_minus in E. exfalso.
  assert (forall x y, y <= x -> tol2 * y <= tol2 * x)%Q as Mo.
  { intros x y L. rewrite (Qmult_comm tol2 y), (Qmult_comm tol2 x). apply Qmult_le_compat_r; auto. }
  destruct F as [F|F]; apply (Qlt_not_le _ _ F); eapply Qle_trans; try exact E; apply Mo; [apply qmin_l|apply qmin_r].
Qed.
Section W.
Variables (tol2 : Q) (m : mesh).
Hypothesis Ht : (0 <= tol2)%Q.
Hypothesis Hs : separated tol2 m.
Lemma sameVertex_ok i j : i < nVertices m -> j < nVertices m -> sameVertex tol2 m i j = (i =? j).
Proof.
  intros Hi Hj. unfold sameVertex, coordsAt. destruct (Nat.eqb_spec i j) as [->|N].
  - apply isApprox_refl, Ht.
  - destruct (nth_error (m_verts m) i) as [v|] eqn:Ei; [|apply nth_error_None in Ei; unfold nVertices in *; lia].
    destruct (nth_error (m_verts m) j) as [w|] eqn:Ej; [|apply nth_error_None in Ej; unfold nVertices in *; lia].
    apply far_approx; [exact Ht|]. eapply Hs; eauto.
Qed.
Lemma compress_ok {A} (ids : A -> list nat) k l :
  (forall a b, ids a = ids b -> a = b) -> (forall a, In a l -> length (ids a) = k) ->
  (forall a x, In a l -> In x (ids a) -> x < nVertices m) ->
  (forall a, In a l -> StronglySorted le (ids a)) ->
  NoDup (compress tol2 m ids l) /\ forall z, In z (compress tol2 m ids l) <-> In z l.
Proof.
  intros Inj Lk Rg So. unfold compress.
  assert (P := sortBy_perm (fun a b => lexlt (ids a) (ids b)) l).
  destruct (unique_ok (fun a b => sameElement tol2 m (ids a) (ids b)) (fun a b => lexlt (ids a) (ids b))) with
    (l := sortBy (fun a b => lexlt (ids a) (ids b)) l) as [N I].
  - intros a b H1 H2. apply Inj. apply lexlt_anti; auto.
  - apply sortBy_sorted; [intros a b c; apply lexlt_trans|intros a b; apply lexlt_asym].
  - intros a b Ha Hb. apply (Permutation_in _ P) in Ha, Hb. unfold sameElement. split.
    + intros H. apply Inj. apply (sorted_perm_eq le); [lia|auto|auto|].
      eapply isPermutation_ok; [rewrite (Lk a), (Lk b) by auto; reflexivity| |exact H].
      intros x y Hx Hy. apply sameVertex_ok; rewrite in_app_iff in *; [destruct Hx|destruct Hy]; eauto.
    + intros <-. apply isPermutation_refl. intros x Hx. rewrite sameVertex_ok by eauto. apply Nat.eqb_refl.
  - split; [exact N|]. intros z. rewrite I. split; apply Permutation_in; [exact P|symmetry; exact P].
Qed.
End W.

(** ** sorted tuples *)
Lemma sort2_perm a b : Permutation (ids2 (sort2 a b)) [a; b].
Proof. unfold sort2, ids2. destruct (b <? a); cbn; [apply perm_swap|reflexivity]. Qed.
Lemma sort2_sorted a b : fst (sort2 a b) <= snd (sort2 a b).
Proof. unfold sort2. destruct (Nat.ltb_spec b a); cbn; lia. Qed.
Lemma sort3_spec a b c : Permutation (ids3 (sort3 a b c)) [a; b; c] /\
  let '(x, y, z) := sort3 a b c in x <= y /\ y <= z.
Proof.
  unfold sort3, sort2. destruct (Nat.ltb_spec b a).
  - destruct (Nat.ltb_spec c a); [destruct (Nat.ltb_spec c b)|destruct (Nat.ltb_spec a b)]; cbn [ids3]; (split; [|lia]).
    + transitivity [c; a; b]; [apply perm_skip, perm_swap|]. 
      transitivity [a; c; b]; [apply perm_swap|apply perm_skip, perm_swap].
    + transitivity [b; a; c]; [apply perm_skip, perm_swap|apply perm_swap].
    + lia.
    + apply perm_swap.
  - destruct (Nat.ltb_spec c b); [destruct (Nat.ltb_spec c a)|destruct (Nat.ltb_spec b a)]; cbn [ids3]; (split; [|lia]).
    + transitivity [a; c; b]; [apply perm_swap|apply perm_skip, perm_swap].
    + apply perm_skip, perm_swap.
    + lia.
    + reflexivity.
Qed.
Definition srt2 (e : nat * nat) := StronglySorted le (ids2 e).
Definition srt3 (t : nat * nat * nat) := StronglySorted le (ids3 t).
Lemma srt2_iff a b : srt2 (a, b) <-> a <= b.
Proof.
  unfold srt2; cbn. split.
  - intros H. inversion H as [|? ? _ F]; subst. inversion F; subst. assumption.
  - intros H. repeat constructor; assumption.
Qed.
Lemma srt3_iff a b c : srt3 (a, b, c) <-> a <= b /\ b <= c.
Proof.
  unfold srt3; cbn. split.
  - intros H. inversion H as [|? ? H2 F]; subst. inversion F; subst. inversion H2 as [|? ? _ F2]; subst. inversion F2; subst. auto.
  - intros [H1 H2]. repeat constructor; lia.
Qed.
Lemma sort2_srt a b : srt2 (sort2 a b).
Proof. pose proof (sort2_sorted a b) as H. destruct (sort2 a b) as [x y]. apply srt2_iff. exact H. Qed.
Lemma sort3_srt a b c : srt3 (sort3 a b c).
Proof. destruct (sort3_spec a b c) as [_ H]. destruct (sort3 a b c) as [[x y] z]. apply srt3_iff. exact H. Qed.
Lemma srt2_eq e a b : srt2 e -> Permutation (ids2 e) [a; b] -> e = sort2 a b.
Proof.
  intros S P. assert (ids2 e = ids2 (sort2 a b)) as E.
  { apply (sorted_perm_eq le); [lia|exact S|apply sort2_srt|]. rewrite P. symmetry. apply sort2_perm. }
  revert E. clear. destruct e, (sort2 a b). cbn. intros E; injection E as -> ->; reflexivity.
Qed.
Lemma srt3_eq t a b c : srt3 t -> Permutation (ids3 t) [a; b; c] -> t = sort3 a b c.
Proof.
  intros S P. assert (ids3 t = ids3 (sort3 a b c)) as E.
  { apply (sorted_perm_eq le); [lia|exact S|apply sort3_srt|]. rewrite P. symmetry. apply sort3_spec. }
  revert E. clear. destruct t as [[? ?] ?], (sort3 a b c) as [[? ?] ?]. cbn. intros E; injection E as -> -> ->; reflexivity.
Qed.
(** sides and faces, independent of the order of the corners *)
Definition sidesOf (x y z : nat) := [sort2 x y; sort2 x z; sort2 y z].
Definition facesOf (w x y z : nat) := [sort3 w x y; sort3 w x z; sort3 w y z; sort3 x y z].
Lemma sidesOf_iff x y z e : In e (sidesOf x y z) <-> srt2 e /\ exists p, Permutation (p :: ids2 e) [x; y; z].
Proof.
  split.
  - intros [<-|[<-|[<-|[]]]]; (split; [apply sort2_srt|]).
    + exists z. rewrite sort2_perm. apply (Permutation_cons_append [x; y] z).
    + exists y. rewrite sort2_perm. apply perm_swap.
    + exists x. rewrite sort2_perm. reflexivity.
  - intros [S [p P]]. assert (In p [x; y; z]) as I by (apply (Permutation_in _ P); left; reflexivity).
    destruct I as [->|[->|[->|[]]]].
    + right; right; left. symmetry. apply srt2_eq; [exact S|]. eapply Permutation_cons_inv; exact P.
    + right; left. symmetry. apply srt2_eq; [exact S|]. eapply (Permutation_cons_app_inv [x] [z]); exact P.
    + left. symmetry. apply srt2_eq; [exact S|]. eapply (Permutation_cons_app_inv [x; y] []); exact P.
Qed.
Lemma facesOf_iff w x y z e : In e (facesOf w x y z) <-> srt3 e /\ exists p, Permutation (p :: ids3 e) [w; x; y; z].
Proof.
  split.
  - intros [<-|[<-|[<-|[<-|[]]]]]; (split; [apply sort3_srt|]).
    + exists z. rewrite (proj1 (sort3_spec _ _ _)). apply (Permutation_cons_append [w; x; y] z).
    + exists y. rewrite (proj1 (sort3_spec _ _ _)). apply (Permutation_cons_app [w; x] [z]). reflexivity.
    + exists x. rewrite (proj1 (sort3_spec _ _ _)). apply perm_swap.
    + exists w. rewrite (proj1 (sort3_spec _ _ _)). reflexivity.
  - intros [S [p P]]. assert (In p [w; x; y; z]) as I by (apply (Permutation_in _ P); left; reflexivity).
    destruct I as [->|[->|[->|[->|[]]]]].
    + do 3 right; left. symmetry. apply srt3_eq; [exact S|]. eapply Permutation_cons_inv; exact P.
    + right; right; left. symmetry. apply srt3_eq; [exact S|]. eapply (Permutation_cons_app_inv [w] [y; z]); exact P.
    + right; left. symmetry. apply srt3_eq; [exact S|]. eapply (Permutation_cons_app_inv [w; x] [z]); exact P.
    + left. symmetry. apply srt3_eq; [exact S|]. eapply (Permutation_cons_app_inv [w; x; y] []); exact P.
Qed.
Lemma sides_iff t e x y z : srt3 t -> Permutation (ids3 t) [x; y; z] -> (In e (sides t) <-> In e (sidesOf x y z)).
Proof.
  destruct t as [[a b] c]. intros S P. apply srt3_iff in S. destruct S.
  replace (sides (a, b, c)) with (sidesOf a b c) by (unfold sidesOf; rewrite !sort2_id by lia; reflexivity).
  rewrite !sidesOf_iff. cbn [ids3] in P. split; intros [S [p H']]; (split; [exact S|exists p; rewrite H'; auto using Permutation_sym]).
Qed.
Lemma faces_iff a b c d e w x y z : a <= b -> b <= c -> c <= d -> Permutation [a; b; c; d] [w; x; y; z] ->
  (In e (faces (a, b, c, d)) <-> In e (facesOf w x y z)).
Proof.
  intros H1 H2 H3 P. replace (faces (a, b, c, d)) with (facesOf a b c d) by (unfold facesOf; rewrite !sort3_id by lia; reflexivity).
  rewrite !facesOf_iff. split; intros [S [p H']]; (split; [exact S|exists p; rewrite H'; auto using Permutation_sym]).
Qed.

(** ** implicit primitives *)
Section G.
Variable addr : nat -> nat.
Hypothesis Inj : forall i j, addr i = addr j -> i = j.
Notation svp := (sortedVertexPtrs addr).
Definition asc (l : list nat) := StronglySorted (fun x y => (addr y <? addr x) = false) l.
Lemma svp_perm l : Permutation (svp l) l. Proof. apply sortBy_perm. Qed.
Lemma svp_asc l : asc (svp l).
Proof.
  apply sortBy_sorted.
  - intros a b c H1 H2. apply Nat.ltb_ge in H1, H2. apply Nat.ltb_ge. lia.
  - intros a b H. apply Nat.ltb_lt in H. apply Nat.ltb_ge. lia.
Qed.
Lemma asc_eq l l' : asc l -> asc l' -> Permutation l l' -> l = l'.
Proof.
  apply sorted_perm_eq. intros a b H1 H2. apply Nat.ltb_ge in H1, H2. apply Inj. lia.
Qed.
Lemma svp_canon l l' : Permutation l l' -> svp l = svp l'.
Proof. intros P. apply asc_eq; try apply svp_asc. rewrite !svp_perm. exact P. Qed.
Lemma svp_id l : asc l -> svp l = l.
Proof. intros H. apply asc_eq; [apply svp_asc|exact H|apply svp_perm]. Qed.
Lemma contains_In s k : contains s k = true <-> In k s.
Proof.
  unfold contains, eqids. rewrite existsb_exists. split.
  - intros (x & I & E). destruct (list_eq_dec _ _ _); [congruence|discriminate].
  - intros I. exists k. split; [exact I|]. destruct (list_eq_dec _ _ _); congruence.
Qed.
Definition rest3 (m m' : mesh) := m_dim m' = m_dim m /\ m_verts m' = m_verts m /\ m_edges m' = m_edges m /\ m_tets m' = m_tets m.
Record inv3 (st : list (list nat) * mesh) : Prop := {
  i3_set : forall k, In k (fst st) <-> exists t, In t (m_tris (snd st)) /\ k = svp (ids3 t);
  i3_srt : forall t, In t (m_tris (snd st)) -> srt3 t;
  i3_nodup : NoDup (m_tris (snd st))
}.
Lemma NoDup_snoc {A} (l : list A) x : NoDup l -> ~ In x l -> NoDup (l ++ [x]).
Proof. intros H N. apply (Permutation_NoDup (l := x :: l)); [apply Permutation_cons_append|constructor; auto]. Qed.
Lemma cTri_ok st a b c : inv3 st -> asc [a; b; c] -> let st' := createTriangleIfMissing st a b c in
  inv3 st' /\ rest3 (snd st) (snd st') /\ forall t, In t (m_tris (snd st')) <-> In t (m_tris (snd st)) \/ t = sort3 a b c.
Proof.
  destruct st as [s m]. intros [I1 I2 I3] Ha. cbn [fst snd] in *. unfold createTriangleIfMissing.
  assert (K : svp (ids3 (sort3 a b c)) = [a; b; c]).
  { rewrite (svp_canon _ [a; b; c]); [apply svp_id, Ha|apply sort3_spec]. }
  destruct (contains s [a; b; c]) eqn:E; cbn zeta.
  - apply contains_In, I1 in E. destruct E as (t & It & Et). split; [constructor; auto|]. split; [repeat split|].
    intros u. split; [auto|]. intros [?|E0]; [assumption|]. subst u. cbn [snd]. replace (sort3 a b c) with t; [exact It|].
    apply srt3_eq; [auto|]. rewrite Et. symmetry. apply svp_perm.
  - assert (N : ~ In (sort3 a b c) (m_tris m)).
    { intros H. assert (contains s [a; b; c] = true) by (apply contains_In, I1; exists (sort3 a b c); auto). congruence. }
    cbn [fst snd]. unfold createTriangle, setTris. split; [constructor; cbn|split; [repeat split|]].
    + intros k. split.
      * intros [<-|H]; [exists (sort3 a b c); rewrite in_app_iff; cbn; auto|].
        apply I1 in H. destruct H as (t & ? & ?). exists t. rewrite in_app_iff. auto.
      * intros (t & H & ->). rewrite in_app_iff in H. destruct H as [H|[<-|[]]]; [right; apply I1; eauto|left; auto].
    + intros t H. rewrite in_app_iff in H. destruct H as [H|[<-|[]]]; [auto|apply sort3_srt].
    + apply NoDup_snoc; auto.
    + intros t. cbn. rewrite in_app_iff. cbn. intuition congruence.
Qed.
Lemma asc_sub w x y z : asc [w; x; y; z] -> asc [w; x; y] /\ asc [w; x; z] /\ asc [w; y; z] /\ asc [x; y; z].
Proof.
  intros H. inversion H as [|? ? H2 F]; subst. inversion H2 as [|? ? H3 F2]; subst. inversion H3 as [|? ? H4 F3]; subst.
  inversion F as [|? ? A1 F']; subst. inversion F' as [|? ? A2 F'']; subst. inversion F'' as [|? ? A3 _]; subst.
  inversion F2 as [|? ? B1 G]; subst. inversion G as [|? ? B2 _]; subst. inversion F3 as [|? ? C _]; subst.
  repeat split; repeat constructor; auto.
Qed.
Lemma asc_sub3 x y z : asc [x; y; z] -> asc [x; y] /\ asc [x; z] /\ asc [y; z].
Proof.
  intros H. inversion H as [|? ? H2 F]; subst. inversion H2 as [|? ? H3 F2]; subst.
  inversion F as [|? ? A1 F']; subst. inversion F' as [|? ? A2 _]; subst. inversion F2 as [|? ? B _]; subst.
  repeat split; repeat constructor; auto.
Qed.
Lemma rest3_trans m1 m2 m3 : rest3 m1 m2 -> rest3 m2 m3 -> rest3 m1 m3.
Proof. intros (?&?&?&?) (?&?&?&?). repeat split; congruence. Qed.
Lemma svp4 l : length l = 4 -> exists w x y z, svp l = [w; x; y; z].
Proof.
  intros H. pose proof (Permutation_length (svp_perm l)) as L. rewrite H in L.
  destruct (svp l) as [|w [|x [|y [|z [|? ?]]]]]; try discriminate. eauto.
Qed.
Lemma svp3 l : length l = 3 -> exists x y z, svp l = [x; y; z].
Proof.
  intros H. pose proof (Permutation_length (svp_perm l)) as L. rewrite H in L.
  destruct (svp l) as [|x [|y [|z [|? ?]]]]; try discriminate. eauto.
Qed.
Lemma triangulate_ok st a b c d : inv3 st -> a <= b -> b <= c -> c <= d -> let st' := triangulate addr st (a, b, c, d) in
  inv3 st' /\ rest3 (snd st) (snd st') /\
  forall t, In t (m_tris (snd st')) <-> In t (m_tris (snd st)) \/ In t (faces (a, b, c, d)).
Proof.
  intros I H1 H2 H3. unfold triangulate. destruct (svp4 (ids4 (a, b, c, d)) eq_refl) as (w & x & y & z & E). rewrite E.
  pose proof (svp_asc (ids4 (a, b, c, d))) as As. rewrite E in As. destruct (asc_sub _ _ _ _ As) as (A1 & A2 & A3 & A4).
  pose proof (svp_perm (ids4 (a, b, c, d))) as P. rewrite E in P. cbn [ids4] in P. symmetry in P.
  cbn zeta.
  destruct (cTri_ok st w x y I A1) as (I1 & R1 & M1). cbn zeta in *.
  destruct (cTri_ok _ w x z I1 A2) as (I2 & R2 & M2). cbn zeta in *.
  destruct (cTri_ok _ w y z I2 A3) as (I3 & R3 & M3). cbn zeta in *.
  destruct (cTri_ok _ x y z I3 A4) as (I4 & R4 & M4). cbn zeta in *.
  split; [exact I4|]. split; [eauto using rest3_trans|].
  intros t. rewrite M4, M3, M2, M1, (faces_iff a b c d t w x y z) by auto. cbn [facesOf In]. intuition congruence.
Qed.
Lemma triangulates_ok : forall l st, inv3 st ->
  (forall a b c d, In (a, b, c, d) l -> a <= b /\ b <= c /\ c <= d) -> let st' := fold_left (triangulate addr) l st in
  inv3 st' /\ rest3 (snd st) (snd st') /\
  forall t, In t (m_tris (snd st')) <-> In t (m_tris (snd st)) \/ exists x, In x l /\ In t (faces x).
Proof.
  induction l as [|[[[a b] c] d] l IH]; intros st I Hl; cbn [fold_left]; cbn zeta.
  - split; [exact I|]. split; [repeat split|]. intros t. split; [auto|]. intros [?|(x & [] & _)]. assumption.
  - destruct (Hl a b c d) as (? & ? & ?); [left; reflexivity|].
    destruct (triangulate_ok st a b c d I) as (I1 & R1 & M1); auto. cbn zeta in *.
    destruct (IH _ I1) as (I2 & R2 & M2); [intros; apply Hl; right; assumption|]. cbn zeta in *.
    split; [exact I2|]. split; [eauto using rest3_trans|]. intros t. rewrite M2, M1. split.
    + intros [[?|?]|(x & ? & ?)]; [auto|right; exists (a, b, c, d); cbn; auto|right; exists x; cbn; auto].
    + intros [?|(x & [<-|?] & ?)]; [auto|auto|right; exists x; auto].
Qed.
Definition rest2 (m m' : mesh) := m_dim m' = m_dim m /\ m_verts m' = m_verts m /\ m_tris m' = m_tris m /\ m_tets m' = m_tets m.
Record inv2 (st : list (list nat) * mesh) : Prop := {
  i2_set : forall k, In k (fst st) <-> exists t, In t (m_edges (snd st)) /\ k = svp (ids2 t);
  i2_srt : forall t, In t (m_edges (snd st)) -> srt2 t;
  i2_nodup : NoDup (m_edges (snd st))
}.
Lemma cEdge_ok st a b : inv2 st -> asc [a; b] -> let st' := createEdgeIfMissing st a b in
  inv2 st' /\ rest2 (snd st) (snd st') /\ forall t, In t (m_edges (snd st')) <-> In t (m_edges (snd st)) \/ t = sort2 a b.
Proof.
  destruct st as [s m]. intros [I1 I2 I3] Ha. cbn [fst snd] in *. unfold createEdgeIfMissing.
  assert (K : svp (ids2 (sort2 a b)) = [a; b]).
  { rewrite (svp_canon _ [a; b]); [apply svp_id, Ha|apply sort2_perm]. }
  destruct (contains s [a; b]) eqn:E; cbn zeta.
  - apply contains_In, I1 in E. destruct E as (t & It & Et). split; [constructor; auto|]. split; [repeat split|].
    intros u. split; [auto|]. intros [?|E0]; [assumption|]. subst u. cbn [snd]. replace (sort2 a b) with t; [exact It|].
    apply srt2_eq; [auto|]. rewrite Et. symmetry. apply svp_perm.
  - assert (N : ~ In (sort2 a b) (m_edges m)).
    { intros H. assert (contains s [a; b] = true) by (apply contains_In, I1; exists (sort2 a b); auto). congruence. }
    cbn [fst snd]. unfold createEdge, setEdges. split; [constructor; cbn|split; [repeat split|]].
    + intros k. split.
      * intros [<-|H]; [exists (sort2 a b); rewrite in_app_iff; cbn; auto|].
        apply I1 in H. destruct H as (t & ? & ?). exists t. rewrite in_app_iff. auto.
      * intros (t & H & ->). rewrite in_app_iff in H. destruct H as [H|[<-|[]]]; [right; apply I1; eauto|left; auto].
    + intros t H. rewrite in_app_iff in H. destruct H as [H|[<-|[]]]; [auto|apply sort2_srt].
    + apply NoDup_snoc; auto.
    + intros t. cbn. rewrite in_app_iff. cbn. intuition congruence.
Qed.
Lemma rest2_trans m1 m2 m3 : rest2 m1 m2 -> rest2 m2 m3 -> rest2 m1 m3.
Proof. intros (?&?&?&?) (?&?&?&?). repeat split; congruence. Qed.
Lemma frame_ok st t : inv2 st -> srt3 t -> let st' := frame addr st t in
  inv2 st' /\ rest2 (snd st) (snd st') /\
  forall e, In e (m_edges (snd st')) <-> In e (m_edges (snd st)) \/ In e (sides t).
Proof.
  intros I S. unfold frame. destruct (svp3 (ids3 t)) as (x & y & z & E); [destruct t as [[? ?] ?]; reflexivity|]. rewrite E.
  pose proof (svp_asc (ids3 t)) as As. rewrite E in As. destruct (asc_sub3 _ _ _ As) as (A1 & A2 & A3).
  pose proof (svp_perm (ids3 t)) as P. rewrite E in P. symmetry in P.
  cbn zeta.
  destruct (cEdge_ok st x y I A1) as (I1 & R1 & M1). cbn zeta in *.
  destruct (cEdge_ok _ x z I1 A2) as (I2 & R2 & M2). cbn zeta in *.
  destruct (cEdge_ok _ y z I2 A3) as (I3 & R3 & M3). cbn zeta in *.
  split; [exact I3|]. split; [eauto using rest2_trans|].
  intros e. rewrite M3, M2, M1, (sides_iff t e x y z) by auto. cbn [sidesOf In]. intuition congruence.
Qed.
Lemma frames_ok : forall l st, inv2 st -> (forall t, In t l -> srt3 t) -> let st' := fold_left (frame addr) l st in
  inv2 st' /\ rest2 (snd st) (snd st') /\
  forall e, In e (m_edges (snd st')) <-> In e (m_edges (snd st)) \/ exists x, In x l /\ In e (sides x).
Proof.
  induction l as [|t l IH]; intros st I Hl; cbn [fold_left]; cbn zeta.
  - split; [exact I|]. split; [repeat split|]. intros e. split; [auto|]. intros [?|(x & [] & _)]. assumption.
  - destruct (frame_ok st t I) as (I1 & R1 & M1); [apply Hl; left; reflexivity|]. cbn zeta in *.
    destruct (IH _ I1) as (I2 & R2 & M2); [intros; apply Hl; right; assumption|]. cbn zeta in *.
    split; [exact I2|]. split; [eauto using rest2_trans|]. intros e. rewrite M2, M1. split.
    + intros [[?|?]|(x & ? & ?)]; [auto|right; exists t; cbn; auto|right; exists x; cbn; auto].
    + intros [?|(x & [<-|?] & ?)]; [auto|auto|right; exists x; auto].
Qed.
Lemma generate_ok m : (forall e, In e (m_edges m) -> srt2 e) -> (forall t, In t (m_tris m) -> srt3 t) ->
  (forall a b c d, In (a, b, c, d) (m_tets m) -> a <= b /\ b <= c /\ c <= d) ->
  NoDup (m_edges m) -> NoDup (m_tris m) -> let m' := generateImplicitPrimitives addr m in
  m_dim m' = m_dim m /\ m_verts m' = m_verts m /\ m_tets m' = m_tets m /\
  (forall t, In t (m_tris m') <-> In t (m_tris m) \/ exists x, In x (m_tets m) /\ In t (faces x)) /\
  (forall e, In e (m_edges m') <-> In e (m_edges m) \/ exists x, In x (m_tris m') /\ In e (sides x)) /\
  NoDup (m_tris m') /\ NoDup (m_edges m') /\ (forall e, In e (m_edges m') -> srt2 e) /\ (forall t, In t (m_tris m') -> srt3 t).
Proof.
  intros Se St Ste Ne Nt. unfold generateImplicitPrimitives.
  destruct (negb (nonempty (m_tris m)) && negb (nonempty (m_tets m))) eqn:E; cbn zeta.
  - apply andb_prop in E. destruct E as [E1 E2].
    assert (E1' : m_tris m = []) by (destruct (m_tris m); [reflexivity|discriminate]).
    assert (E2' : m_tets m = []) by (destruct (m_tets m); [reflexivity|discriminate]).
    split; [reflexivity|]. split; [reflexivity|]. split; [reflexivity|]. rewrite E2', E1'. split; [|split; [|split; [constructor|split; [exact Ne|split; [exact Se|intros ? []]]]]].
    + intros t. split; [auto|]. intros [?|(x & [] & _)]. assumption.
    + intros e. split; [auto|]. intros [?|(x & [] & _)]. assumption.
  - destruct (triangulates_ok (m_tets m) (map (fun t => svp (ids3 t)) (m_tris m), m)) as (I1 & R1 & M1); auto.
    { constructor; cbn [fst snd]; auto. intros k. rewrite in_map_iff. split; intros (t & ? & ?); exists t; auto. }
    cbn zeta in *. cbn [fst snd] in R1, M1.
    destruct (fold_left (triangulate addr) (m_tets m) (map (fun t => svp (ids3 t)) (m_tris m), m)) as [s1 m1]. cbn [fst snd] in *.
    destruct R1 as (Rd & Rv & Re & Rt).
    destruct (frames_ok (m_tris m1) (map (fun e => svp (ids2 e)) (m_edges m1), m1)) as (I2 & R2 & M2).
    { constructor; cbn [fst snd]; rewrite ?Re; auto. intros k. rewrite in_map_iff. split; intros (t & ? & ?); exists t; auto. }
    { apply (i3_srt _ I1). }
    cbn zeta in *. cbn [fst snd] in *.
    destruct (fold_left (frame addr) (m_tris m1) (map (fun e => svp (ids2 e)) (m_edges m1), m1)) as [s2 m2]. cbn [fst snd] in *.
    destruct R2 as (Rd2 & Rv2 & Rt2 & Rte2). rewrite Re in M2.
    split; [congruence|]. split; [congruence|]. split; [congruence|]. rewrite Rt2.
    split; [exact M1|]. split; [exact M2|].
    split; [apply (i3_nodup _ I1)|]. split; [apply (i2_nodup _ I2)|].
    split; [apply (i2_srt _ I2)|apply (i3_srt _ I1)].
Qed.
End G.

Lemma preprocess_ok tol2 addr m : (0 <= tol2)%Q -> (forall i j, addr i = addr j -> i = j) ->
  wf_mesh m -> separated tol2 m -> prepared m (preprocess tol2 addr m) /\ wf_mesh (preprocess tol2 addr m).
Proof.
  intros Ht Inj W Hs. unfold preprocess.
  set (m1 := setTets m (compress tol2 m ids4 (m_tets m))).
  set (m2 := setTris m1 (compress tol2 m1 ids3 (m_tris m1))).
  set (m3 := setEdges m2 (compress tol2 m2 ids2 (m_edges m2))).
  change (removeDuplicates tol2 m) with m3.
  destruct (compress_ok tol2 m Ht Hs ids4 4 (m_tets m)) as [N4 I4].
  { intros [[[? ?] ?] ?] [[[? ?] ?] ?] H. cbn in H. injection H; intros; subst; reflexivity. }
  { intros [[[? ?] ?] ?] _. reflexivity. }
  { intros [[[a b] c] d] x H I. apply (wm_tets m W) in H. cbn in I. lia. }
  { intros [[[a b] c] d] H. apply (wm_tets m W) in H. cbn. repeat constructor; lia. }
  destruct (compress_ok tol2 m1 Ht Hs ids3 3 (m_tris m)) as [N3 I3].
  { intros [[? ?] ?] [[? ?] ?] H. cbn in H. injection H; intros; subst; reflexivity. }
  { intros [[? ?] ?] _. reflexivity. }
  { intros [[a b] c] x H I. apply (wm_tris m W) in H. cbn in I. change (nVertices m1) with (nVertices m). lia. }
  { intros [[a b] c] H. apply (wm_tris m W) in H. cbn. repeat constructor; lia. }
  destruct (compress_ok tol2 m2 Ht Hs ids2 2 (m_edges m)) as [N2 I2].
  { intros [? ?] [? ?] H. cbn in H. injection H; intros; subst; reflexivity. }
  { intros [? ?] _. reflexivity. }
  { intros [a b] x H I. apply (wm_edges m W) in H. cbn in I. change (nVertices m2) with (nVertices m). lia. }
  { intros [a b] H. apply (wm_edges m W) in H. apply srt2_iff. lia. }
  assert (T4 : m_tets m3 = compress tol2 m ids4 (m_tets m)) by reflexivity.
  assert (T3 : m_tris m3 = compress tol2 m1 ids3 (m_tris m)) by reflexivity.
  assert (T2 : m_edges m3 = compress tol2 m2 ids2 (m_edges m)) by reflexivity.
  destruct (generate_ok addr Inj m3) as (Gd & Gv & Gt & G3 & G2 & Gn3 & Gn2 & Gs2 & Gs3).
  { intros [a b] H. rewrite T2, I2 in H. apply (wm_edges m W) in H. apply srt2_iff. lia. }
  { intros [[a b] c] H. rewrite T3, I3 in H. apply (wm_tris m W) in H. apply srt3_iff. lia. }
  { intros a b c d H. rewrite T4, I4 in H. apply (wm_tets m W) in H. lia. }
  { rewrite T2. exact N2. }
  { rewrite T3. exact N3. }
  cbn zeta in *. set (m4 := generateImplicitPrimitives addr m3) in *.
  assert (Dim : m_dim m4 = m_dim m) by (rewrite Gd; reflexivity).
  assert (Ver : m_verts m4 = m_verts m) by (rewrite Gv; reflexivity).
  assert (NV : nVertices m4 = nVertices m) by (unfold nVertices; rewrite Ver; reflexivity).
  assert (Tet : forall t, In t (m_tets m4) <-> In t (m_tets m)) by (intros t; rewrite Gt, T4; apply I4).
  assert (Tri : forall t, In t (m_tris m4) <-> In t (m_tris m) \/ exists x, In x (m_tets m) /\ In t (faces x)).
  { intros t. rewrite G3, T3, I3. split; (intros [?|(x & Hx & ?)]; [auto|right; exists x; rewrite T4, I4 in *; auto]). }
  assert (Edg : forall t, In t (m_edges m4) <-> In t (m_edges m) \/ exists x, In x (m_tris m4) /\ In t (sides x)).
  { intros t. rewrite G2, T2, I2. reflexivity. }
  split.
  - constructor; auto. rewrite Gt, T4. exact N4.
  - assert (Tr : forall a b c, In (a, b, c) (m_tris m4) -> a <= b /\ b <= c /\ c < nVertices m4).
    { intros a b c H. rewrite NV. apply Tri in H. destruct H as [H|([[[p q] r] s] & Hx & Hf)]; [apply (wm_tris m W), H|].
      apply (wm_tets m W) in Hx. cbn in Hf. destruct Hf as [E|[E|[E|[E|[]]]]]; injection E as <- <- <-; lia. }
    constructor.
    + rewrite Dim. apply (wm_dim m W).
    + intros v H. rewrite Ver in H. rewrite Dim. apply (wm_coords m W), H.
    + intros a b H. apply Edg in H. destruct H as [H|([[p q] r] & Hx & Hf)]; [rewrite NV; apply (wm_edges m W), H|].
      apply Tr in Hx. cbn in Hf. destruct Hf as [E|[E|[E|[]]]]; injection E as <- <-; lia.
    + exact Tr.
    + intros a b c d H. rewrite NV, Dim. apply (wm_tets m W). apply Tet, H.
Qed.
