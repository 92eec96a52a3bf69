(** Proofs about the values in the files of watch integrals and watch points. *)
From Coq Require Import String ZArith QArith Qfield Bool List Lia Lqa.
From Verif Require Import M_Watch S_Watch.
Import ListNotations.
Open Scope list_scope.
Open Scope nat_scope.

Lemma qsum_app l l' : (qsum (l ++ l') == qsum l + qsum l')%Q.
Proof. induction l as [|a l IH]; [symmetry; apply Qplus_0_l|]. cbn [app]. change (a + qsum (l ++ l') == (a + qsum l) + qsum l')%Q. rewrite IH. ring. Qed.
Lemma qsum_ext {A} (f g : A -> Q) l : (forall a, In a l -> (f a == g a)%Q) -> (qsum (map f l) == qsum (map g l))%Q.
Proof.
  induction l as [|a l IH]; intros H; [reflexivity|]. cbn [map qsum fold_right]. fold (qsum (map f l)) (qsum (map g l)).
  rewrite (H a (or_introl eq_refl)), IH; [reflexivity|]. intros b Hb. apply H. now right.
Qed.
Lemma qsum_zero {A} (f : A -> Q) l : (forall a, In a l -> (f a == 0)%Q) -> (qsum (map f l) == 0)%Q.
Proof.
  induction l as [|a l IH]; intros H; [reflexivity|]. cbn [map qsum fold_right]. fold (qsum (map f l)).
  rewrite (H a (or_introl eq_refl)), IH; [reflexivity|]. intros b Hb. apply H. now right.
Qed.

Definition vertexSum (n d : nat) (v : list Q) (i : nat) : Q := qsum (map (fun id => at_ v (id * d + i)) (seq 0 n)).

Lemma at_left v v' k : k < length v -> at_ (v ++ v') k = at_ v k.
Proof. intros H. unfold at_. apply app_nth1, H. Qed.
Lemma at_right v v' k n d i : length v = n * d -> k = (n * d + i)%nat -> at_ (v ++ v') k = at_ v' i.
Proof. intros H ->. unfold at_. rewrite app_nth2 by lia. f_equal. lia. Qed.
Lemma idx n a d i : a < n -> i < d -> a * d + i < n * d.
Proof. intros. nia. Qed.

Lemma vertexSum_join n n' d v v' i : length v = n * d -> i < d ->
  (vertexSum (n + n') d (v ++ v') i == vertexSum n d v i + vertexSum n' d v' i)%Q.
Proof.
  intros Hv Hi. unfold vertexSum. rewrite seq_app, map_app, qsum_app. apply Qplus_comp.
  - apply qsum_ext. intros a Ha. apply in_seq in Ha. rewrite at_left; [reflexivity|]. rewrite Hv. apply idx; lia.
  - replace (seq (0 + n) n') with (map (fun a => n + a) (seq 0 n')).
    + rewrite map_map. apply qsum_ext. intros a _. rewrite (at_right v v' ((n + a) * d + i) n d (a * d + i)); [reflexivity|exact Hv|lia].
    + clear. generalize 0. induction n' as [|n' IH]; intros s; [reflexivity|]. cbn [seq map]. f_equal; [lia|]. apply (IH (S s)).
Qed.

Lemma surface_join m m' d v v' i : rm_dim m' = rm_dim m -> proper m -> length v = rm_n m * d -> i < d ->
  (integrateSurface (join2 m m') d (v ++ v') i == integrateSurface m d v i + integrateSurface m' d v' i)%Q.
Proof.
  intros Hd (P1 & P2) Hv Hi. unfold integrateSurface. rewrite Hd. cbn [join2 rm_dim rm_edges rm_tris].
  destruct (rm_dim m =? 2); rewrite map_app, qsum_app; apply Qplus_comp.
  - apply qsum_ext. intros [[a b] l] H. rewrite Forall_forall in P1. specialize (P1 _ H). cbn in P1.
    rewrite !at_left; [reflexivity|rewrite Hv; apply idx; lia|rewrite Hv; apply idx; lia].
  - rewrite map_map. apply qsum_ext. intros [[a b] l] _. cbn [shiftE].
    rewrite (at_right v v' ((rm_n m + a) * d + i) (rm_n m) d (a * d + i)), (at_right v v' ((rm_n m + b) * d + i) (rm_n m) d (b * d + i)) by (assumption || lia).
    reflexivity.
  - apply qsum_ext. intros [[[a b] c] l] H. rewrite Forall_forall in P2. specialize (P2 _ H). cbn in P2.
    rewrite !at_left; [reflexivity|rewrite Hv; apply idx; lia|rewrite Hv; apply idx; lia|rewrite Hv; apply idx; lia].
  - rewrite map_map. apply qsum_ext. intros [[[a b] c] l] _. cbn [shiftT].
    rewrite (at_right v v' ((rm_n m + a) * d + i) (rm_n m) d (a * d + i)), (at_right v v' ((rm_n m + b) * d + i) (rm_n m) d (b * d + i)),
      (at_right v v' ((rm_n m + c) * d + i) (rm_n m) d (c * d + i)) by (assumption || lia).
    reflexivity.
Qed.

Lemma hasEdges_joined dim ms : hasEdges (joined dim ms) = existsb hasEdges ms.
Proof.
  induction ms as [|m ms IH]; [reflexivity|]. cbn [joined fold_right existsb]. fold (joined dim ms). rewrite <- IH.
  unfold hasEdges, join2. cbn [rm_edges]. destruct (rm_edges m); [destruct (rm_edges (joined dim ms)); reflexivity|reflexivity].
Qed.
Lemma joined_dim dim ms : Forall (fun m => rm_dim m = dim) ms -> rm_dim (joined dim ms) = dim.
Proof. destruct 1; [reflexivity|]. assumption. Qed.
Lemma joined_n dim ms : rm_n (joined dim ms) = list_sum (map rm_n ms).
Proof. induction ms as [|m ms IH]; [reflexivity|]. cbn [joined fold_right]. fold (joined dim ms). cbn [join2 rm_n map list_sum fold_right]. rewrite IH. reflexivity. Qed.

Lemma vertices_joined dim d j i (rs : list rank) : Forall (good dim d j) rs -> i < d ->
  (vertexSum (rm_n (joined dim (map fst rs))) d (concat (map (fun r => nth j (snd r) []) rs)) i ==
   qsum (map (fun r => vertexSum (rm_n (fst r)) d (nth j (snd r) []) i) rs))%Q.
Proof.
  intros H Hi. induction H as [|r rs (Hd & Hp & Hl) Hrs IH]; [reflexivity|].
  cbn [map joined fold_right concat join2 rm_n]. fold (joined dim (map fst rs)).
  rewrite vertexSum_join by assumption. rewrite IH. reflexivity.
Qed.
Lemma surfaces_joined dim d j i (rs : list rank) : Forall (good dim d j) rs -> i < d ->
  (integrateSurface (joined dim (map fst rs)) d (concat (map (fun r => nth j (snd r) []) rs)) i ==
   qsum (map (fun r => integrateSurface (fst r) d (nth j (snd r) []) i) rs))%Q.
Proof.
  intros H Hi. induction H as [|r rs (Hd & Hp & Hl) Hrs IH].
  - cbn. unfold integrateSurface. cbn. destruct (dim =? 2); reflexivity.
  - cbn [map joined fold_right concat]. fold (joined dim (map fst rs)).
    rewrite surface_join; [rewrite IH; reflexivity| |exact Hp|exact Hl|exact Hi].
    rewrite Hd. apply joined_dim. apply Forall_map. eapply Forall_impl; [|exact Hrs]. intros q (Q1 & _). exact Q1.
Qed.

Lemma empty_proper m : proper m -> rm_n m = 0 -> rm_edges m = [] /\ rm_tris m = [].
Proof.
  intros (P1 & P2) H. split.
  - destruct (rm_edges m) as [|[[a b] l] r]; [reflexivity|]. inversion P1 as [|x y X]. lia.
  - destruct (rm_tris m) as [|[[[a b] c] l] r]; [reflexivity|]. inversion P2 as [|x y X]. lia.
Qed.

Theorem parallel_integral scaling dim d j i (rs : list rank) : Forall (good dim d j) rs -> i < d ->
  uniform scaling (map fst rs) ->
  (reducedIntegral scaling rs j d i ==
   calculateIntegral scaling (joined dim (map fst rs)) d (concat (map (fun r => nth j (snd r) []) rs)) i)%Q.
Proof.
  intros H Hi U. unfold calculateIntegral. rewrite hasEdges_joined.
  fold (vertexSum (rm_n (joined dim (map fst rs))) d (concat (map (fun r => nth j (snd r) []) rs)) i).
  destruct (negb (existsb hasEdges (map fst rs)) || negb scaling) eqn:G.
  - rewrite vertices_joined by assumption. unfold reducedIntegral. apply qsum_ext. intros r Hr.
    unfold calculateIntegral. replace (negb (hasEdges (fst r)) || negb scaling) with true; [reflexivity|].
    symmetry. apply orb_true_iff in G as [G|G]; [|rewrite G; apply orb_true_r].
    apply negb_true_iff in G. destruct (hasEdges (fst r)) eqn:E; [|reflexivity].
    exfalso. assert (X : existsb hasEdges (map fst rs) = true); [|congruence].
    apply existsb_exists. exists (fst r). split; [apply in_map, Hr|exact E].
  - apply orb_false_iff in G as (G1 & G2). apply negb_false_iff in G1. apply negb_false_iff in G2.
    rewrite surfaces_joined by assumption. unfold reducedIntegral. apply qsum_ext. intros r Hr.
    unfold calculateIntegral. rewrite G2. cbn [negb]. rewrite orb_false_r.
    destruct (hasEdges (fst r)) eqn:E; [reflexivity|]. cbn [negb].
    destruct U as [U|[U|U]]; [congruence| |].
    + exfalso. apply existsb_exists in G1 as (m & Hm & Em). rewrite (U m Hm) in Em. discriminate.
    + destruct (rm_n (fst r)) as [|n] eqn:En.
      * rewrite Forall_forall in H. destruct (H r Hr) as (_ & Hp & _).
        destruct (empty_proper _ Hp En) as (E1 & E2). unfold integrateSurface. rewrite E1, E2. cbn. destruct (rm_dim (fst r) =? 2); reflexivity.
      * exfalso. rewrite U in E; [discriminate|apply in_map, Hr|lia].
Qed.

Lemma snd_shiftE n l : map (fun e => snd e) (map (shiftE n) l) = map (fun e => snd e) l.
Proof. rewrite map_map. apply map_ext. intros [[a b] x]. reflexivity. Qed.
Lemma snd_shiftT n l : map (fun e => snd e) (map (shiftT n) l) = map (fun e => snd e) l.
Proof. rewrite map_map. apply map_ext. intros [[[a b] c] x]. reflexivity. Qed.

Theorem parallel_area dim (rs : list rank) : Forall (fun r => rm_dim (fst r) = dim) rs ->
  Forall (fun r => hasEdges (fst r) = false -> rm_tris (fst r) = []) rs ->
  (reducedArea rs == calculateSurfaceArea (joined dim (map fst rs)))%Q.
Proof.
  intros H T. induction H as [|r rs Hd Hrs IH].
  - cbn. unfold calculateSurfaceArea. cbn. destruct (dim =? 3); reflexivity.
  - inversion T as [|r' rs' T1 T2]; subst r' rs'. unfold reducedArea in *. cbn [map qsum fold_right]. cbn [qsum] in IH. rewrite (IH T2).
    cbn [joined fold_right]. fold (joined dim (map fst rs)). unfold calculateSurfaceArea.
    assert (D : rm_dim (joined dim (map fst rs)) = dim) by (apply joined_dim, Forall_map, Hrs).
    cbn [join2 rm_dim rm_edges rm_tris]. rewrite D, Hd.
    destruct (dim =? 3); rewrite map_app, ?snd_shiftE, ?snd_shiftT, qsum_app; apply Qplus_comp; try reflexivity.
    + destruct (hasEdges (fst r)) eqn:E; [reflexivity|]. rewrite T1 by reflexivity. reflexivity.
    + destruct (hasEdges (fst r)) eqn:E; [reflexivity|]. unfold hasEdges in E. destruct (rm_edges (fst r)); [reflexivity|discriminate].
Qed.

(** linear fields at watch points *)
Lemma qsum_add {A} (f g : A -> Q) l : (qsum (map (fun a => f a + g a) l) == qsum (map f l) + qsum (map g l))%Q.
Proof.
  induction l as [|a l IH]; [reflexivity|]. cbn [map qsum fold_right]. cbn [qsum] in IH. unfold qsum in IH. rewrite IH. ring.
Qed.
Lemma qsum_mul {A} (c : Q) (f : A -> Q) l : (qsum (map (fun a => c * f a) l) == c * qsum (map f l))%Q.
Proof. induction l as [|a l IH]; [cbn; ring|]. cbn [map qsum fold_right]. unfold qsum in IH. rewrite IH. ring. Qed.
Lemma qsum_swap {A B} (f : A -> B -> Q) l l' :
  (qsum (map (fun a => qsum (map (f a) l')) l) == qsum (map (fun b => qsum (map (fun a => f a b) l)) l'))%Q.
Proof.
  induction l as [|a l IH]; [symmetry; apply qsum_zero; reflexivity|].
  cbn [map qsum fold_right]. fold (qsum (map (fun a => qsum (map (f a) l')) l)). rewrite IH, <- qsum_add. apply qsum_ext. intros; reflexivity.
Qed.

Theorem point_linear dim p coords v (g : nat -> Q) (b : Q) :
  (qsum (map snd p) == 1)%Q ->
  (forall e, In e p -> (at_ v (fst e) == qsum (map (fun k => g k * at_ coords (fst e * dim + k)) (seq 0 dim)) + b)%Q) ->
  (weighted p 1 v 0 == qsum (map (fun k => g k * weighted p dim coords k) (seq 0 dim)) + b)%Q.
Proof.
  intros Hs Hv. unfold weighted.
  rewrite (qsum_ext _ (fun e => qsum (map (fun k => snd e * (g k * at_ coords (fst e * dim + k))) (seq 0 dim)) + b * snd e)%Q).
  - rewrite (qsum_add (fun e => qsum (map (fun k => snd e * (g k * at_ coords (fst e * dim + k))) (seq 0 dim)))%Q (fun e => b * snd e)%Q).
    rewrite (qsum_mul b (fun e => snd e)). fold (map (@snd nat Q) p). setoid_replace (qsum (map (fun e : nat * Q => snd e) p)) with 1%Q by exact Hs.
    rewrite Qmult_1_r. apply Qplus_comp; [|reflexivity].
    rewrite (qsum_swap (fun e k => snd e * (g k * at_ coords (fst e * dim + k)))%Q).
    apply qsum_ext. intros k _. rewrite <- qsum_mul. apply qsum_ext. intros e _. ring.
  - intros e He. rewrite Nat.mul_1_r, Nat.add_0_r, (Hv e He), qsum_mul. ring.
Qed.
