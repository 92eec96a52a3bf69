(** Invariants of the API over all histories of calls. *)
From Coq Require Import ZArith QArith Bool List Arith Lia.
From Verif Require Import M_Time M_Mesh M_Prep M_Box M_Quad M_Api S_Api.
Import ListNotations.
Open Scope nat_scope.

(** ** maps *)
Lemma lookup_alter {A} k j (f : A -> A) l :
  lookup k (alter j f l) = if j =? k then option_map f (lookup k l) else lookup k l.
Proof.
  induction l as [|[i a] r IH]; cbn.
  - destruct (j =? k); reflexivity.
  - destruct (Nat.eqb_spec i j) as [->|N]; cbn.
    + destruct (Nat.eqb_spec j k); cbn; auto.
    + destruct (Nat.eqb_spec i k) as [->|N2]; cbn.
      * destruct (Nat.eqb_spec j k); [congruence|reflexivity].
      * exact IH.
Qed.
Lemma keys_alter {A} j (f : A -> A) l : map fst (alter j f l) = map fst l.
Proof.
  unfold alter. rewrite map_map. apply map_ext. intros [i a]; cbn. destruct (i =? j); reflexivity.
Qed.
Lemma lookup_in {A} k (l : list (nat * A)) a : lookup k l = Some a -> In (k, a) l.
Proof.
  induction l as [|[i b] r IH]; cbn; [discriminate|].
  destruct (Nat.eqb_spec i k) as [->|N]; [intros [= ->]; auto | auto].
Qed.
Lemma in_lookup {A} k (l : list (nat * A)) a : NoDup (map fst l) -> In (k, a) l -> lookup k l = Some a.
Proof.
  induction l as [|[i b] r IH]; cbn; [contradiction|].
  intros ND [E|E]; inversion ND; subst.
  - injection E as -> ->. rewrite Nat.eqb_refl. reflexivity.
  - destruct (Nat.eqb_spec i k) as [->|N]; [|auto].
    exfalso. apply H1. apply in_map_iff. exists (k, a). auto.
Qed.
Lemma lookup_none {A} k (l : list (nat * A)) : lookup k l = None <-> ~ In k (map fst l).
Proof.
  induction l as [|[i b] r IH]; cbn; [split; auto|].
  destruct (Nat.eqb_spec i k) as [->|N]; [split; [discriminate|tauto]|].
  rewrite IH. split; [intros H [E|E]; [congruence|auto] | tauto].
Qed.
Lemma lookup_some_in {A B} k (l : list (nat * A)) (l' : list (nat * B)) a :
  map fst l' = map fst l -> lookup k l = Some a -> exists b, lookup k l' = Some b.
Proof.
  intros E H. destruct (lookup k l') as [b|] eqn:K; [eauto|].
  exfalso. rewrite lookup_none, E in K. apply K. apply in_map_iff.
  exists (k, a). split; [reflexivity|]. apply lookup_in. exact H.
Qed.
Lemma lookup_map {A B} k (f : nat -> A -> B) (l : list (nat * A)) :
  lookup k (map (fun x => (fst x, f (fst x) (snd x))) l) = option_map (f k) (lookup k l).
Proof.
  induction l as [|[i a] r IH]; cbn; [reflexivity|].
  destruct (Nat.eqb_spec i k) as [->|N]; [reflexivity|exact IH].
Qed.

(** ** preprocessing keeps the vertices *)
Definition sameV (m m' : mesh) : Prop := m_verts m' = m_verts m /\ m_dim m' = m_dim m.
Lemma sameV_refl m : sameV m m. Proof. split; reflexivity. Qed.
Lemma sameV_trans a b c : sameV a b -> sameV b c -> sameV a c.
Proof. intros [? ?] [? ?]. split; congruence. Qed.
Lemma fold_verts {A S} (f : S * mesh -> A -> S * mesh) : (forall st a, sameV (snd st) (snd (f st a))) ->
  forall l st, sameV (snd st) (snd (fold_left f l st)).
Proof.
  intros H l. induction l as [|a r IH]; intros st; cbn; [apply sameV_refl|].
  eapply sameV_trans; [apply H|apply IH].
Qed.
Lemma fold_mesh {A} (f : mesh -> A -> mesh) : (forall m a, sameV m (f m a)) -> forall l m, sameV m (fold_left f l m).
Proof.
  intros H l. induction l as [|a r IH]; intros st; cbn; [apply sameV_refl|].
  eapply sameV_trans; [apply H|apply IH].
Qed.
Lemma triIf_verts st a b c : sameV (snd st) (snd (createTriangleIfMissing st a b c)).
Proof. destruct st as [s m]. unfold createTriangleIfMissing. destruct (M_Prep.contains _ _); split; reflexivity. Qed.
Lemma edgeIf_verts st a b : sameV (snd st) (snd (createEdgeIfMissing st a b)).
Proof. destruct st as [s m]. unfold createEdgeIfMissing. destruct (M_Prep.contains _ _); split; reflexivity. Qed.
Lemma triangulate_verts ad st t : sameV (snd st) (snd (triangulate ad st t)).
Proof.
  unfold triangulate. destruct (sortedVertexPtrs ad (ids4 t)) as [|a [|b [|c [|d [|e r]]]]]; try apply sameV_refl.
  cbv zeta. do 3 (eapply sameV_trans; [|apply triIf_verts]). apply triIf_verts.
Qed.
Lemma frame_verts ad st t : sameV (snd st) (snd (frame ad st t)).
Proof.
  unfold frame. destruct (sortedVertexPtrs ad (ids3 t)) as [|a [|b [|c [|d r]]]]; try apply sameV_refl.
  cbv zeta. do 2 (eapply sameV_trans; [|apply edgeIf_verts]). apply edgeIf_verts.
Qed.
Lemma preprocess_verts t ad m : sameV m (preprocess t ad m).
Proof.
  unfold preprocess. apply sameV_trans with (removeDuplicates t m); [split; reflexivity|].
  generalize (removeDuplicates t m); intros x. unfold generateImplicitPrimitives.
  destruct (_ && _); [apply sameV_refl|]. cbv zeta.
  eapply sameV_trans; [|apply (fold_verts (frame ad)); apply frame_verts].
  apply (fold_verts (triangulate ad)); apply triangulate_verts.
Qed.

(** ** buffers *)
Lemma resize_same n d buf : length buf = n * d -> resizeBuffer n d false buf = buf.
Proof.
  intros E. unfold resizeBuffer. rewrite <- E, Nat.sub_diag, firstn_all. apply app_nil_r.
Qed.
Lemma resize_length n d i buf : length (resizeBuffer n d i buf) = n * d.
Proof.
  unfold resizeBuffer. destruct i; [apply repeat_length|].
  rewrite app_length, firstn_length, repeat_length. lia.
Qed.
Definition allzero (l : list Q) : Prop := forall q, In q l -> q = 0%Q.
Lemma allzero_repeat l : allzero l -> l = repeat 0%Q (length l).
Proof.
  induction l as [|x r IH]; intros H; [reflexivity|]. cbn.
  rewrite (H x (or_introl eq_refl)). f_equal. apply IH. intros q I. apply H. right. exact I.
Qed.
Lemma repeat_allzero n : allzero (repeat 0%Q n).
Proof. intros q I. apply repeat_spec in I. exact I. Qed.
Lemma in_firstn {A} n (l : list A) a : In a (firstn n l) -> In a l.
Proof. intros H. rewrite <- (firstn_skipn n l). apply in_or_app. auto. Qed.
Lemma in_skipn {A} n (l : list A) a : In a (skipn n l) -> In a l.
Proof. intros H. rewrite <- (firstn_skipn n l). apply in_or_app. auto. Qed.
Lemma resize_zero n d i buf : allzero buf -> allzero (resizeBuffer n d i buf).
Proof.
  intros H q. unfold resizeBuffer. destruct i; [apply repeat_allzero|].
  rewrite in_app_iff. intros [I|I]; [apply H; eapply in_firstn; eassumption | apply repeat_allzero in I; exact I].
Qed.
Lemma zeroBuffer_zero buf : allzero (zeroBuffer buf).
Proof. intros q I. apply in_map_iff in I. destruct I as [x [E _]]. congruence. Qed.
Lemma getCol_length d v n buf : length buf = n * d -> v < n -> length (getCol d v buf) = d.
Proof. intros E L. unfold getCol. rewrite firstn_length, skipn_length. nia. Qed.
Lemma getCol_zero d v n buf : allzero buf -> length buf = n * d -> v < n -> getCol d v buf = repeat 0%Q d.
Proof.
  intros H E L. rewrite (allzero_repeat (getCol d v buf)).
  - f_equal. eapply getCol_length; eassumption.
  - intros q I. apply H. unfold getCol in I. eapply in_skipn, in_firstn. eassumption.
Qed.
Lemma getCol_app_l d v a b : v * d + d <= length a -> getCol d v (a ++ b) = getCol d v a.
Proof.
  intros L. unfold getCol. rewrite skipn_app, firstn_app, skipn_length.
  replace (d - (length a - v * d)) with 0 by lia. rewrite firstn_O. apply app_nil_r.
Qed.
Lemma skipn_skip {A} i j (l : list A) : skipn i (skipn j l) = skipn (j + i) l.
Proof. revert l; induction j as [|j IH]; intros [|x r]; cbn; auto. destruct i; reflexivity. Qed.
Lemma putCol_length d v n col buf : length buf = n * d -> v < n -> length col = d -> length (putCol d v col buf) = n * d.
Proof.
  intros E L K. unfold putCol. rewrite !app_length, firstn_length, skipn_length. nia.
Qed.
Lemma getCol_put d v u n col buf : length buf = n * d -> v < n -> u < n -> length col = d ->
  getCol d u (putCol d v col buf) = if u =? v then col else getCol d u buf.
Proof.
  intros E L L2 K. unfold getCol, putCol. destruct (Nat.eqb_spec u v) as [->|N].
  - rewrite skipn_app, firstn_length, Nat.min_l by nia. rewrite Nat.sub_diag, skipn_all2 by (rewrite firstn_length; nia).
    rewrite app_nil_l. change (skipn 0 (col ++ skipn (v * d + d) buf)) with (col ++ skipn (v * d + d) buf).
    rewrite firstn_app, firstn_all2 by lia. rewrite K, Nat.sub_diag, firstn_O. apply app_nil_r.
  - destruct (Nat.lt_ge_cases u v) as [G|G].
    + rewrite skipn_app. rewrite firstn_app.
      replace (d - length (skipn (u * d) (firstn (v * d) buf))) with 0
        by (rewrite skipn_length, firstn_length; nia).
      rewrite firstn_O, app_nil_r. rewrite firstn_skipn_comm. 
      rewrite firstn_firstn. rewrite firstn_skipn_comm. f_equal. f_equal. nia.
    + assert (v < u) by lia.
      rewrite skipn_app, firstn_length, Nat.min_l by nia.
      rewrite skipn_all2 by (rewrite firstn_length; nia). rewrite app_nil_l.
      rewrite skipn_app, skipn_all2 by nia. rewrite app_nil_l, skipn_skip. f_equal. f_equal. nia.
Qed.

(** [fitBuffers] resizes every buffer once *)
Definition fitOne (meshes : list (nat * meshCtx)) (w : wrCtx) : wrCtx :=
  match lookup (wr_mesh w) meshes with
  | Some x => setBuf w (resizeBuffer (nVertices (mx_mesh x)) (wr_dims w) (negb (mx_provided x)) (wr_buf w))
  | None => w
  end.
Lemma fitBuffers_map meshes ws : NoDup (map fst meshes) -> fitBuffers meshes ws = map (fitOne meshes) ws.
Proof.
  revert ws; induction meshes as [|[m x] r IH]; intros ws ND.
  - cbn. induction ws as [|w t IHw]; cbn; [reflexivity|]. f_equal. exact IHw.
  - inversion ND; subst. unfold fitBuffers in *. cbn [fold_left fst snd]. rewrite IH by assumption.
    unfold resizeBuffers. rewrite map_map. apply map_ext. intros w. unfold fitOne. cbn [lookup].
    destruct (Nat.eqb_spec (wr_mesh w) m) as [E|N].
    + cbn [setBuf wr_mesh]. rewrite E, Nat.eqb_refl.
      assert (lookup m r = None) as -> by (apply lookup_none; assumption). reflexivity.
    + destruct (Nat.eqb_spec m (wr_mesh w)); [congruence|reflexivity].
Qed.
