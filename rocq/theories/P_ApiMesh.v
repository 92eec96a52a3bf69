From Coq Require Import ZArith QArith Bool List Arith Lia Permutation Sorted.
From Verif Require Import M_Time M_Mesh M_Prep M_Box M_Quad M_Api S_Mesh S_Box S_Api S_ApiMesh P_Prep P_Box P_Api P_ApiEff P_ApiInv P_ApiThm.
Import ListNotations.
Open Scope nat_scope.

(** ** sorting of IDs *)
Lemma sort4_spec a b c d : Permutation (ids4 (sort4 a b c d)) [a; b; c; d] /\ StronglySorted le (ids4 (sort4 a b c d)).
Proof.
  unfold sort4. destruct (sort3_spec a b c) as [P S]. destruct (sort3 a b c) as [[x y] z]. cbn [ids3] in P.
  destruct S as [S1 S2]. unfold sort2.
  assert (Q : Permutation [x; y; z; d] [a; b; c; d]).
  { change [x; y; z; d] with ([x; y; z] ++ [d]). change [a; b; c; d] with ([a; b; c] ++ [d]). apply Permutation_app; [exact P|reflexivity]. }
  destruct (Nat.ltb_spec d z) as [L1|L1].
  - destruct (Nat.ltb_spec d y) as [L2|L2].
    + destruct (Nat.ltb_spec d x) as [L3|L3]; cbn [ids4]; (split; [rewrite <- Q|repeat constructor; lia]).
      * apply (Permutation_middle [x; y; z] [] d).
      * apply perm_skip. apply (Permutation_middle [y; z] [] d).
    + destruct (Nat.ltb_spec y x); [lia|]. cbn [ids4]; (split; [rewrite <- Q|repeat constructor; lia]).
      do 2 apply perm_skip. apply perm_swap.
  - destruct (Nat.ltb_spec z y); [lia|]. destruct (Nat.ltb_spec y x); [lia|]. cbn [ids4]. split; [exact Q|repeat constructor; lia].
Qed.
Lemma sort2_lt a b n : a < n -> b < n -> Forall (fun v => v < n) (ids2 (sort2 a b)).
Proof. intros. rewrite sort2_perm. repeat constructor; assumption. Qed.
Lemma sort3_lt a b c n : a < n -> b < n -> c < n -> Forall (fun v => v < n) (ids3 (sort3 a b c)).
Proof. intros. rewrite (proj1 (sort3_spec a b c)). repeat constructor; assumption. Qed.
Lemma sort4_lt a b c d n : a < n -> b < n -> c < n -> d < n -> Forall (fun v => v < n) (ids4 (sort4 a b c d)).
Proof. intros. rewrite (proj1 (sort4_spec a b c d)). repeat constructor; assumption. Qed.

(** ** well-formed meshes stay so *)
Lemma wf_edge m a b : wf_mesh m -> a < nVertices m -> b < nVertices m -> wf_mesh (createEdge m a b).
Proof.
  intros [W1 W2 W3 W4 W5] A B. constructor; cbn; auto. intros x y H. apply in_app_iff in H. destruct H as [H|[H|[]]]; [apply W3, H|].
  unfold nVertices in *. unfold sort2 in H. cbn. destruct (Nat.ltb_spec b a); injection H as <- <-; lia.
Qed.
Lemma wf_tri m a b c : wf_mesh m -> a < nVertices m -> b < nVertices m -> c < nVertices m -> wf_mesh (createTriangle m a b c).
Proof.
  intros [W1 W2 W3 W4 W5] A B D. constructor; cbn; auto. intros x y z H. apply in_app_iff in H. destruct H as [H|[H|[]]]; [apply W4, H|].
  unfold nVertices in *. cbn. assert (S := sort3_lt a b c (length (m_verts m)) A B D). destruct (sort3_spec a b c) as [_ T].
  rewrite H in S, T. cbn in S, T. inversion S as [|? ? _ S1]; subst. inversion S1 as [|? ? _ S2]; subst. inversion S2; subst. lia.
Qed.
Lemma distinct4_nodup a b c d : distinct4 a b c d = true -> NoDup [a; b; c; d].
Proof.
  unfold distinct4. rewrite !andb_true_iff, !negb_true_iff, !Nat.eqb_neq. intros [[[[[H1 H2] H3] H4] H5] H6].
  repeat constructor; cbn; intuition congruence.
Qed.
Lemma wf_tet m a b c d y : wf_mesh m -> a < nVertices m -> b < nVertices m -> c < nVertices m -> d < nVertices m ->
  createTetrahedron m a b c d = Some y -> wf_mesh y.
Proof.
  intros W A B D E. unfold createTetrahedron. destruct (Nat.eqb_spec (m_dim m) 3) as [D3|]; [|discriminate].
  destruct (distinct4 a b c d) eqn:DI; [|discriminate]. intros [= <-].
  destruct W as [W1 W2 W3 W4 W5]. constructor; cbn; auto. intros w x y z H. apply in_app_iff in H. destruct H as [H|[H|[]]]; [apply W5, H|].
  assert (S := sort4_lt a b c d (nVertices m) A B D E). destruct (sort4_spec a b c d) as [P T].
  apply distinct4_nodup in DI. apply Permutation_sym in P. assert (ND := Permutation_NoDup P DI).
  rewrite H in S, T, ND. cbn in S, T, ND. unfold nVertices in *. cbn.
  inversion T as [|? ? T1 F1]; subst. inversion T1 as [|? ? T2 F2]; subst. inversion T2 as [|? ? T3 F3]; subst.
  inversion F1 as [|? ? G1 _]; subst. inversion F2 as [|? ? G2 _]; subst. inversion F3 as [|? ? G3 _]; subst.
  inversion ND as [|? ? N1 ND1]; subst. inversion ND1 as [|? ? N2 ND2]; subst. inversion ND2 as [|? ? N3 ND3]; subst. cbn in N1, N2, N3.
  inversion S as [|? ? _ S1]; subst. inversion S1 as [|? ? _ S2]; subst. inversion S2 as [|? ? _ S3]; subst. inversion S3; subst.
  repeat split; auto; try lia; intuition lia.
Qed.
Lemma wf_verts m ps : forall y, wf_mesh m -> createVertices m ps = Some y -> wf_mesh y.
Proof.
  revert m. induction ps as [|p r IH]; intros m y W H; cbn in H; [injection H as <-; exact W|].
  destruct (createVertex m p) as [m'|] eqn:E; [|discriminate]. eapply IH; [|exact H].
  unfold createVertex in E. destruct (Nat.eqb_spec (length p) (m_dim m)) as [L|]; [|discriminate]. injection E as <-.
  destruct W as [W1 W2 W3 W4 W5].
  assert (N : nVertices (setVerts m (m_verts m ++ [MkVertex p (-1) true false])) = S (nVertices m)).
  { unfold nVertices. cbn. rewrite app_length. cbn. lia. }
  constructor; rewrite ?N; cbn; auto.
  - intros v K. apply in_app_iff in K. destruct K as [K|[<-|[]]]; [apply W2, K|exact L].
  - intros a b K. apply W3 in K. lia.
  - intros a b c K. apply W4 in K. lia.
  - intros a b c d K. apply W5 in K. intuition lia.
Qed.
Lemma insertBy_in {A} (lt : A -> A -> bool) x l y : In y (insertBy lt x l) -> x = y \/ In y l.
Proof. induction l as [|z l IH]; cbn; [intros [->|[]]; auto|]. destruct (lt z x); cbn; intuition. Qed.
Lemma sortBy_in {A} (lt : A -> A -> bool) l y : In y (sortBy lt l) -> In y l.
Proof. induction l as [|z l IH]; cbn; [auto|]. intros H. apply insertBy_in in H. intuition. Qed.
Lemma uniqueFrom_in {A} (e : A -> A -> bool) l : forall x y, In y (uniqueFrom e x l) -> In y (x :: l).
Proof.
  induction l as [|z l IH]; intros x y H; cbn in H; [exact H|]. destruct (e x z).
  - apply IH in H. cbn in *. intuition.
  - destruct H as [->|H]; [left; reflexivity|]. right. apply IH. exact H.
Qed.
Lemma compress_in {A} t m (ids : A -> list nat) l y : In y (compress t m ids l) -> In y l.
Proof.
  unfold compress, unique. intros H. apply (sortBy_in (fun a b => lexlt (ids a) (ids b))).
  destruct (sortBy _ l); [exact H|]. apply uniqueFrom_in in H. exact H.
Qed.
Lemma wf_dup t m : wf_mesh m -> wf_mesh (removeDuplicates t m).
Proof.
  intros [W1 W2 W3 W4 W5]. constructor; cbn; auto.
  - intros a b H. apply compress_in in H. apply W3, H.
  - intros a b c H. apply compress_in in H. apply W4, H.
  - intros a b c d H. apply compress_in in H. apply W5, H.
Qed.
Lemma ptrs_lt ad l n : Forall (fun v => v < n) l -> Forall (fun v => v < n) (sortedVertexPtrs ad l).
Proof. rewrite !Forall_forall. intros H x K. apply H. apply sortBy_in in K. exact K. Qed.
Lemma triIf_wf st a b c : wf_mesh (snd st) -> a < nVertices (snd st) -> b < nVertices (snd st) -> c < nVertices (snd st) ->
  wf_mesh (snd (createTriangleIfMissing st a b c)) /\ nVertices (snd (createTriangleIfMissing st a b c)) = nVertices (snd st).
Proof. destruct st as [s m]. cbn. intros. destruct (M_Prep.contains _ _); cbn; auto using wf_tri. Qed.
Lemma edgeIf_wf st a b : wf_mesh (snd st) -> a < nVertices (snd st) -> b < nVertices (snd st) ->
  wf_mesh (snd (createEdgeIfMissing st a b)) /\ nVertices (snd (createEdgeIfMissing st a b)) = nVertices (snd st).
Proof. destruct st as [s m]. cbn. intros. destruct (M_Prep.contains _ _); cbn; auto using wf_edge. Qed.
Lemma triangulate_wf ad st t : wf_mesh (snd st) -> Forall (fun v => v < nVertices (snd st)) (ids4 t) ->
  wf_mesh (snd (triangulate ad st t)) /\ nVertices (snd (triangulate ad st t)) = nVertices (snd st).
Proof.
  intros W F. unfold triangulate. apply (ptrs_lt ad) in F.
  destruct (sortedVertexPtrs ad (ids4 t)) as [|a [|b [|c [|d [|e r]]]]]; auto. cbv zeta.
  inversion F as [|? ? A F1]; subst. inversion F1 as [|? ? B F2]; subst. inversion F2 as [|? ? D F3]; subst. inversion F3 as [|? ? E _]; subst.
  destruct (triIf_wf st a b c W A B D) as [W1 N1].
  destruct (triIf_wf (createTriangleIfMissing st a b c) a b d) as [W2 N2]; try (rewrite ?N1; assumption).
  destruct (triIf_wf (createTriangleIfMissing (createTriangleIfMissing st a b c) a b d) a c d) as [W3 N3]; try (rewrite ?N2, ?N1; assumption).
  destruct (triIf_wf (createTriangleIfMissing (createTriangleIfMissing (createTriangleIfMissing st a b c) a b d) a c d) b c d) as [W4 N4];
    try (rewrite ?N3, ?N2, ?N1; assumption). split; [exact W4|congruence].
Qed.
Lemma frame_wf ad st t : wf_mesh (snd st) -> Forall (fun v => v < nVertices (snd st)) (ids3 t) ->
  wf_mesh (snd (frame ad st t)) /\ nVertices (snd (frame ad st t)) = nVertices (snd st).
Proof.
  intros W F. unfold frame. apply (ptrs_lt ad) in F.
  destruct (sortedVertexPtrs ad (ids3 t)) as [|a [|b [|c [|e r]]]]; auto. cbv zeta.
  inversion F as [|? ? A F1]; subst. inversion F1 as [|? ? B F2]; subst. inversion F2 as [|? ? D _]; subst.
  destruct (edgeIf_wf st a b W A B) as [W1 N1].
  destruct (edgeIf_wf (createEdgeIfMissing st a b) a c) as [W2 N2]; try (rewrite ?N1; assumption).
  destruct (edgeIf_wf (createEdgeIfMissing (createEdgeIfMissing st a b) a c) b c) as [W3 N3]; try (rewrite ?N2, ?N1; assumption).
  split; [exact W3|congruence].
Qed.
Lemma fold_wf {A S} (f : S * mesh -> A -> S * mesh) (ids : A -> list nat) n :
  (forall st t, wf_mesh (snd st) -> Forall (fun v => v < nVertices (snd st)) (ids t) -> wf_mesh (snd (f st t)) /\ nVertices (snd (f st t)) = nVertices (snd st)) ->
  forall l st, wf_mesh (snd st) -> nVertices (snd st) = n -> (forall t, In t l -> Forall (fun v => v < n) (ids t)) -> wf_mesh (snd (fold_left f l st)).
Proof.
  intros H l. induction l as [|t l IH]; intros st W N F; cbn; [exact W|].
  destruct (H st t W) as [W1 N1]; [rewrite N; apply F; left; reflexivity|].
  apply IH; [exact W1|congruence|intros; apply F; right; assumption].
Qed.
Lemma wf_preprocess t ad m : wf_mesh m -> wf_mesh (preprocess t ad m).
Proof.
  intros W. apply (wf_dup t) in W. unfold preprocess. revert W. generalize (removeDuplicates t m). clear m. intros m W.
  unfold generateImplicitPrimitives. destruct (_ && _); [exact W|]. cbv zeta.
  set (s1 := fold_left (triangulate ad) _ _).
  assert (W1 : wf_mesh (snd s1)).
  { apply (fold_wf (triangulate ad) ids4 (nVertices m)); auto using triangulate_wf.
    intros [[[a b] c] d] H. apply (wm_tets m W) in H. cbn. repeat constructor; lia. }
  apply (fold_wf (frame ad) ids3 (nVertices (snd s1))); auto using frame_wf.
  intros [[a b] c] H. apply (wm_tris _ W1) in H. cbn. repeat constructor; lia.
Qed.
Lemma order_split tol m a b c d y : wf_mesh m -> Forall (fun v => v < nVertices m) [a; b; c; d] ->
  addQuad tol m a b c d = QDone y -> wf_mesh y /\ nVertices y = nVertices m.
Proof.
  intros W F. unfold addQuad. destruct (negb _); [discriminate|]. destruct (negb _); [discriminate|].
  destruct (isConvexQuad tol _ _ _ _) as [| |[] o]; try discriminate.
  assert (IN : forall i, nth i [a; b; c; d] 0 < nVertices m).
  { inversion F as [|? ? A F1]; subst. inversion F1 as [|? ? B F2]; subst. inversion F2 as [|? ? D F3]; subst. inversion F3 as [|? ? E _]; subst.
    intros [|[|[|[|[|i]]]]]; cbn; auto; lia. }
  assert (AL : Forall (fun v => v < nVertices m) (map (fun i => nth i [a; b; c; d] 0) o)).
  { rewrite Forall_forall. intros x K. apply in_map_iff in K. destruct K as [i [<- _]]. apply IN. }
  destruct (map _ o) as [|q0 [|q1 [|q2 [|q3 [|? ?]]]]]; try discriminate. intros [= <-].
  inversion AL as [|? ? A F1]; subst. inversion F1 as [|? ? B F2]; subst. inversion F2 as [|? ? D F3]; subst. inversion F3 as [|? ? E _]; subst.
  unfold splitQuad. destruct (Qle_bool _ _); (split; [|reflexivity]); apply wf_tri; auto; apply wf_tri; auto.
Qed.

(** ** the participant *)
Section Mesh.
Context {C : Type}.
Variable W : world C.
Implicit Types s : state C.
Definition all_wf (dim : nat -> option nat) s : Prop := forall m x, lookup m (st_meshes s) = Some x -> wf_mesh (mx_mesh x) /\ dim m = Some (m_dim (mx_mesh x)).
Lemma put_wf dim s m y x : all_wf dim s -> lookup m (st_meshes s) = Some x -> m_dim y = m_dim (mx_mesh x) -> wf_mesh y -> all_wf dim (putMesh s m y).
Proof.
  intros A L D Y k z. rewrite lookup_put. destruct (Nat.eqb_spec m k) as [<-|N]; [|apply A].
  rewrite L. intros [= <-]. cbn. split; [exact Y|]. rewrite D. apply A. exact L.
Qed.
Lemma setup_wf dim e s : all_wf dim s -> (forall m d, dim m = Some d -> wf_mesh (in_meshes e m) /\ m_dim (in_meshes e m) = d) ->
  forall m x, lookup m (readied W s e) = Some x -> wf_mesh (mx_mesh x) /\ dim m = Some (m_dim (mx_mesh x)).
Proof.
  intros A R m x. unfold readied. rewrite receive_lookup.
  destruct (lookup m (st_meshes s)) as [c|] eqn:L; [|discriminate]. cbn [option_map]. destruct (A _ _ L) as [A1 A2].
  destruct (mx_provided c).
  - intros [= <-]. cbn. split; [apply wf_preprocess; exact A1|]. destruct (preprocess_verts (w_tol2 W) (w_addr W) (mx_mesh c)) as [_ ->]. exact A2.
  - intros [= <-]. cbn. destruct (R m _ A2) as [R1 R2]. rewrite R2. auto.
Qed.
Lemma valid_all m ids : validIDs m ids = true -> Forall (fun v => v < nVertices m) (zs ids).
Proof. apply zs_valid. Qed.

Lemma foldEdges_wf n l : forall m, nVertices m = n -> wf_mesh m -> Forall (fun v => v < n) l ->
  wf_mesh (fold_left (fun m e => createEdge m (fst e) (snd e)) (pairs l) m).
Proof.
  remember (length l) as k eqn:K. revert l K. induction k as [k IH] using lt_wf_ind. intros [|a [|b l]] K m N Y F; cbn; auto.
  inversion F as [|? ? A F1]; subst. inversion F1 as [|? ? B F2]; subst.
  apply (IH (length l)); auto; [cbn; lia|]. apply wf_edge; auto.
Qed.
Lemma foldTris_wf n l : forall m, nVertices m = n -> wf_mesh m -> Forall (fun v => v < n) l ->
  wf_mesh (fold_left (fun m t => let '(a, b, c) := t in createTriangle m a b c) (triples l) m).
Proof.
  remember (length l) as k eqn:K. revert l K. induction k as [k IH] using lt_wf_ind. intros [|a [|b [|c l]]] K m N Y F; cbn; auto.
  inversion F as [|? ? A F1]; subst. inversion F1 as [|? ? B F2]; subst. inversion F2 as [|? ? D F3]; subst.
  apply (IH (length l)); auto; [cbn; lia|]. apply wf_tri; auto.
Qed.
Lemma tets_wf l : forall m y, wf_mesh m -> Forall (fun v => v < nVertices m) l -> addTetrahedra m (quadruples l) = Some y -> wf_mesh y.
Proof.
  remember (length l) as k eqn:K. revert l K. induction k as [k IH] using lt_wf_ind. intros [|a [|b [|c [|d l]]]] K m y Y F H; cbn in H; try (injection H as <-; exact Y).
  destruct (createTetrahedron m a b c d) as [z|] eqn:E; [|discriminate].
  inversion F as [|? ? A F1]; subst. inversion F1 as [|? ? B F2]; subst. inversion F2 as [|? ? D F3]; subst. inversion F3 as [|? ? D2 F4]; subst.
  assert (N : nVertices z = nVertices m) by (apply createTet_same in E; unfold nVertices; f_equal; apply E).
  apply (IH (length l)) with (l := l) (m := z); auto; [cbn; lia| |rewrite N; exact F4]. eapply wf_tet; [exact Y|..|exact E]; assumption.
Qed.
Lemma quads_wf l : forall m, wf_mesh m -> Forall (fun v => v < nVertices m) l ->
  wf_mesh (fst (addQuads W m (quadruples l))) /\ (forall y, snd (addQuads W m (quadruples l)) = QDone y -> wf_mesh y).
Proof.
  remember (length l) as k eqn:K. revert l K. induction k as [k IH] using lt_wf_ind.
  intros [|a [|b [|c [|d l]]]] K m Y F; cbn; try (split; [exact Y|intros y [= <-]; exact Y]).
  inversion F as [|? ? A F1]; subst. inversion F1 as [|? ? B F2]; subst. inversion F2 as [|? ? D F3]; subst. inversion F3 as [|? ? D2 F4]; subst.
  destruct (addQuad (w_tol W) m a b c d) as [| |z] eqn:E; cbn; try (split; [exact Y|discriminate]).
  destruct (order_split _ m a b c d z Y ltac:(repeat (apply Forall_cons; [assumption|]); apply Forall_nil) E) as [Z1 Z2].
  apply (IH (length l)); auto; [cbn; lia|]. rewrite Z2. exact F4.
Qed.


Ltac gd H := apply ends_guard in H; let G := fresh "G" in destruct H as [[_ [_ ->]]|[G H]]; [assumption|].
Ltac fl H := apply ends_full in H; let G := fresh "G" in destruct H as [[_ [_ ->]]|[G H]]; [assumption|].
Lemma conn_wf s c r s' dim m : ends (step W s c) r s' -> edits c = Some m -> (forall p, c <> SetMeshVertex m p) ->
  (forall n ps, c <> SetMeshVertices m n ps) -> all_wf dim s -> all_wf dim s'.
Proof.
  intros H ED N1 N2 A.
  destruct c; try discriminate ED; injection ED as ->; try (exfalso; eapply N1; reflexivity); try (exfalso; eapply N2; reflexivity); cbn [step] in H.
  all: apply ends_modify in H; destruct H as [_ [[_ ->]|[x [[_ [L _]] H]]]]; [exact A|]; destruct (A _ _ L) as [WX DX].
  - fl H. gd H. apply ends_done in H. destruct H as [_ ->]. apply valid_all in G0. cbn in G0.
    inversion G0 as [|? ? A1 G1]; subst. inversion G1 as [|? ? B1 _]; subst.
    eapply put_wf; eauto. apply wf_edge; auto.
  - fl H. gd H. gd H. apply ends_done in H. destruct H as [_ ->].
    eapply put_wf; eauto; [apply (fold_mesh (fun m e => createEdge m (fst e) (snd e))); intros; split; reflexivity|].
    eapply foldEdges_wf; eauto. apply valid_all. assumption.
  - fl H. gd H. gd H. apply ends_done in H. destruct H as [_ ->]. apply valid_all in G0. cbn in G0.
    inversion G0 as [|? ? A1 G2]; subst. inversion G2 as [|? ? B1 G3]; subst. inversion G3 as [|? ? C1 _]; subst.
    eapply put_wf; eauto. apply wf_tri; auto.
  - fl H. gd H. gd H. apply ends_done in H. destruct H as [_ ->].
    eapply put_wf; eauto; [apply (fold_mesh (fun m t => let '(a, b, c) := t in createTriangle m a b c)); intros ? [[? ?] ?]; split; reflexivity|].
    eapply foldTris_wf; eauto. apply valid_all. assumption.
  - fl H. destruct (setMeshQuad (w_tol W) (mx_mesh x) a b c d) as [| |y] eqn:Q; [apply ends_fail in H; destruct H as [_ ->]; exact A|destruct (ends_crash _ _ H)|].
    apply ends_done in H. destruct H as [_ ->]. assert (S := setMeshQuad_same _ _ _ _ _ _ _ Q).
    eapply put_wf; eauto; [apply S|]. unfold setMeshQuad in Q. destruct (_ && _) eqn:V; [|discriminate].
    apply order_split in Q; [apply Q|exact WX|].
    apply (valid_all (mx_mesh x) [a; b; c; d]). cbn. rewrite andb_true_r. rewrite <- !andb_assoc in V. exact V.
  - fl H. gd H. gd H. apply valid_all in G1. destruct (quads_wf _ _ WX G1) as [Q1 Q2].
    destruct (addQuads_same W (quadruples (zs ids)) (mx_mesh x)) as [S1 S2].
    destruct (addQuads W (mx_mesh x) (quadruples (zs ids))) as [y [| |z]]; cbn in *; [| |].
    + apply ends_fail in H. destruct H as [_ ->]. eapply put_wf; eauto. apply S1.
    + destruct (ends_crash _ _ H).
    + apply ends_done in H. destruct H as [_ ->]. eapply put_wf; eauto. apply (S2 z eq_refl).
  - gd H. fl H. gd H. apply valid_all in G1. cbn in G1.
    inversion G1 as [|? ? A1 G2]; subst. inversion G2 as [|? ? B1 G3]; subst. inversion G3 as [|? ? C1 G4]; subst. inversion G4 as [|? ? D1 _]; subst.
    destruct (createTetrahedron _ _ _ _ _) as [y|] eqn:Y; [|destruct (ends_crash _ _ H)]. apply ends_done in H. destruct H as [_ ->].
    assert (S := createTet_same _ _ _ _ _ _ Y). eapply put_wf; eauto; [apply S|]. eapply wf_tet; [exact WX|..|exact Y]; assumption.
  - gd H. fl H. gd H. gd H. apply valid_all in G2.
    destruct (addTetrahedra _ _) as [y|] eqn:Y; [|destruct (ends_crash _ _ H)]. apply ends_done in H. destruct H as [_ ->].
    assert (S := addTets_same _ _ _ Y). eapply put_wf; eauto; [apply S|]. eapply tets_wf; eauto.
Qed.

Lemma wf_step s0 h s c r s' dim : inv s0 h s -> ends (step W s c) r s' -> all_wf dim s ->
  (forall e, (c = Initialize (Some e) \/ exists dt p, c = Advance dt p (Some e)) ->
     forall m d, dim m = Some d -> wf_mesh (in_meshes e m) /\ m_dim (in_meshes e m) = d) ->
  all_wf dim s'.
Proof.
  intros I H A R. assert (E := step_effect W _ _ _ _ H).
  assert (ND : NoDup (map fst (st_meshes s))).
  { destruct (i_alike _ _ _ I) as [B _]. rewrite B. apply (i_nodup _ _ _ I). }
  destruct E as [c|c r IC|c a r IC|dt p e c b PH AT|c r n IC|c r m1 b IC PH ER|c r m1 x1 y IC ED OP SV RU
    |c m1 x1 ps y OP CV CC|m1 x1 l RM PH LK ON CO UL|m1 d PH|m1 d ids vs x1 w PH LK FW LE VA LB|e s' r PH IZ|dt p e s' r PH ON DT AD|s' r PH FI].
  1-5: exact A.
  - intros k z L. cbn in L. rewrite lookup_alter in L. destruct (m1 =? k); [|apply A; exact L].
    destruct (lookup k (st_meshes s)) as [u|] eqn:U; [|discriminate]. injection L as <-. cbn. apply A. exact U.
  - eapply conn_wf; [exact H|exact ED|..|exact A]; intros; intros ->; discriminate IC.
  - destruct OP as [PF [LX [PX LO]]]. destruct (A _ _ LX) as [WX DX].
    destruct (createVertices_ok _ _ _ CV) as (V1&V2&V3).
    change (all_wf dim (putMesh s m1 y)). eapply put_wf; eauto. eapply wf_verts; eauto.
  - change (all_wf dim (putMesh s m1 (clearMesh (mx_mesh x1)))). destruct (A _ _ LK) as [WX DX]. eapply put_wf; eauto.
    constructor; cbn; try contradiction. apply (wm_dim _ WX).
  - exact A.
  - exact A.
  - destruct (init_shape W _ _ _ _ IZ ND) as (_&_&_&_&_&_&_&P8&_). intros k z. rewrite P8. apply setup_wf; [exact A|]. apply R. left. reflexivity.
  - destruct (adv_shape W _ _ _ _ _ _ AD ND) as [c [atEnd (A0&P1&P2&P3&P4&P5&P6&P7&P8&P9&P10&P11&_)]].
    intros k z. rewrite P11. destruct (redo s p atEnd); [|apply A]. apply setup_wf; [exact A|]. apply R. right. eauto.
  - unfold finalize in FI. destruct (st_phase s); [injection FI as <- <-; exact A..|congruence].
Qed.
Lemma happens_wf s0 h s dim : started s0 -> happens W s0 h s -> all_wf dim s0 -> received_wf dim h -> all_wf dim s.
Proof.
  intros ST H A. induction H as [|h s c s' r H IH E|h s c s' H IH E]; intros R; [exact A| |].
  all: destruct (P_ApiVal.happens_inv W _ _ _ ST H) as [I _].
  all: assert (A1 : all_wf dim s) by (apply IH; intros c0 r0 m d K; apply (R c0 r0 m d); apply in_app_iff; auto).
  - eapply (wf_step _ _ _ _ (Some r)); [exact I|exact E|exact A1|]. intros e K m d D. eapply R; [apply in_app_iff; right; left; reflexivity|exact D|exact K].
  - eapply (wf_step _ _ _ _ None); [exact I|exact E|exact A1|]. intros e K m d D. eapply R; [apply in_app_iff; right; left; reflexivity|exact D|exact K].
Qed.

(** ** what the calls add *)
Lemma in_range m z : (0 <= z < Z.of_nat (nVertices m))%Z -> Z.to_nat z < nVertices m /\ Z.of_nat (Z.to_nat z) = z.
Proof. intros. split; [lia|apply Z2Nat.id; lia]. Qed.
Lemma of_to l n : Forall (fun z => 0 <= z < Z.of_nat n)%Z l -> map Z.of_nat (map Z.to_nat l) = l /\ Forall (fun v => v < n) (map Z.to_nat l).
Proof. induction 1 as [|z l H _ [IH1 IH2]]; cbn; [auto|]. rewrite IH1, Z2Nat.id by lia. split; [reflexivity|]. constructor; [lia|exact IH2]. Qed.
Lemma elem_perm n l z : Forall (fun z => 0 <= z < Z.of_nat n)%Z z -> StronglySorted le l -> Permutation l (map Z.to_nat z) -> element n l z.
Proof.
  intros R S P. destruct (of_to z n R) as [O1 O2]. split; [exact S|]. split.
  - rewrite P, O1. reflexivity.
  - rewrite P. exact O2.
Qed.
Lemma sorted2 a b : StronglySorted le (corners2 (sort2 a b)).
Proof. unfold sort2. destruct (Nat.ltb_spec b a); cbn; repeat constructor; lia. Qed.
Lemma elem2 n a b : Forall (fun z => 0 <= z < Z.of_nat n)%Z [a; b] -> element n (corners2 (sort2 (Z.to_nat a) (Z.to_nat b))) [a; b].
Proof.
  intros R. apply elem_perm; [exact R|apply sorted2|]. assert (P := sort2_perm (Z.to_nat a) (Z.to_nat b)).
  destruct (sort2 _ _). exact P.
Qed.
Lemma elem3 n a b c : Forall (fun z => 0 <= z < Z.of_nat n)%Z [a; b; c] -> element n (corners3 (sort3 (Z.to_nat a) (Z.to_nat b) (Z.to_nat c))) [a; b; c].
Proof.
  intros R. apply elem_perm; [exact R|exact (sort3_srt _ _ _)|]. apply (sort3_spec (Z.to_nat a) (Z.to_nat b) (Z.to_nat c)).
Qed.
Lemma elem4 n a b c d : Forall (fun z => 0 <= z < Z.of_nat n)%Z [a; b; c; d] -> element n (corners4 (sort4 (Z.to_nat a) (Z.to_nat b) (Z.to_nat c) (Z.to_nat d))) [a; b; c; d].
Proof.
  intros R. destruct (sort4_spec (Z.to_nat a) (Z.to_nat b) (Z.to_nat c) (Z.to_nat d)) as [P S]. apply elem_perm; assumption.
Qed.
Lemma groups_step {A} n (x l : list A) : length x = n -> 0 < n -> groups n (x ++ l) = x :: groups n l.
Proof.
  intros L P. unfold groups. rewrite app_length, L.
  assert (E : (n + length l) / n = S (length l / n)).
  { replace (n + length l) with (1 * n + length l) by lia. rewrite Nat.div_add_l by lia. reflexivity. }
  rewrite E.
  cbn [groups_of]. f_equal.
  - rewrite firstn_app, L, Nat.sub_diag, firstn_O, app_nil_r. apply firstn_all2. lia.
  - f_equal. rewrite skipn_app, L, Nat.sub_diag. rewrite skipn_all2 by lia. reflexivity.
Qed.
Lemma groups_short {A} n (l : list A) : length l < n -> groups n l = [].
Proof. intros L. unfold groups. rewrite Nat.div_small by exact L. reflexivity. Qed.
Lemma short_mod {A} n (l : list A) : length l < n -> length l mod n = 0 -> l = [].
Proof. intros L. rewrite Nat.mod_small by exact L. destruct l; [reflexivity|discriminate]. Qed.
Lemma mod_step n k : (n + k) mod n = 0 -> 0 < n -> k mod n = 0.
Proof. intros H P. replace (n + k) with (k + 1 * n) in H by lia. rewrite Nat.mod_add in H by lia. exact H. Qed.
Ltac inv4 F := repeat match goal with K : Forall _ (_ :: _) |- _ => inversion K; subst; clear K end.
Lemma edges_added n ids : Forall (fun z => 0 <= z < Z.of_nat n)%Z ids -> length ids mod 2 = 0 -> forall m,
  exists es, fold_left (fun m e => createEdge m (fst e) (snd e)) (pairs (zs ids)) m = setEdges m (m_edges m ++ es) /\ Forall2 (fun e g => element n (corners2 e) g) es (groups 2 ids).
Proof.
  remember (length ids) as k eqn:K. revert ids K. induction k as [k IH] using lt_wf_ind. intros [|a [|b l]] K F M m.
  - exists []. rewrite app_nil_r. split; [destruct m; reflexivity|constructor].
  - subst k. discriminate.
  - subst k. inversion F as [|? ? F1 F2]; subst. inversion F2 as [|? ? F3 F4]; subst.
    destruct (IH (length l) ltac:(cbn; lia) l eq_refl F4 (mod_step 2 (length l) M ltac:(lia)) (createEdge m (Z.to_nat a) (Z.to_nat b))) as [es [E1 E2]].
    exists (sort2 (Z.to_nat a) (Z.to_nat b) :: es). cbn [zs map pairs fold_left fst snd]. fold (zs l). rewrite E1.
    split; [unfold createEdge; cbn; rewrite <- app_assoc; reflexivity|].
    change (a :: b :: l) with ([a; b] ++ l). rewrite groups_step by (reflexivity || lia). constructor; [|exact E2]. apply elem2. repeat (apply Forall_cons; [assumption|]); apply Forall_nil.
Qed.
Lemma tris_added n ids : Forall (fun z => 0 <= z < Z.of_nat n)%Z ids -> length ids mod 3 = 0 -> forall m,
  exists es, fold_left (fun m t => let '(a, b, c) := t in createTriangle m a b c) (triples (zs ids)) m = setTris m (m_tris m ++ es) /\ Forall2 (fun e g => element n (corners3 e) g) es (groups 3 ids).
Proof.
  remember (length ids) as k eqn:K. revert ids K. induction k as [k IH] using lt_wf_ind. intros [|a [|b [|c l]]] K F M m.
  - exists []. rewrite app_nil_r. split; [destruct m; reflexivity|constructor].
  - subst k. discriminate.
  - subst k. discriminate.
  - subst k. inversion F as [|? ? F1 F2]; subst. inversion F2 as [|? ? F3 F4]; subst. inversion F4 as [|? ? F5 F6]; subst.
    destruct (IH (length l) ltac:(cbn; lia) l eq_refl F6 (mod_step 3 (length l) M ltac:(lia)) (createTriangle m (Z.to_nat a) (Z.to_nat b) (Z.to_nat c))) as [es [E1 E2]].
    exists (sort3 (Z.to_nat a) (Z.to_nat b) (Z.to_nat c) :: es). cbn [zs map triples fold_left]. fold (zs l). rewrite E1.
    split; [unfold createTriangle; cbn [m_tris setTris]; rewrite <- app_assoc; reflexivity|].
    change (a :: b :: c :: l) with ([a; b; c] ++ l). rewrite groups_step by (reflexivity || lia). constructor; [|exact E2]. apply elem3. repeat (apply Forall_cons; [assumption|]); apply Forall_nil.
Qed.
Lemma tets_added n ids : Forall (fun z => 0 <= z < Z.of_nat n)%Z ids -> length ids mod 4 = 0 -> forall m y, addTetrahedra m (quadruples (zs ids)) = Some y ->
  exists es, y = setTets m (m_tets m ++ es) /\ Forall2 (fun e g => element n (corners4 e) g) es (groups 4 ids).
Proof.
  remember (length ids) as k eqn:K. revert ids K. induction k as [k IH] using lt_wf_ind. intros [|a [|b [|c [|d l]]]] K F M m y H.
  - exists []. injection H as <-. rewrite app_nil_r. split; [destruct m; reflexivity|constructor].
  - subst k. discriminate.
  - subst k. discriminate.
  - subst k. discriminate.
  - subst k. inversion F as [|? ? F1 F2]; subst. inversion F2 as [|? ? F3 F4]; subst. inversion F4 as [|? ? F5 F6]; subst. inversion F6 as [|? ? F7 F8]; subst.
    cbn [zs map quadruples addTetrahedra] in H. fold (zs l) in H.
    destruct (createTetrahedron m _ _ _ _) as [z|] eqn:Z; [|discriminate].
    destruct (IH (length l) ltac:(cbn; lia) l eq_refl F8 (mod_step 4 (length l) M ltac:(lia)) z y H) as [es [E1 E2]].
    unfold createTetrahedron in Z. destruct (_ && _); [|discriminate]. injection Z as <-.
    exists (sort4 (Z.to_nat a) (Z.to_nat b) (Z.to_nat c) (Z.to_nat d) :: es). 
    split; [rewrite E1; cbn [m_tets setTets]; rewrite <- app_assoc; reflexivity|].
    change (a :: b :: c :: d :: l) with ([a; b; c; d] ++ l). rewrite groups_step by (reflexivity || lia). constructor; [|exact E2]. apply elem4. repeat (apply Forall_cons; [assumption|]); apply Forall_nil.
Qed.

(** ** regions *)
Lemma region_step s0 h s c r s' : inv s0 h s -> ends (step W s c) r s' -> (forall m b, c <> SetMeshAccessRegion m b) ->
  forall m, option_map mx_region (lookup m (st_meshes s')) = option_map mx_region (lookup m (st_meshes s)).
Proof.
  intros I H N m. assert (E := step_effect W _ _ _ _ H).
  assert (ND : NoDup (map fst (st_meshes s))).
  { destruct (i_alike _ _ _ I) as [B _]. rewrite B. apply (i_nodup _ _ _ I). }
  assert (RD : forall e, option_map mx_region (lookup m (readied W s e)) = option_map mx_region (lookup m (st_meshes s))).
  { intros e. unfold readied. rewrite receive_lookup. destruct (lookup m (st_meshes s)) as [x|]; [|reflexivity]. cbn. destruct (mx_provided x); reflexivity. }
  assert (PU : forall m1 y, option_map mx_region (lookup m (st_meshes (putMesh s m1 y))) = option_map mx_region (lookup m (st_meshes s))).
  { intros. rewrite lookup_put. destruct (m1 =? m); [|reflexivity]. destruct (lookup m (st_meshes s)); reflexivity. }
  destruct E as [c|c r IC|c a r IC|dt p e c b PH AT|c r n IC|c r m1 b IC PH [bs [x [ER _]]]|c r m1 x1 y IC ED OP SV RU
    |c m1 x1 ps y OP CV CC|m1 x1 l RM PH LK ON CO UL|m1 d PH|m1 d ids vs x1 w PH LK FW LE VA LB|e s' r PH IZ|dt p e s' r PH ON DT AD|s' r PH FI].
  1-5: reflexivity.
  - exfalso. eapply N. exact ER.
  - apply PU.
  - apply (PU m1 y).
  - apply (PU m1 (clearMesh (mx_mesh x1))).
  - reflexivity.
  - reflexivity.
  - destruct (init_shape W _ _ _ _ IZ ND) as (_&_&_&_&_&_&_&P8&_). rewrite P8. apply RD.
  - destruct (adv_shape W _ _ _ _ _ _ AD ND) as [c [atEnd (A0&P1&P2&P3&P4&P5&P6&P7&P8&P9&P10&P11&_)]].
    rewrite P11. destruct (redo s p atEnd); [apply RD|reflexivity].
  - unfold finalize in FI. destruct (st_phase s); [injection FI as <- <-; reflexivity..|congruence].
Qed.
Definition box_of (b : list Q) : box := MkBox (evens b) (odds b).
Definition regions_ok (dim : nat -> option nat) (h : @history C) s : Prop := forall m x, lookup m (st_meshes s) = Some x ->
  mx_region x = option_map box_of (region m h) /\
  forall b, region m h = Some b -> exists d, dim m = Some d /\ length b = d * 2.
Lemma region_snoc m (h : @history C) x : region m (h ++ [x]) = region1 m (region m h) x.
Proof. unfold region. rewrite fold_left_app. reflexivity. Qed.
Lemma happens_regions s0 h s dim : started s0 -> happens W s0 h s -> all_wf dim s0 -> received_wf dim h -> regions_ok dim h s.
Proof.
  intros ST H A. induction H as [|h s c s' r H IH E|h s c s' H IH E]; intros R.
  - intros m x L. destruct (sd_empty _ ST m x L) as (_&_&->). split; [reflexivity|discriminate].
  - assert (R1 : received_wf dim h) by (intros c0 r0 m d K; apply (R c0 r0 m d); apply in_app_iff; auto).
    specialize (IH R1). destruct (P_ApiVal.happens_inv W _ _ _ ST H) as [I _].
    assert (AW := happens_wf _ _ _ _ ST H A R1).
    assert (CS : (exists m b, c = SetMeshAccessRegion m b) \/ (forall m b, c <> SetMeshAccessRegion m b)).
    { destruct c; try (right; intros; discriminate). left. eauto. }
    destruct CS as [[m [b ->]]|N].
    + assert (H' : ends (setRegionOf s m b) (Some r) s') by exact E. unfold setRegionOf in H'.
      apply ends_use in H'. destruct H' as [_ [[_ [? _]]|[x [LX H']]]]; [discriminate|].
      do 5 (apply ends_guard in H'; destruct H' as [[_ [? _]]|[? H']]; [discriminate|]).
      destruct (boxOfBounds b) as [bb|] eqn:BB; [|destruct (ends_crash _ _ H')]. apply ends_done in H'. destruct H' as [_ ->].
      match goal with K : (length b =? _) = true |- _ => apply Nat.eqb_eq in K end.
      assert (bb = box_of b) as -> by (unfold boxOfBounds in BB; destruct (_ || _); [injection BB as <-; reflexivity|discriminate]).
      intros k z L. cbn in L. rewrite lookup_alter in L. rewrite region_snoc. cbn [region1].
      destruct (Nat.eqb_spec m k) as [<-|NK].
      * rewrite LX in L. injection L as <-. cbn. split; [reflexivity|]. intros b' [= <-]. destruct (AW _ _ LX) as [_ D]. eauto.
      * apply IH. exact L.
    + assert (RS := region_step _ _ _ _ (Some r) _ I E N). intros m x L. rewrite region_snoc.
      assert (Q : region1 m (region m h) (c, Some r) = region m h) by (destruct c; try reflexivity; exfalso; eapply N; reflexivity).
      rewrite Q. specialize (RS m). rewrite L in RS. destruct (lookup m (st_meshes s)) as [y|] eqn:Y; [|discriminate].
      injection RS as RS. rewrite RS. apply IH. exact Y.
  - assert (R1 : received_wf dim h) by (intros c0 r0 m d K; apply (R c0 r0 m d); apply in_app_iff; auto).
    specialize (IH R1). destruct (P_ApiVal.happens_inv W _ _ _ ST H) as [I _].
    intros m x L. rewrite region_snoc. assert (Q : region1 m (region m h) (c, None) = region m h) by (destruct c; reflexivity). rewrite Q.
    assert (EF := step_effect W s c None s' E).
    assert (CS : (exists m b, c = SetMeshAccessRegion m b) \/ (forall m b, c <> SetMeshAccessRegion m b)).
    { destruct c; try (right; intros; discriminate). left. eauto. }
    destruct CS as [[m' [b ->]]|N].
    + assert (s' = s) as ->; [|apply IH; exact L].
      inversion EF; subst; try reflexivity. match goal with K : edits _ = _ |- _ => discriminate K end.
    + assert (RS := region_step _ _ _ _ None _ I E N). specialize (RS m). rewrite L in RS. destruct (lookup m (st_meshes s)) as [y|] eqn:Y; [|discriminate].
      injection RS as RS. rewrite RS. apply IH. exact Y.
Qed.
End Mesh.
Lemma evens_odds (b : list Q) : forall d, length b = d * 2 -> length (evens b) = d /\ length (odds b) = d /\
  forall i, nth i (evens b) 0%Q = nth (2 * i) b 0%Q /\ nth i (odds b) 0%Q = nth (2 * i + 1) b 0%Q.
Proof.
  remember (length b) as k eqn:K. revert b K. induction k as [k IH] using lt_wf_ind. intros [|x [|y l]] K d D; subst k.
  - cbn in D. destruct d; [|discriminate]. repeat split; destruct i as [|i]; reflexivity.
  - cbn in D. lia.
  - destruct d as [|d]; [discriminate|]. destruct (IH (length l) ltac:(cbn; lia) l eq_refl d ltac:(cbn in D; lia)) as (L1&L2&N).
    cbn [evens odds length]. split; [congruence|]. split; [congruence|]. intros [|i]; [split; reflexivity|].
    replace (2 * S i) with (S (S (2 * i))) by lia. cbn [nth Nat.add]. apply N.
Qed.
Lemma F2_nth (l r : list Q) : length l = length r -> (Forall2 Qle l r <-> forall i, i < length l -> (nth i l 0 <= nth i r 0)%Q).
Proof.
  revert r. induction l as [|x l IH]; intros [|y r] L; try discriminate; [split; [intros; cbn in *; lia|constructor]|]. split.
  - intros H. inversion H; subst. intros [|i] Li; cbn; [assumption|]. apply (proj1 (IH r ltac:(cbn in L; lia))); [assumption|cbn in Li; lia].
  - intros H. constructor; [apply (H 0); cbn; lia|]. apply IH; [cbn in L; lia|]. intros i Li. apply (H (S i)). cbn. lia.
Qed.
Lemma region_inside d b p : length b = d * 2 -> length p = d -> (inside p (box_of b) <-> in_region (Some b) p).
Proof.
  intros L P. destruct (evens_odds b d L) as (L1&L2&N). unfold inside, in_region. cbn [box_of b_min b_max].
  rewrite !F2_nth by congruence. split.
  - intros [H1 H2] i x E. assert (LI : i < d) by (rewrite <- P; apply nth_error_Some; congruence).
    rewrite <- (proj1 (N i)), <- (proj2 (N i)). assert (EX := nth_error_nth p i 0%Q E). rewrite <- EX. split; [apply H1; lia|apply H2; lia].
  - intros H. split; intros i LI; (assert (LP : i < length p) by lia); destruct (nth_error p i) as [x|] eqn:E; try (apply nth_error_None in E; lia);
      destruct (H i x E) as [H1 H2]; rewrite (nth_error_nth p i 0%Q E).
    + rewrite (proj1 (N i)). exact H1.
    + rewrite (proj2 (N i)). exact H2.
Qed.
Lemma inRegion_iff d b v : length b = d * 2 -> length (v_coords v) = d -> (inRegion (box_of b) v = true <-> in_region (Some b) (v_coords v)).
Proof.
  intros L P. rewrite <- (region_inside d b _ L P). destruct (evens_odds b d L) as (L1&L2&N). unfold inRegion.
  rewrite <- contains_ok; cbn; unfold b_dim; cbn; try congruence.
  destruct (contains (box_of b) (v_coords v)) as [[]|]; split; congruence.
Qed.
Lemma numbered_in l i v : In (i, v) (numbered l) <-> nth_error l i = Some v.
Proof.
  unfold numbered. assert (G : forall k, In (i, v) (combine (seq k (length l)) l) <-> k <= i /\ nth_error l (i - k) = Some v).
  { induction l as [|x l IH]; intros k; cbn.
    - split; [intros []|intros [_ H]; destruct (i - k); discriminate].
    - rewrite IH. split.
      + intros [[= -> ->]|[H1 H2]]; [rewrite Nat.sub_diag; auto|]. split; [lia|]. replace (i - k) with (S (i - S k)) by lia. exact H2.
      + intros [H1 H2]. destruct (Nat.eq_dec i k) as [->|NE]; [rewrite Nat.sub_diag in H2; injection H2 as ->; auto|].
        right. split; [lia|]. replace (i - k) with (S (i - S k)) in H2 by lia. exact H2. }
  rewrite (G 0), Nat.sub_0_r. split; [intros [_ H]; exact H|intros H; split; [lia|exact H]].
Qed.
Lemma numbered_fst l : map fst (numbered l) = seq 0 (length l).
Proof.
  unfold numbered. generalize 0. induction l as [|x l IH]; intros k; cbn; [reflexivity|]. rewrite IH. reflexivity.
Qed.
Lemma seq_sorted n : forall k, StronglySorted lt (seq k n).
Proof. induction n as [|n IH]; intros k; cbn; constructor; [apply IH|]. rewrite Forall_forall. intros x H. apply in_seq in H. lia. Qed.
Lemma filter_sorted {A} (f : nat * A -> bool) l : StronglySorted lt (map fst l) -> StronglySorted lt (map fst (filter f l)).
Proof.
  induction l as [|x l IH]; cbn; [auto|]. intros H. inversion H as [|? ? H1 H2]; subst. destruct (f x); [|auto]. cbn. constructor; [auto|].
  rewrite Forall_forall in *. intros y K. apply H2. apply in_map_iff in K. destruct K as [z [<- K]]. apply filter_In in K. apply in_map. apply K.
Qed.
Lemma numbered_filter (p : vertex -> bool) l : length (filter (fun x => p (snd x)) (numbered l)) = length (filter p l).
Proof.
  unfold numbered. generalize 0. induction l as [|x l IH]; intros k; cbn; [reflexivity|]. destruct (p x); cbn; rewrite IH; reflexivity.
Qed.
