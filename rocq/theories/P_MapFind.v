(** Searching for the element to interpolate from: proofs. *)
From Coq Require Import ZArith QArith Bool List Arith Lia Lqa Qfield.
From Verif Require Import M_Mesh M_Prep M_Box M_Quad M_Map S_Mesh S_Map P_Bary P_Map.
Import ListNotations.
Open Scope nat_scope.

Lemma nth_combination n ws ps k : k < n -> nth k (combination n ws ps) 0%Q = combo ws ps k.
Proof.
  intro K. unfold combination. rewrite (nth_indep _ 0%Q (combo ws ps 0)) by (rewrite map_length, seq_length; auto).
  rewrite map_nth, seq_nth by auto. reflexivity.
Qed.
Lemma vscale_nth w a k : (nth k (vscale w a) 0 == nth k a 0 * w)%Q.
Proof.
  unfold vscale. destruct (Nat.lt_ge_cases k (length a)) as [L|G].
  - rewrite (nth_indep _ 0%Q (0 * w)%Q) by (rewrite map_length; auto).
    rewrite (map_nth (fun x => x * w)%Q). reflexivity.
  - rewrite !nth_overflow by (rewrite ?map_length; auto). ring.
Qed.
Lemma vscale_length w a : length (vscale w a) = length a.
Proof. apply map_length. Qed.
Lemma vadd_length a b : length a = length b -> length (vadd a b) = length a.
Proof. intro L. unfold vadd, map2. rewrite map_length, combine_length. lia. Qed.
Lemma vadd_nth : forall a b k, length a = length b -> (nth k (vadd a b) 0 == nth k a 0 + nth k b 0)%Q.
Proof.
  induction a as [|x a IH]; intros [|y b] k L; cbn [length] in L; try discriminate.
  - destruct k; cbn; ring.
  - destruct k as [|k]; [cbn; ring|]. change (nth (S k) (vadd (x :: a) (y :: b)) 0%Q) with (nth k (vadd a b) 0%Q). cbn [nth].
    apply IH. lia.
Qed.
Lemma dist2_sqdist n u x : length u = n -> length x = n -> (dist2 u x == sqdist n u x)%Q.
Proof. intros A B. unfold dist2, qsub. rewrite (vdot_sub n) by auto. reflexivity. Qed.
Lemma sqdist_ext n u x y : (forall k, k < n -> (nth k x 0 == nth k y 0)%Q) -> (sqdist n u x == sqdist n u y)%Q.
Proof. intro H. unfold sqdist. apply qsum_ext. intros k K. rewrite (H k K). reflexivity. Qed.

Section Tol.
Variable eps : Q.
Hypothesis Heps : (0 <= eps)%Q.

Section OnMesh.
Variable s : mesh.
Hypothesis wf : wf_mesh s.

Definition ws (p : polation) : list Q := map snd (p_elems p).
Definition ps (p : polation) : list (list Q) := map (fun we => position s (fst we)) (p_elems p).

Record pol_ok (u : list Q) (p : polation) : Prop := {
  po_in : forall we, In we (p_elems p) -> fst we < nVertices s;
  po_sum : (total (ws p) == 1)%Q;
  po_len : length (p_elems p) <= 4;
  po_pos : forall we, In we (p_elems p) -> (- eps <= snd we)%Q;
  po_foot : foot (m_dim s) u (ws p) (ps p);
  po_dist : (p_dist2 p == sqdist (m_dim s) u (combination (m_dim s) (ws p) (ps p)))%Q
}.

Lemma position_length v : v < nVertices s -> length (position s v) = m_dim s.
Proof.
  intro L. unfold position. destruct (nth_error (m_verts s) v) as [x|] eqn:E.
  - apply (wm_coords s wf). eapply nth_error_In; eauto.
  - apply nth_error_None in E. unfold nVertices in L. lia.
Qed.

Lemma isInterp p : isInterpolation eps p = true <-> forall we, In we (p_elems p) -> (- eps <= snd we)%Q.
Proof.
  unfold isInterpolation. rewrite forallb_forall. split; intros H we W.
  - assert (A := H we W). apply Qle_bool_iff in A. lra.
  - apply Qle_bool_iff. assert (A := H we W). lra.
Qed.

Lemma vertex_pol u v : length u = m_dim s -> v < nVertices s -> pol_ok u (polVertex s u v).
Proof.
  intros U V. split; cbn [polVertex p_elems p_dist2 ws ps map fst snd].
  - intros we [<-|[]]. exact V.
  - cbn. ring.
  - cbn. lia.
  - intros we [<-|[]]. cbn. lra.
  - intros p q P Q0. cbn in P, Q0. destruct P as [<-|[]], Q0 as [<-|[]].
    rewrite (qsum_ext _ _ (fun _ => 0)%Q) by (intros; ring). apply qsum_zero.
  - change (coordsOf s v) with (position s v).
    rewrite (dist2_sqdist (m_dim s)) by (auto; apply position_length; auto).
    apply sqdist_ext. intros k K. rewrite nth_combination by auto. unfold combo. cbn. ring.
Qed.

Lemma edge_pol u a b p : length u = m_dim s -> In (a, b) (m_edges s) ->
  polEdge s u (a, b) = Pol p -> isInterpolation eps p = true -> pol_ok u p.
Proof.
  intros U E H I. destruct (wm_edges s wf a b E) as (AB & B). assert (A : a < nVertices s) by lia.
  assert (LA := position_length a A). assert (LB := position_length b B).
  unfold polEdge in H. change (coordsOf s a) with (position s a) in H. change (coordsOf s b) with (position s b) in H.
  destruct (edge_core (m_dim s) (position s a) (position s b) u LA LB U) as (w0 & w1 & EB & S & F & _).
  { destruct (baryEdge _ _ _); congruence. }
  rewrite EB in H. injection H as <-. pose proof (proj1 (isInterp _) I) as I'. split; cbn [p_elems p_dist2 ws ps map fst snd] in *; auto.
  - intros we [<-|[<-|[]]]; cbn; lia.
  - cbn. lra.
  - rewrite (dist2_sqdist (m_dim s)); auto.
    2:{ rewrite vadd_length; rewrite !vscale_length; congruence. }
    apply sqdist_ext. intros k K. rewrite nth_combination by auto. unfold combo. cbn [combine map total fold_right fst snd].
    rewrite vadd_nth by (rewrite !vscale_length; congruence). rewrite !vscale_nth. ring.
Qed.

(** corners of a triangle in two dimensions: the point itself is represented *)
Lemma foot_exact n u w p : (forall k, k < n -> (combo w p k == nth k u 0)%Q) -> foot n u w p.
Proof.
  intros H x y X Y. rewrite (qsum_ext n _ (fun _ => 0)%Q); [apply qsum_zero|]. intros k K. rewrite (H k K). ring.
Qed.

Lemma tri_pol u a b c p : length u = m_dim s -> In (a, b, c) (m_tris s) ->
  polTriangle s u (a, b, c) = Pol p -> isInterpolation eps p = true ->
  pol_ok u p /\ (m_dim s = 2 -> forall k, k < 2 -> (combo (ws p) (ps p) k == nth k u 0)%Q).
Proof.
  intros U E H I. destruct (wm_tris s wf a b c E) as (AB & BC & C).
  assert (A : a < nVertices s) by lia. assert (B : b < nVertices s) by lia.
  assert (LA := position_length a A). assert (LB := position_length b B). assert (LC := position_length c C).
  unfold polTriangle in H. change (coordsOf s a) with (position s a) in H. change (coordsOf s b) with (position s b) in H.
  change (coordsOf s c) with (position s c) in H.
  assert (NN : baryTriangle (position s a) (position s b) (position s c) u <> None) by (destruct (baryTriangle _ _ _ _); congruence).
  assert (exists w0 w1 w2, baryTriangle (position s a) (position s b) (position s c) u = Some (w0, w1, w2) /\ (w0 + w1 + w2 == 1)%Q /\
    foot (m_dim s) u [w0; w1; w2] [position s a; position s b; position s c] /\
    (m_dim s = 2 -> forall k, k < 2 -> (combo [w0; w1; w2] [position s a; position s b; position s c] k == nth k u 0)%Q)) as (w0 & w1 & w2 & EB & S & F & X).
  { destruct (wm_dim s wf) as [D|D]; rewrite D in *.
    - destruct (tri2_core _ _ _ u LA LB LC U NN) as (w0 & w1 & w2 & EB & S & F & _).
      exists w0, w1, w2. split; [exact EB|]. split; [exact S|]. split; [apply foot_exact; exact F|auto].
    - destruct (tri3_core _ _ _ u LA LB LC U NN) as (w0 & w1 & w2 & EB & S & F & _).
      exists w0, w1, w2. split; [exact EB|]. split; [exact S|]. split; [exact F|discriminate]. }
  rewrite EB in H. injection H as <-. pose proof (proj1 (isInterp _) I) as I'. split; [|exact X].
  split; cbn [p_elems p_dist2 ws ps map fst snd] in *; auto.
  - intros we [<-|[<-|[<-|[]]]]; cbn; lia.
  - cbn. lra.
  - rewrite (dist2_sqdist (m_dim s)); auto.
    2:{ rewrite !vadd_length; rewrite ?vadd_length; rewrite !vscale_length; congruence. }
    apply sqdist_ext. intros k K. rewrite nth_combination by auto. unfold combo. cbn [combine map total fold_right fst snd].
    rewrite !vadd_nth by (rewrite ?vadd_length; rewrite !vscale_length; congruence). rewrite !vscale_nth. ring.
Qed.

Lemma tet_pol u a b c d p : length u = m_dim s -> In (a, b, c, d) (m_tets s) ->
  polTetra s u (a, b, c, d) = Pol p -> isInterpolation eps p = true ->
  pol_ok u p /\ (forall k, k < 3 -> (combo (ws p) (ps p) k == nth k u 0)%Q).
Proof.
  intros U E H I. destruct (wm_tets s wf a b c d E) as (AB & BC & CD & D & D3).
  assert (A : a < nVertices s) by lia. assert (B : b < nVertices s) by lia. assert (C : c < nVertices s) by lia.
  assert (LA := position_length a A). assert (LB := position_length b B). assert (LC := position_length c C). assert (LD := position_length d D).
  unfold polTetra in H. change (coordsOf s a) with (position s a) in H. change (coordsOf s b) with (position s b) in H.
  change (coordsOf s c) with (position s c) in H. change (coordsOf s d) with (position s d) in H.
  rewrite D3 in *.
  destruct (tetra_core _ _ _ _ u LA LB LC LD U) as (w0 & w1 & w2 & w3 & EB & S & F & _).
  { destruct (baryTetra _ _ _ _ _); congruence. }
  rewrite EB in H. injection H as <-. pose proof (proj1 (isInterp _) I) as I'. split; [|exact F].
  split; cbn [p_elems p_dist2 ws ps map fst snd] in *; auto.
  - intros we [<-|[<-|[<-|[<-|[]]]]]; cbn; lia.
  - cbn. lra.
  - rewrite D3. apply foot_exact. exact F.
  - rewrite D3. symmetry. unfold sqdist. rewrite (qsum_ext 3 _ (fun _ => 0)%Q); [apply qsum_zero|].
    intros k K. rewrite nth_combination, (F k K) by auto. ring.
Qed.

(** * Candidates *)
Lemma candidates_in {E} (mk : E -> made) elems : forall matches l, candidates eps mk elems matches = Some l ->
  forall p, In p l -> exists e, In e elems /\ mk e = Pol p /\ isInterpolation eps p = true.
Proof.
  induction matches as [|i r IH]; intros l H p P; cbn in H.
  - injection H as <-. destruct P.
  - destruct (nth_error elems i) as [e|] eqn:N; [|discriminate]. apply nth_error_In in N.
    destruct (mk e) as [q| |] eqn:M; [| |discriminate].
    + destruct (candidates eps mk elems r) as [l'|]; [|discriminate].
      destruct (isInterpolation eps q) eqn:I; injection H as <-; [destruct P as [<-|P]; eauto|eauto].
    + destruct (candidates eps mk elems r) as [l'|]; [|discriminate]. injection H as <-. eauto.
Qed.
Lemma candidates_some {E} (mk : E -> made) elems : (forall e, In e elems -> mk e <> AssertFails) ->
  forall matches, Forall (fun i => i < length elems) matches -> exists l, candidates eps mk elems matches = Some l.
Proof.
  intros NA. induction matches as [|i r IH]; intro F; cbn; eauto.
  inversion F as [|i0 r0 Hi Hr]; subst. destruct (nth_error elems i) as [e|] eqn:N; [|apply nth_error_None in N; lia].
  assert (A := NA e (nth_error_In _ _ N)). destruct (IH Hr) as (l & ->).
  destruct (mk e) as [q| |]; [destruct (isInterpolation eps q)| |congruence]; eauto.
Qed.
Lemma firstCell_in {E} (mk : E -> made) elems : forall matches p, firstCell eps mk elems matches = Some (Some p) ->
  exists e, In e elems /\ mk e = Pol p /\ isInterpolation eps p = true.
Proof.
  induction matches as [|i r IH]; intros p H; cbn in H; [discriminate|].
  destruct (nth_error elems i) as [e|] eqn:N; [|discriminate]. apply nth_error_In in N.
  destruct (mk e) as [q| |] eqn:M; [|auto|discriminate].
  destruct (isInterpolation eps q) eqn:I; [injection H as <-; eauto|auto].
Qed.
Lemma firstCell_some {E} (mk : E -> made) elems : (forall e, In e elems -> mk e <> AssertFails) ->
  forall matches, Forall (fun i => i < length elems) matches -> exists o, firstCell eps mk elems matches = Some o.
Proof.
  intros NA. induction matches as [|i r IH]; intro F; cbn; eauto.
  inversion F as [|i0 r0 Hi Hr]; subst. destruct (nth_error elems i) as [e|] eqn:N; [|apply nth_error_None in N; lia].
  assert (A := NA e (nth_error_In _ _ N)). destruct (IH Hr) as (l & E'). rewrite E'.
  destruct (mk e) as [q| |]; [destruct (isInterpolation eps q)| |congruence]; eauto.
Qed.
Lemma firstCell_hit {E} (mk : E -> made) elems : (forall e, In e elems -> mk e <> AssertFails) ->
  forall matches, Forall (fun i => i < length elems) matches ->
  (exists i e p, In i matches /\ nth_error elems i = Some e /\ mk e = Pol p /\ isInterpolation eps p = true) ->
  exists p, firstCell eps mk elems matches = Some (Some p).
Proof.
  intros NA. induction matches as [|i r IH]; intros F (i' & e' & p & I & N' & M' & IP); [destruct I|]. cbn.
  inversion F as [|i0 r0 Hi Hr]; subst. destruct (nth_error elems i) as [e|] eqn:N; [|apply nth_error_None in N; lia].
  assert (A := NA e (nth_error_In _ _ N)).
  assert (HR : In i' r -> exists p, firstCell eps mk elems r = Some (Some p)) by (intro I'; apply IH; auto; exists i', e', p; auto).
  destruct I as [->|I].
  - assert (e' = e) as -> by congruence. rewrite M', IP. eauto.
  - destruct (mk e) as [q| |]; [destruct (isInterpolation eps q)| |congruence]; eauto.
Qed.

Lemma minElement_spec : forall l p, In (minElement p l) (p :: l) /\ forall q, In q (p :: l) -> (p_dist2 (minElement p l) <= p_dist2 q)%Q.
Proof.
  induction l as [|q l IH]; intro p.
  - cbn. split; auto. intros q [<-|[]]. lra.
  - cbn [minElement]. destruct (Qle_bool (p_dist2 p) (p_dist2 q)) eqn:E.
    + apply Qle_bool_iff in E. destruct (IH p) as (I & M). split.
      * destruct I as [I|I]; [left; exact I|right; right; exact I].
      * intros r [<-|[<-|R]]; [apply M; left; auto| |apply M; right; auto].
        eapply Qle_trans; [apply (M p); left; auto|exact E].
    + assert (E' : (p_dist2 q < p_dist2 p)%Q) by (apply Qnot_le_lt; intro H; apply Qle_bool_iff in H; congruence).
      destruct (IH q) as (I & M). split.
      * destruct I as [I|I]; right; [left; exact I|right; exact I].
      * intros r [<-|[<-|R]]; [|apply M; left; auto|apply M; right; auto].
        eapply Qle_trans; [apply (M q); left; auto|lra].
Qed.

(** * The searches *)
Variables (cv : list Q -> nat) (ce ct : list Q -> nat -> list nat) (et : list Q -> list nat).
Hypothesis Hcv : forall u, length u = m_dim s -> m_verts s <> [] -> nearest s u (cv u).
Hypothesis Hce : forall u n, Forall (fun i => i < length (m_edges s)) (ce u n).
Hypothesis Hct : forall u n, Forall (fun i => i < length (m_tris s)) (ct u n).
Hypothesis Het : forall u, Forall (fun i => i < length (m_tets s)) (et u).
Hypothesis NDT : forall a b c, In (a, b, c) (m_tris s) -> ~ degenerate (m_dim s) [position s a; position s b; position s c].

Lemma edge_noassert u e : polEdge s u e <> AssertFails.
Proof. destruct e as [a b]. unfold polEdge. destruct (baryEdge _ _ _) as [[w0 w1]|]; discriminate. Qed.
Lemma tet_noassert u e : polTetra s u e <> AssertFails.
Proof. destruct e as [[[a b] c] d]. unfold polTetra. destruct (baryTetra _ _ _ _ _) as [[[[w0 w1] w2] w3]|]; discriminate. Qed.
Lemma tri_noassert u e : length u = m_dim s -> In e (m_tris s) -> polTriangle s u e <> AssertFails.
Proof.
  intros U I. destruct e as [[a b] c]. destruct (wm_tris s wf a b c I) as (AB & BC & C).
  assert (A : a < nVertices s) by lia. assert (B : b < nVertices s) by lia.
  assert (LA := position_length a A). assert (LB := position_length b B). assert (LC := position_length c C).
  assert (ND := NDT a b c I).
  unfold polTriangle. change (coordsOf s a) with (position s a). change (coordsOf s b) with (position s b).
  change (coordsOf s c) with (position s c).
  assert (NN : baryTriangle (position s a) (position s b) (position s c) u <> None).
  { destruct (wm_dim s wf) as [D|D]; rewrite D in *; [apply tri2_def|apply tri3_def]; auto. }
  destruct (baryTriangle _ _ _ _) as [[[w0 w1] w2]|]; [discriminate|congruence].
Qed.

Lemma findEdge u n closest : length u = m_dim s -> pol_ok u closest ->
  exists p, findEdgeProjection eps ce s u n closest = Some p /\ pol_ok u p /\ (p_dist2 p <= p_dist2 closest)%Q.
Proof.
  intros U PC. unfold findEdgeProjection.
  destruct (candidates_some (polEdge s u) (m_edges s) (fun e _ => edge_noassert u e) _ (Hce u n)) as (l & E). rewrite E.
  destruct l as [|q l]; [exists closest; split; [reflexivity|]; split; [auto|lra]|].
  destruct (minElement_spec l q) as (I & M). set (m := minElement q l) in *.
  destruct (Qle_bool (p_dist2 m) (p_dist2 closest)) eqn:L; cbn [negb].
  - apply Qle_bool_iff in L. exists m. split; auto. split; auto.
    destruct (candidates_in _ _ _ _ E m I) as ([a b] & IE & ME & IP). eapply edge_pol; eauto.
  - exists closest. split; auto. split; auto. lra.
Qed.
Lemma findTriangle u n closest : length u = m_dim s -> pol_ok u closest ->
  exists p, findTriangleProjection eps ce ct s u n closest = Some p /\ pol_ok u p /\ (p_dist2 p <= p_dist2 closest)%Q.
Proof.
  intros U PC. unfold findTriangleProjection.
  destruct (candidates_some (polTriangle s u) (m_tris s) (fun e I => tri_noassert u e U I) _ (Hct u n)) as (l & E). rewrite E.
  destruct l as [|q l]; [apply findEdge; auto|].
  destruct (minElement_spec l q) as (I & M). set (m := minElement q l) in *.
  destruct (Qle_bool (p_dist2 m) (p_dist2 closest)) eqn:L; cbn [negb].
  - apply Qle_bool_iff in L. exists m. split; auto. split; auto.
    destruct (candidates_in _ _ _ _ E m I) as ([[a b] c] & IE & ME & IP). eapply tri_pol; eauto.
  - apply findEdge; auto.
Qed.
Lemma findNearest u n : length u = m_dim s -> m_verts s <> [] ->
  exists p, findNearestProjection eps cv ce ct s u n = Some p /\ pol_ok u p /\
  forall k, k < nVertices s -> (p_dist2 p <= sqdist (m_dim s) u (position s k))%Q.
Proof.
  intros U NE. destruct (Hcv u U NE) as (VL & VM).
  assert (PV := vertex_pol u (cv u) U VL).
  unfold findNearestProjection, findVertexProjection, getClosestVertex.
  replace (nonempty (m_verts s)) with true by (destruct (m_verts s); [congruence|reflexivity]).
  assert (DV : (p_dist2 (polVertex s u (cv u)) == sqdist (m_dim s) u (position s (cv u)))%Q).
  { cbn [polVertex p_dist2]. apply dist2_sqdist; auto. apply position_length; auto. }
  assert (exists p, (if m_dim s =? 2 then findEdgeProjection eps ce s u n (polVertex s u (cv u))
     else findTriangleProjection eps ce ct s u n (polVertex s u (cv u))) = Some p /\ pol_ok u p /\ (p_dist2 p <= p_dist2 (polVertex s u (cv u)))%Q)
    as (p & E & PO & L).
  { destruct (m_dim s =? 2); [apply findEdge|apply findTriangle]; auto. }
  exists p. split; auto. split; auto. intros k K. assert (A := VM k K). rewrite DV in L. lra.
Qed.
Lemma findCell u n : length u = m_dim s -> m_verts s <> [] ->
  exists p, findCellOrProjection eps cv ce ct et s u n = Some p /\ pol_ok u p.
Proof.
  intros U NE. unfold findCellOrProjection. destruct (Nat.eqb_spec (m_dim s) 2) as [D|D].
  - destruct (firstCell_some (polTriangle s u) (m_tris s) (fun e I => tri_noassert u e U I) _ (Hct u n)) as (o & E). rewrite E.
    destruct o as [p|].
    + destruct (firstCell_in _ _ _ _ E) as ([[a b] c] & IE & ME & IP). exists p. split; auto. eapply tri_pol; eauto.
    + destruct (findNearest u n U NE) as (p & EP & PO & _). eauto.
  - destruct (firstCell_some (polTetra s u) (m_tets s) (fun e _ => tet_noassert u e) _ (Het u)) as (o & E). rewrite E.
    destruct o as [p|].
    + destruct (firstCell_in _ _ _ _ E) as ([[[a b] c] d] & IE & ME & IP). exists p. split; auto. eapply tet_pol; eauto.
    + destruct (findNearest u n U NE) as (p & EP & PO & _). eauto.
Qed.

(** a point in one of the cells that are looked at is represented exactly *)
Definition cell_corners (i : nat) : option (list (list Q)) :=
  if m_dim s =? 2 then option_map (fun t => map (position s) (corners3 t)) (nth_error (m_tris s) i)
  else option_map (fun t => map (position s) (corners4 t)) (nth_error (m_tets s) i).
Lemma findCell_exact u n i cs : length u = m_dim s -> m_verts s <> [] ->
  In i (if m_dim s =? 2 then ct u n else et u) -> cell_corners i = Some cs ->
  ~ degenerate (m_dim s) cs -> inside (m_dim s) u cs ->
  exists p, findCellOrProjection eps cv ce ct et s u n = Some p /\ pol_ok u p /\
  forall k, k < m_dim s -> (combo (ws p) (ps p) k == nth k u 0)%Q.
Proof.
  intros U NE I CC ND IN. unfold findCellOrProjection, cell_corners in *. destruct (Nat.eqb_spec (m_dim s) 2) as [D|D].
  - destruct (nth_error (m_tris s) i) as [[[a b] c]|] eqn:N; [|discriminate]. cbn in CC. injection CC as <-.
    assert (IT := nth_error_In _ _ N). destruct (wm_tris s wf a b c IT) as (AB & BC & C).
    assert (A : a < nVertices s) by lia. assert (B : b < nVertices s) by lia.
    assert (LA := position_length a A). assert (LB := position_length b B). assert (LC := position_length c C).
    assert (U2 : length u = 2) by congruence. rewrite D in LA, LB, LC, ND, IN |- *.
    destruct (tri2_ok _ _ _ u LA LB LC U2 ND) as (w0 & w1 & w2 & EB & S & F & NN). apply NN in IN as (P0 & P1 & P2).
    destruct (firstCell_hit (polTriangle s u) (m_tris s) (fun e I => tri_noassert u e ltac:(congruence) I) _ (Hct u n)) as (p & E).
    { exists i, (a, b, c). eexists. split; [exact I|]. split; [exact N|]. split.
      - unfold polTriangle. change (coordsOf s a) with (position s a). change (coordsOf s b) with (position s b).
        change (coordsOf s c) with (position s c). rewrite EB. reflexivity.
      - apply isInterp. cbn. intros we [<-|[<-|[<-|[]]]]; cbn; lra. }
    rewrite E. exists p. destruct (firstCell_in _ _ _ _ E) as ([[a' b'] c'] & IE & ME & IP).
    destruct (tri_pol u a' b' c' p ltac:(congruence) IE ME IP) as (PO & X). split; auto.
  - assert (D3 : m_dim s = 3) by (destruct (wm_dim s wf); congruence).
    destruct (nth_error (m_tets s) i) as [[[[a b] c] d]|] eqn:N; [|discriminate]. cbn in CC. injection CC as <-.
    assert (IT := nth_error_In _ _ N). destruct (wm_tets s wf a b c d IT) as (AB & BC & CD & DL & _).
    assert (A : a < nVertices s) by lia. assert (B : b < nVertices s) by lia. assert (C : c < nVertices s) by lia.
    assert (LA := position_length a A). assert (LB := position_length b B). assert (LC := position_length c C). assert (LD := position_length d DL).
    assert (U2 : length u = 3) by congruence. rewrite D3 in LA, LB, LC, LD, ND, IN |- *.
    destruct (tetra_ok _ _ _ _ u LA LB LC LD U2 ND) as (w0 & w1 & w2 & w3 & EB & S & F & NN). apply NN in IN as (P0 & P1 & P2 & P3).
    destruct (firstCell_hit (polTetra s u) (m_tets s) (fun e _ => tet_noassert u e) _ (Het u)) as (p & E).
    { exists i, (a, b, c, d). eexists. split; [exact I|]. split; [exact N|]. split.
      - unfold polTetra. change (coordsOf s a) with (position s a). change (coordsOf s b) with (position s b).
        change (coordsOf s c) with (position s c). change (coordsOf s d) with (position s d). rewrite EB. reflexivity.
      - apply isInterp. cbn. intros we [<-|[<-|[<-|[<-|[]]]]]; cbn; lra. }
    rewrite E. exists p. destruct (firstCell_in _ _ _ _ E) as ([[[a' b'] c'] d'] & IE & ME & IP).
    destruct (tet_pol u a' b' c' d' p ltac:(congruence) IE ME IP) as (PO & X). split; auto.
Qed.
End OnMesh.
End Tol.
