(** Nearest projection goes to the closest of the elements that the search
    returns: proofs. *)
From Coq Require Import ZArith QArith Bool List Arith Lia Lqa.
From Verif Require Import M_Mesh M_Prep M_Box M_Quad M_Map S_Mesh S_Map P_Bary P_Map P_MapFind P_MapTop.
Import ListNotations.
Open Scope nat_scope.

Lemma Qsq_nonneg (x : Q) : (0 <= x * x)%Q.
Proof. nra. Qed.

(** * The foot of the perpendicular is the closest point *)
Lemma combo_dot n (r : nat -> Q) : forall ws ps, length ws = length ps ->
  (qsum n (fun k => r k * combo ws ps k) == total (map (fun wp => fst wp * qsum n (fun k => r k * nth k (snd wp) 0)) (combine ws ps)))%Q.
Proof.
  induction ws as [|w ws IH]; intros [|p ps] L; try discriminate.
  - unfold combo. cbn. rewrite (qsum_ext n _ (fun _ => 0)%Q) by (intros; ring). apply qsum_zero.
  - injection L as L. cbn [combine map total fold_right fst snd]. fold (total (map (fun wp => fst wp * qsum n (fun k => r k * nth k (snd wp) 0)) (combine ws ps)))%Q.
    rewrite <- IH by exact L. clear IH.
    rewrite (qsum_ext n _ (fun k => w * (r k * nth k p 0) + r k * combo ws ps k)%Q).
    + rewrite qsum_lin. reflexivity.
    + intros k K. cbv beta. change (combo (w :: ws) (p :: ps) k) with (w * nth k p 0 + combo ws ps k)%Q. ring.
Qed.
Lemma const_dot c : forall (ws : list Q) (ps : list (list Q)) h, length ws = length ps ->
  (forall p, In p ps -> (h p == c)%Q) ->
  (total (map (fun wp => fst wp * h (snd wp)) (combine ws ps)) == total ws * c)%Q.
Proof.
  induction ws as [|w ws IH]; intros [|p ps] h L H; try discriminate; cbn [combine map total fold_right fst snd].
  - ring.
  - injection L as L. fold (total (map (fun wp => fst wp * h (snd wp)) (combine ws ps)))%Q. fold (total ws).
    rewrite IH; auto; [|intros; apply H; right; auto]. rewrite (H p (or_introl eq_refl)). ring.
Qed.

Lemma foot_closest n u ws ps vs q : length ws = length ps -> length vs = length ps -> ps <> [] ->
  (total ws == 1)%Q -> (total vs == 1)%Q -> foot n u ws ps ->
  (forall k, k < n -> (combo vs ps k == nth k q 0)%Q) ->
  (sqdist n u (combination n ws ps) <= sqdist n u q)%Q.
Proof.
  intros LW LV NE TW TV F HQ.
  destruct ps as [|p0 ps0] eqn:EP; [congruence|]. rewrite <- EP in *.
  set (r := fun k => (nth k u 0 - combo ws ps k)%Q). set (c := qsum n (fun k => r k * nth k p0 0)%Q).
  assert (HC : forall p, In p ps -> (qsum n (fun k => r k * nth k p 0) == c)%Q).
  { intros p P. assert (A := F p p0 P ltac:(rewrite EP; left; auto)).
    assert (B : (qsum n (fun k => r k * (nth k p 0 - nth k p0 0)) == (-(1)) * c + qsum n (fun k => r k * nth k p 0))%Q).
    { unfold c. rewrite <- qsum_lin. apply qsum_ext. intros. ring. }
    unfold r in B at 1. rewrite A in B. lra. }
  assert (W : (qsum n (fun k => r k * combo ws ps k) == c)%Q).
  { rewrite combo_dot by auto. rewrite (const_dot c ws ps (fun p => qsum n (fun k => r k * nth k p 0))%Q) by auto. rewrite TW. ring. }
  assert (V : (qsum n (fun k => r k * combo vs ps k) == c)%Q).
  { rewrite combo_dot by auto. rewrite (const_dot c vs ps (fun p => qsum n (fun k => r k * nth k p 0))%Q) by auto. rewrite TV. ring. }
  assert (E : (sqdist n u q == sqdist n u (combination n ws ps) +
     (qsum n (fun k => (combo ws ps k - combo vs ps k) * (combo ws ps k - combo vs ps k)) +
      2 * (qsum n (fun k => r k * combo ws ps k) - qsum n (fun k => r k * combo vs ps k))))%Q).
  { unfold sqdist.
    transitivity (qsum n (fun k => 1 * ((nth k u 0 - nth k (combination n ws ps) 0) * (nth k u 0 - nth k (combination n ws ps) 0)) +
       (1 * ((combo ws ps k - combo vs ps k) * (combo ws ps k - combo vs ps k)) + (2 * (r k * combo ws ps k) + (-(2)) * (r k * combo vs ps k)))))%Q.
    - apply qsum_ext. intros k K. rewrite nth_combination by auto. rewrite <- (HQ k K). unfold r. ring.
    - rewrite qsum_lin, qsum_lin, qsum_lin, qsum_scale. ring. }
  assert (P : (0 <= qsum n (fun k => (combo ws ps k - combo vs ps k) * (combo ws ps k - combo vs ps k)))%Q).
  { clear. induction n as [|n IH]; cbn [qsum]; [lra|]. assert (A := Qsq_nonneg (combo ws ps n - combo vs ps n)). lra. }
  rewrite E, W, V. lra.
Qed.

(** * The searches *)
Lemma candidates_all eps {E} (mk : E -> made) elems : forall matches l, candidates eps mk elems matches = Some l ->
  forall i e p, In i matches -> nth_error elems i = Some e -> mk e = Pol p -> isInterpolation eps p = true -> In p l.
Proof.
  induction matches as [|j r IH]; intros l H i e p I N M IP; [destruct I|]. cbn in H.
  destruct (nth_error elems j) as [e'|] eqn:NJ; [|discriminate].
  destruct I as [->|I].
  - assert (e' = e) as -> by congruence. rewrite M, IP in H.
    destruct (candidates eps mk elems r); [|discriminate]. injection H as <-. left. reflexivity.
  - destruct (mk e') as [q| |]; [| |discriminate]; (destruct (candidates eps mk elems r) as [l'|] eqn:C; [|discriminate]).
    + destruct (isInterpolation eps q); injection H as <-; [right|]; eapply IH; eauto.
    + injection H as <-. eapply IH; eauto.
Qed.

Section Close.
Variable eps : Q.
Hypothesis HE : (0 <= eps)%Q.
Variable s : mesh.
Hypothesis wf : wf_mesh s.
Variables (cv : list Q -> nat) (ce ct : list Q -> nat -> list nat).
Hypothesis Hcv : forall u, length u = m_dim s -> m_verts s <> [] -> nearest s u (cv u).
Hypothesis Hce : forall u n, Forall (fun i => i < length (m_edges s)) (ce u n).
Hypothesis Hct : forall u n, Forall (fun i => i < length (m_tris s)) (ct u n).
Hypothesis NDT : forall a b c, In (a, b, c) (m_tris s) -> ~ degenerate (m_dim s) [position s a; position s b; position s c].

Lemma edge_cand u a b : length u = m_dim s -> In (a, b) (m_edges s) ->
  ~ degenerate (m_dim s) [position s a; position s b] -> projects_into (m_dim s) u [position s a; position s b] ->
  exists p, polEdge s u (a, b) = Pol p /\ isInterpolation eps p = true /\
  forall q, inside (m_dim s) q [position s a; position s b] -> (p_dist2 p <= sqdist (m_dim s) u q)%Q.
Proof.
  intros U I ND PI. destruct (wm_edges s wf a b I) as (AB & B). assert (A : a < nVertices s) by lia.
  destruct (edge_ok (m_dim s) (position s a) (position s b) u (position_length s wf a A) (position_length s wf b B) U ND)
    as (w0 & w1 & EB & S & F & PJ). destruct (proj2 PJ PI) as (P0 & P1).
  assert (EP : exists p, polEdge s u (a, b) = Pol p /\ p_elems p = [(a, w0); (b, w1)]).
  { unfold polEdge. change (coordsOf s a) with (position s a). change (coordsOf s b) with (position s b). rewrite EB. eauto. }
  destruct EP as (p & EP & EL). exists p. split; auto.
  assert (IP : isInterpolation eps p = true).
  { apply isInterp. rewrite EL. intros we [<-|[<-|[]]]; cbn; lra. }
  split; auto. intros q (vs & LV & _ & TV & HQ).
  assert (PO := edge_pol eps s wf u a b p U I EP IP).
  rewrite (po_dist _ _ _ _ PO). apply (foot_closest _ _ _ _ vs).
  - unfold ws, ps. rewrite !map_length. reflexivity.
  - unfold ps. rewrite map_length, EL. exact LV.
  - unfold ps. rewrite EL. discriminate.
  - exact (po_sum _ _ _ _ PO).
  - exact TV.
  - exact (po_foot _ _ _ _ PO).
  - unfold ps. rewrite EL. exact HQ.
Qed.
Lemma tri_cand u a b c : length u = m_dim s -> m_dim s <> 2 -> In (a, b, c) (m_tris s) ->
  projects_into (m_dim s) u [position s a; position s b; position s c] ->
  exists p, polTriangle s u (a, b, c) = Pol p /\ isInterpolation eps p = true /\
  forall q, inside (m_dim s) q [position s a; position s b; position s c] -> (p_dist2 p <= sqdist (m_dim s) u q)%Q.
Proof.
  intros U D2 I PI. destruct (wm_tris s wf a b c I) as (AB & BC & C). assert (A : a < nVertices s) by lia. assert (B : b < nVertices s) by lia.
  assert (D3 : m_dim s = 3) by (destruct (wm_dim s wf); congruence).
  assert (ND := NDT a b c I). assert (LA := position_length s wf a A). assert (LB := position_length s wf b B). assert (LC := position_length s wf c C).
  rewrite D3 in ND, LA, LB, LC, PI. assert (U3 : length u = 3) by congruence.
  destruct (tri3_ok _ _ _ u LA LB LC U3 ND) as (w0 & w1 & w2 & EB & S & F & PJ). destruct (proj2 PJ PI) as (P0 & P1 & P2).
  assert (EP : exists p, polTriangle s u (a, b, c) = Pol p /\ p_elems p = [(a, w0); (b, w1); (c, w2)]).
  { unfold polTriangle. change (coordsOf s a) with (position s a). change (coordsOf s b) with (position s b).
    change (coordsOf s c) with (position s c). rewrite EB. eauto. }
  destruct EP as (p & EP & EL). exists p. split; auto.
  assert (IP : isInterpolation eps p = true).
  { apply isInterp. rewrite EL. intros we [<-|[<-|[<-|[]]]]; cbn; lra. }
  split; auto. intros q (vs & LV & _ & TV & HQ).
  destruct (tri_pol eps s wf u a b c p U I EP IP) as (PO & _).
  rewrite (po_dist _ _ _ _ PO). apply (foot_closest _ _ _ _ vs).
  - unfold ws, ps. rewrite !map_length. reflexivity.
  - unfold ps. rewrite map_length, EL. exact LV.
  - unfold ps. rewrite EL. discriminate.
  - exact (po_sum _ _ _ _ PO).
  - exact TV.
  - exact (po_foot _ _ _ _ PO).
  - unfold ps. rewrite EL. exact HQ.
Qed.

Lemma findEdge_le u n closest p : findEdgeProjection eps ce s u n closest = Some p -> (p_dist2 p <= p_dist2 closest)%Q /\
  forall i e q, In i (ce u n) -> nth_error (m_edges s) i = Some e -> polEdge s u e = Pol q -> isInterpolation eps q = true ->
  (p_dist2 p <= p_dist2 q)%Q.
Proof.
  unfold findEdgeProjection. destruct (candidates eps (polEdge s u) (m_edges s) (ce u n)) as [l|] eqn:E; [|discriminate].
  destruct l as [|x l].
  - intro H. injection H as <-. split; [lra|]. intros i e q I N M IP. destruct (candidates_all eps _ _ _ _ E i e q I N M IP).
  - destruct (minElement_spec l x) as (IM & MM). set (m := minElement x l) in *.
    destruct (Qle_bool (p_dist2 m) (p_dist2 closest)) eqn:L; cbn [negb]; intro H; injection H as <-.
    + apply Qle_bool_iff in L. split; auto. intros i e q I N M IP. apply MM. exact (candidates_all eps _ _ _ _ E i e q I N M IP).
    + assert (L' : (p_dist2 closest < p_dist2 m)%Q) by (apply Qnot_le_lt; intro G; apply Qle_bool_iff in G; congruence).
      split; [lra|]. intros i e q I N M IP. assert (A := MM q (candidates_all eps _ _ _ _ E i e q I N M IP)). lra.
Qed.

(** corners of element [i]: an edge in two dimensions, else a triangle *)
Lemma findNearest_close u n p k cs : length u = m_dim s -> m_verts s <> [] ->
  findNearestProjection eps cv ce ct s u n = Some p ->
  In k (if m_dim s =? 2 then ce u n else ct u n) -> facet s k = Some cs ->
  ~ degenerate (m_dim s) cs -> projects_into (m_dim s) u cs ->
  forall q, inside (m_dim s) q cs -> (p_dist2 p <= sqdist (m_dim s) u q)%Q.
Proof.
  intros U NE H IK CS ND PI q IQ. unfold findNearestProjection, findVertexProjection in H.
  destruct (getClosestVertex cv s u) as [v|]; [|discriminate]. unfold facet in CS.
  destruct (Nat.eqb_spec (m_dim s) 2) as [D|D].
  - destruct (nth_error (m_edges s) k) as [[a b]|] eqn:N; [|discriminate]. injection CS as <-. cbn [corners2 map] in *.
    destruct (edge_cand u a b U (nth_error_In _ _ N) ND PI) as (x & EX & IX & LX).
    eapply Qle_trans; [|apply LX; exact IQ]. apply (proj2 (findEdge_le u n _ p H) k (a, b) x); auto.
  - destruct (nth_error (m_tris s) k) as [[[a b] c]|] eqn:N; [|discriminate]. injection CS as <-. cbn [corners3 map] in *.
    destruct (tri_cand u a b c U D (nth_error_In _ _ N) PI) as (x & EX & IX & LX).
    eapply Qle_trans; [|apply LX; exact IQ]. unfold findTriangleProjection in H.
    destruct (candidates eps (polTriangle s u) (m_tris s) (ct u n)) as [l|] eqn:E; [|discriminate].
    assert (XI := candidates_all eps _ _ _ _ E k (a, b, c) x IK N EX IX).
    destruct l as [|y l]; [destruct XI|]. destruct (minElement_spec l y) as (IM & MM). set (m := minElement y l) in *.
    destruct (Qle_bool (p_dist2 m) (p_dist2 (polVertex s u v))) eqn:L; cbn [negb] in H.
    + injection H as <-. apply MM. exact XI.
    + assert (L' : (p_dist2 (polVertex s u v) < p_dist2 m)%Q) by (apply Qnot_le_lt; intro G; apply Qle_bool_iff in G; congruence).
      assert (A := proj1 (findEdge_le u n _ p H)). assert (B := MM x XI). lra.
Qed.
End Close.
