(** From the invariants to the theorems about the API. *)
From Coq Require Import ZArith QArith Bool List Arith Lia.
From Verif Require Import M_Time M_Mesh M_Prep M_Box M_Quad M_Api S_Api P_Api P_ApiEff P_ApiInv P_ApiVal.
Import ListNotations.
Open Scope nat_scope.

Section Thm.
Context {C : Type}.
Variable W : world C.
Implicit Types s : state C.
Implicit Types h : @history C.

Lemma done_allowed s c s' r : step W s c = Done s' r -> allowed (st_phase s) c.
Proof.
  intros H. destruct c; cbn [allowed step] in *; try exact I.
  all: try (assert (E := ends_modify s _ _ (Some r) s' H); exact (proj1 E)).
  all: try (assert (E := ends_use s _ _ (Some r) s' H); exact (proj1 E)).
  - unfold initialize in H. destruct (st_phase s); [reflexivity|discriminate..].
  - unfold advance, guardFail in H. destruct (_ =? _); [|discriminate]. destruct (negb _); [discriminate|].
    destruct (st_phase s); [discriminate|reflexivity|discriminate].
  - unfold finalize in H. destruct (st_phase s); discriminate.
  - unfold guardFail in H. destruct (st_phase s); try discriminate. reflexivity.
  - unfold guardFail in H. destruct (st_phase s); try discriminate. reflexivity.
  - unfold guardFail in H. destruct (st_phase s); try discriminate. reflexivity.
  - unfold requires, guardFail in H. destruct (st_phase s); try discriminate. reflexivity.
  - unfold requires, guardFail in H. destruct (st_phase s); try discriminate. reflexivity.
  - unfold requires, guardFail in H. destruct (st_phase s); try discriminate. reflexivity.
  - unfold resetMesh, guardFail in H. destruct (st_experimental s), (st_remeshing s); try discriminate.
    destruct (st_phase s); try discriminate. reflexivity.
  - unfold writeData in H. destruct (st_phase s); discriminate.
  - unfold readData, guardFail in H. destruct (st_phase s); try discriminate. reflexivity.
  - unfold setRegionOf in H. assert (E := ends_use s _ _ (Some r) s' H). destruct E as [_ [[_ [? _]]|[x [_ E]]]]; [discriminate|].
    apply ends_guard in E. destruct E as [[_ [? _]]|[_ E]]; [discriminate|].
    apply ends_guard in E. destruct E as [[_ [? _]]|[G E]]; [discriminate|]. apply phase_true; exact G.
  - unfold getVertices in H. assert (E := ends_use s _ _ (Some r) s' H). destruct E as [_ [[_ [? _]]|[x [_ E]]]]; [discriminate|].
    apply ends_guard in E. destruct E as [[_ [? _]]|[_ E]]; [discriminate|].
    apply ends_guard in E. destruct E as [[_ [? _]]|[_ E]]; [discriminate|].
    apply ends_guard in E. destruct E as [[_ [? _]]|[G E]]; [discriminate|]. apply phase_true; exact G.
Qed.

Lemma fails_reported s c : ~ allowed (st_phase s) c -> guarded c \/ (st_phase s <> Finalized /\ ~ is_advance c) -> step W s c = Fail s.
Proof.
  intros N G. destruct c; cbn [allowed guarded is_advance step] in *; try tauto.
  - unfold initialize. destruct (st_phase s); [congruence|reflexivity..].
  - unfold finalize. destruct (st_phase s); try reflexivity; exfalso; apply N; discriminate.
  - unfold guardFail. destruct (st_phase s); try reflexivity. congruence.
  - unfold guardFail. destruct (st_phase s); try reflexivity. congruence.
  - unfold guardFail. destruct (st_phase s); try reflexivity. congruence.
  - unfold requires, guardFail. destruct (st_phase s); try reflexivity. congruence.
  - unfold requires, guardFail. destruct (st_phase s); try reflexivity. congruence.
  - unfold requires, guardFail. destruct (st_phase s); try reflexivity. congruence.
  - unfold resetMesh, guardFail. destruct (st_experimental s), (st_remeshing s); try reflexivity.
    destruct (st_phase s); try reflexivity. congruence.
  - unfold writeData. destruct (st_phase s); try reflexivity; exfalso; apply N; discriminate.
  - unfold readData, guardFail. destruct (st_phase s); try reflexivity. congruence.
  - unfold setRegionOf, mesh_use, guardFail. destruct G as [[]|[G _]].
    destruct (st_phase s); cbn; try congruence.
    destruct (lookup m (st_meshes s)); [|reflexivity]. destruct (_ && _); reflexivity.
  - unfold getVertices, mesh_use, guardFail. destruct G as [[]|[G _]].
    destruct (st_phase s); cbn; try congruence.
    destruct (lookup m (st_meshes s)); [|reflexivity]. destruct (_ && _); [|reflexivity].
    destruct (match mx_region _ with Some _ => _ | None => _ end); reflexivity.
Qed.

Lemma happens_split s0 h s : happens W s0 h s -> forall h1 x h2, h = h1 ++ x :: h2 ->
  exists s1 s2, happens W s0 h1 s1 /\ ends (step W s1 (fst x)) (snd x) s2.
Proof.
  intros H. induction H as [|h s c s' r H IH E|h s c s' H IH E]; intros h1 x h2 EQ.
  - destruct h1; discriminate.
  - destruct h2 as [|y h2] using rev_ind.
    + apply app_inj_tail in EQ. destruct EQ as [-> <-]. exists s, s'. auto.
    + rewrite app_comm_cons, app_assoc in EQ. apply app_inj_tail in EQ. destruct EQ as [-> _]. eapply IH. reflexivity.
  - destruct h2 as [|y h2] using rev_ind.
    + apply app_inj_tail in EQ. destruct EQ as [-> <-]. exists s, s'. auto.
    + rewrite app_comm_cons, app_assoc in EQ. apply app_inj_tail in EQ. destruct EQ as [-> _]. eapply IH. reflexivity.
Qed.

Lemma life_progress (h2 : @history C) : forall p, p <> Constructed -> fold_left life1 h2 p <> Constructed.
Proof.
  induction h2 as [|[c [r|]] t IH]; intros p N; cbn [fold_left]; [exact N| |rewrite life_none; auto].
  apply IH. destruct c; cbn [life1]; try exact N; discriminate.
Qed.
Lemma happens_allowed s0 h s h1 c r h2 : started s0 -> happens W s0 h s -> h = h1 ++ (c, Some r) :: h2 -> allowed (life h1) c.
Proof.
  intros ST H E. destruct (happens_split _ _ _ H _ _ _ E) as [s1 [s2 [H1 E1]]].
  destruct (happens_inv W _ _ _ ST H1) as [I _]. rewrite <- (i_phase _ _ _ I).
  eapply done_allowed. exact E1.
Qed.
Lemma finalized_stays s0 h s : started s0 -> happens W s0 h s -> forall h1 r h2, h = h1 ++ (Finalize, Some r) :: h2 -> life h = Finalized.
Proof.
  intros ST H. induction H as [|h s c s' r' H IH E|h s c s' H IH E]; intros h1 r h2 EQ.
  - destruct h1; discriminate.
  - destruct h2 as [|y h2] using rev_ind.
    + apply app_inj_tail in EQ. destruct EQ as [-> [= -> ->]]. rewrite life_snoc. reflexivity.
    + clear IHh2. rewrite app_comm_cons, app_assoc in EQ. apply app_inj_tail in EQ. destruct EQ as [EQ _].
      assert (L := IH _ _ _ EQ). rewrite life_snoc, L.
      assert (A := done_allowed _ _ _ _ E). destruct (happens_inv W _ _ _ ST H) as [I _]. rewrite (i_phase _ _ _ I), L in A.
      destruct c; cbn [life1 allowed] in *; congruence.
  - destruct h2 as [|y h2] using rev_ind.
    + apply app_inj_tail in EQ. destruct EQ as [_ EQ]. discriminate.
    + clear IHh2. rewrite app_comm_cons, app_assoc in EQ. apply app_inj_tail in EQ. destruct EQ as [EQ _].
      rewrite life_snoc, life_none. eapply IH. exact EQ.
Qed.

(** locked meshes *)
Lemma modify_locked s m k : st_phase s <> Finalized -> lookup m (st_locks s) = Some true \/ (exists x, lookup m (st_meshes s) = Some x /\ mx_provided x = false) ->
  mesh_modify s m k = Fail s.
Proof.
  intros P L. unfold mesh_modify, mesh_use. destruct (phase_eqb (st_phase s) Finalized) eqn:E; [apply phase_true in E; congruence|].
  destruct (lookup m (st_meshes s)) as [x|] eqn:K; [|reflexivity].
  destruct L as [L|[y [Y1 Y2]]].
  - destruct (mx_provided x); [|reflexivity]. unfold checkLock. rewrite L. reflexivity.
  - injection Y1 as ->. rewrite Y2. reflexivity.
Qed.
Lemma edits_modify s c m : edits c = Some m -> exists k, step W s c = mesh_modify s m k.
Proof. destruct c; cbn [edits step]; try discriminate; intros [= ->]; eexists; reflexivity. Qed.
Lemma lock_of s0 h s m x : inv s0 h s -> lookup m (st_meshes s) = Some x -> lookup m (st_locks s) = Some (negb (editable m h)).
Proof.
  intros I L. destruct (lookup_some_in m (st_meshes s) (st_locks s) x) as [b B]; [|exact L|].
  - rewrite (i_lkeys _ _ _ I). symmetry. apply (i_alike _ _ _ I).
  - rewrite B. f_equal. apply (i_lock _ _ _ I _ _ B).
Qed.
Lemma modify_open s0 h s m x k : inv s0 h s -> life h <> Finalized -> lookup m (st_meshes s) = Some x ->
  mx_provided x = true -> editable m h = true -> mesh_modify s m k = k x.
Proof.
  intros I LF L P E. unfold mesh_modify, mesh_use, checkLock. rewrite (i_phase _ _ _ I).
  destruct (phase_eqb (life h) Finalized) eqn:K; [apply phase_true in K; congruence|].
  rewrite L, P, (lock_of _ _ _ _ _ I L), E. reflexivity.
Qed.
Lemma createVertices_total ps : forall m, Forall (fun p => length p = m_dim m) ps -> exists y, createVertices m ps = Some y.
Proof.
  induction ps as [|p r IH]; intros m F; cbn; [eauto|]. inversion F; subst. unfold createVertex.
  rewrite H1, Nat.eqb_refl. apply IH. exact H2.
Qed.
Lemma columns_all n d : forall l, length l = n * d -> Forall (fun p => length p = d) (columns n d l).
Proof.
  induction n as [|n IH]; intros l E; cbn; constructor.
  - rewrite firstn_length. cbn in E. lia.
  - apply IH. rewrite skipn_length. cbn in E. lia.
Qed.

(** what stays: the effect of a call on one mesh *)
Definition same_mesh m s s' : Prop := option_map mx_mesh (lookup m (st_meshes s')) = option_map mx_mesh (lookup m (st_meshes s)).
Lemma effect_mesh s0 h s c r s' m x : inv s0 h s -> effect W s c r s' -> lookup m (st_meshes s) = Some x ->
  same_mesh m s s' \/
  (edits c = Some m /\ mx_provided x = true /\ editable m h = true) \/
  (c = ResetMesh m /\ r = Some RUnit) \/
  (exists e z, c = Initialize e /\ r = Some z) \/
  (exists dt p e z m' y, c = Advance dt p e /\ r = Some z /\ lookup m' (st_meshes s) = Some y /\ (p = true \/ editable m' h = true)).
Proof.
  intros I E L. assert (LO := lock_of _ _ _ _ _ I L).
  assert (ND : NoDup (map fst (st_meshes s))).
  { destruct (i_alike _ _ _ I) as [A _]. rewrite A. apply (i_nodup _ _ _ I). }
  destruct E as [c|c r IC|c a r IC|dt p e c b PH AT|c r n IC|c r m1 b IC PH ER|c r m1 x1 y IC ED OP SV RU
    |c m1 x1 ps y OP CV CC|m1 x1 l RM PH LK ON CO UL|m1 d PH|m1 d ids vs x1 w PH LK FW LE VA LB|e s' r PH IZ|dt p e s' r PH ON DT AD|s' r PH FI].
  1-5: left; reflexivity.
  - left. unfold same_mesh. cbn. rewrite lookup_alter. destruct (m1 =? m); [|reflexivity]. rewrite L. reflexivity.
  - destruct OP as [PF [LX [PX LO1]]]. destruct (Nat.eqb_spec m1 m) as [->|N].
    + right; left. rewrite LX in L. injection L as ->. repeat split; auto.
      assert (B := i_lock _ _ _ I _ _ LO1). destruct (editable m h); [reflexivity|discriminate].
    + left. unfold same_mesh. rewrite lookup_put. destruct (Nat.eqb_spec m1 m); [congruence|reflexivity].
  - destruct OP as [PF [LX [PX LO1]]]. destruct (Nat.eqb_spec m1 m) as [->|N].
    + right; left. rewrite LX in L. injection L as ->. split; [|split; [exact PX|]].
      * destruct CC as [[-> _]|[n [l [-> _]]]]; reflexivity.
      * assert (B := i_lock _ _ _ I _ _ LO1). destruct (editable m h); [reflexivity|discriminate].
    + left. unfold same_mesh. change (st_meshes (withWrites ?a ?b)) with (st_meshes a). rewrite lookup_put. destruct (Nat.eqb_spec m1 m); [congruence|reflexivity].
  - destruct (Nat.eqb_spec m1 m) as [->|N]; [right; right; left; auto|].
    left. unfold same_mesh. rewrite lookup_put. destruct (Nat.eqb_spec m1 m); [congruence|reflexivity].
  - left. reflexivity.
  - left. reflexivity.
  - right; right; right; left. eauto.
  - destruct (adv_shape W _ _ _ _ _ _ AD ND) as [c [atEnd (A0&P1&P2&P3&P4&P5&P6&P7&P8&P9&P10&P11&_)]].
    destruct (redo s p atEnd) eqn:R.
    + right; right; right; right. unfold redo in R. apply andb_true_iff in R. destruct R as [_ R].
      apply orb_true_iff in R. destruct R as [R| ->].
      * unfold checkAll in R. apply negb_true_iff in R.
        assert (EX : exists kb, In kb (st_locks s) /\ snd kb = false).
        { clear -R. induction (st_locks s) as [|a t IH]; [discriminate|]. cbn in R. apply andb_false_iff in R.
          destruct R as [R|R]; [exists a; split; [left; reflexivity|exact R]|].
          destruct (IH R) as [kb [K1 K2]]. exists kb. split; [right; exact K1|exact K2]. }
        destruct EX as [[k b] [K1 K2]]. cbn in K2. subst b.
        assert (LK : lookup k (st_locks s) = Some false).
        { apply in_lookup; [|exact K1]. rewrite (i_lkeys _ _ _ I). apply (i_nodup _ _ _ I). }
        destruct (lookup_some_in k (st_locks s) (st_meshes s) false) as [y Y]; [|exact LK|].
        { rewrite (i_lkeys _ _ _ I). apply (i_alike _ _ _ I). }
        exists (Some dt), p, (Some e), r, k, y. repeat split; auto. right.
        assert (B := i_lock _ _ _ I _ _ LK). destruct (editable k h); [reflexivity|discriminate].
      * exists (Some dt), true, (Some e), r, m, x. auto.
    + left. unfold same_mesh. rewrite P11. reflexivity.
  - left. unfold finalize in FI. destruct (st_phase s); [injection FI as <- <-; reflexivity..|congruence].
Qed.

(** failed edits *)
Lemma failed_edit s c m s' : edits c = Some m -> (forall ids, c <> SetMeshQuads m ids) -> step W s c = Fail s' -> s' = s.
Proof.
  intros ED NQ H. assert (E := step_effect W s c None s' H).
  inversion E; subst; try reflexivity; try discriminate.
  destruct c; cbn [edits] in *; try discriminate; cbn [step] in H.
  all: try (injection ED as ->); try (exfalso; eapply NQ; reflexivity).
  all: assert (H' := ends_modify s _ _ None _ H); destruct H' as [_ [[_ H']|[x' [_ H']]]]; [exact H'|].
  all: repeat first [ apply ends_guard in H'; destruct H' as [[_ [_ H']]|[_ H']]; [exact H'|]
                    | apply ends_full in H'; destruct H' as [[_ [? _]]|[_ H']]; [discriminate|] ].
  all: try discriminate.
  - revert H'. destruct (setMeshQuad (w_tol W) _ _ _ _ _); intros H'; try discriminate. apply ends_fail in H'. tauto.
  - revert H'. destruct (createTetrahedron _ _ _ _ _); discriminate.
  - revert H'. destruct (addTetrahedra _ _); discriminate.
Qed.
Lemma passive_reads s c r s' : effect W s c r s' -> (forall e, c <> Initialize e) -> ~ is_advance c -> st_reads s' = st_reads s.
Proof.
  intros E N1 N2. destruct E; try reflexivity.
  - exfalso. eapply N1. reflexivity.
  - exfalso. apply N2. exact I.
  - unfold finalize in H0. destruct (st_phase s); [injection H0 as <- <-; reflexivity..|congruence].
Qed.

(** written values *)
Lemma stored_entry ws (m d : nat) (t : Z) w : NoDup (map (fun w => (wr_mesh w, wr_data w)) ws) -> In w ws -> wr_mesh w = m -> wr_data w = d ->
  forall t' f, In (m, d, t', f) (map (fun w => (wr_mesh w, wr_data w, t, wr_buf w)) ws) <-> t' = t /\ f = wr_buf w.
Proof.
  intros ND IW E1 E2 t' f. rewrite in_map_iff. split.
  - intros [u [[= U1 U2 <- <-] IU]]. split; [reflexivity|].
    f_equal. eapply (nodup_key (fun w => (wr_mesh w, wr_data w))); [exact ND|exact IU|exact IW|congruence].
  - intros [-> ->]. exists w. rewrite E1, E2. auto.
Qed.
Lemma wkeys_in ws ws0 w0 : map wkey ws = map wkey ws0 -> In w0 ws0 -> exists w, In w ws /\ wr_mesh w = wr_mesh w0 /\ wr_data w = wr_data w0 /\ wr_dims w = wr_dims w0.
Proof.
  intros E I. apply (in_map wkey) in I. rewrite <- E in I. apply in_map_iff in I. destruct I as [w [K IW]].
  exists w. unfold wkey in K. injection K as K1 K2 K3. auto.
Qed.
Lemma settled_good s0 h s b e w x : inv s0 h s -> vals h s -> life h <> Finalized ->
  (st_remeshing s = true \/ life h = Constructed \/ b = false) ->
  In w (settled W b s e) -> lookup (wr_mesh w) (if b then readied W s e else st_meshes s) = Some x ->
  mx_provided x = true \/ st_remeshing s = false -> no_write_before_reset (wr_mesh w) (wr_data w) h ->
  good (wr_mesh w) (wr_data w) (nVertices (mx_mesh x)) (wr_dims w) (wr_buf w) h.
Proof.
  intros I V LF B IW L P NW. destruct b; cbn [settled] in IW.
  - apply in_map_iff in IW. destruct IW as [w0 [<- IW]].
    assert (KD : wr_data (fitOne (readied W s e) w0) = wr_data w0).
    { generalize (readied W s e). intros ms. unfold fitOne. destruct (lookup (wr_mesh w0) ms); reflexivity. }
    rewrite KD, fitOne_mesh in NW. rewrite fitOne_mesh in L. rewrite fitOne_mesh, fitOne_dims, KD.
    destruct (mx_provided x) eqn:PX.
    + apply fit_good; auto. intros y Y. destruct (i_buf _ _ _ I w0 y IW Y) as [K|[K _]]; auto.
    + destruct P as [P|P]; [discriminate|]. destruct B as [B|[B|B]]; [congruence| |discriminate].
      (* a received mesh has no vertices before initialize() *)
      unfold readied in L. rewrite receive_lookup in L. destruct (lookup (wr_mesh w0) (st_meshes s)) as [y|] eqn:Y; [|discriminate].
      injection L as <-. cbn [setMesh mx_provided] in PX.
      assert (EV := i_received _ _ _ I B _ _ Y PX).
      destruct (V w0 y IW Y (or_intror P) NW) as (G1&_).
      assert (EW : written (wr_mesh w0) (wr_data w0) h = []).
      { destruct (written (wr_mesh w0) (wr_data w0) h) as [|[v col] t]; [reflexivity|].
        destruct (G1 v col (or_introl eq_refl)). unfold nVertices in *. rewrite EV in *. cbn in *. lia. }
      apply good_zero; [exact EW|]. unfold fitOne, readied. rewrite receive_lookup, Y. cbn [option_map setMesh mx_provided].
      rewrite PX. cbn. apply repeat_allzero.
  - apply V; assumption.
Qed.
Lemma readied_some s e m x : lookup m (st_meshes s) = Some x -> exists y, lookup m (readied W s e) = Some y /\ mx_provided y = mx_provided x /\ (mx_provided x = true -> m_verts (mx_mesh y) = m_verts (mx_mesh x)).
Proof.
  intros L. unfold readied. rewrite receive_lookup, L. eexists. split; [reflexivity|]. split; [reflexivity|].
  cbn. intros ->. apply preprocess_verts.
Qed.
End Thm.
