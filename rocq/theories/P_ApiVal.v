(** The values in the buffers of written data. *)
From Coq Require Import ZArith QArith Bool List Arith Lia.
From Verif Require Import M_Time M_Mesh M_Prep M_Box M_Quad M_Api S_Api P_Api P_ApiEff P_ApiInv.
Import ListNotations.
Open Scope nat_scope.

Section Val.
Context {C : Type}.
Variable W : world C.
Implicit Types s : state C.
Implicit Types h : @history C.

Lemma find_app {A} (p : A -> bool) a b : find p (a ++ b) = match find p a with Some x => Some x | None => find p b end.
Proof. induction a as [|x r IH]; cbn; [reflexivity|]. destruct (p x); [reflexivity|exact IH]. Qed.
Definition sought (v : nat) (l : list (Z * list Q)) := find (fun x => Z.eqb (fst x) (Z.of_nat v)) l.
Definition or_else (o : option (Z * list Q)) (c : list Q) : list Q := match o with Some x => snd x | None => c end.

Lemma writeValues_get d n ids u : forall vs buf, length buf = n * d -> u < n ->
  Forall (fun z => 0 <= z < Z.of_nat n)%Z ids -> length ids * d = length vs ->
  getCol d u (writeValues d (zs ids) vs buf) = or_else (sought u (rev (entries ids d vs))) (getCol d u buf).
Proof.
  induction ids as [|v r IH]; intros vs buf L U F E; cbn [zs map writeValues entries rev]; [reflexivity|].
  inversion F; subst. cbn in E. fold (zs r).
  assert (LF : length (firstn d vs) = d) by (rewrite firstn_length; lia).
  rewrite IH; auto; [|apply putCol_length; auto; lia|rewrite skipn_length; lia].
  unfold sought. rewrite find_app. destruct (find _ (rev (entries r d (skipn d vs)))); [reflexivity|].
  cbn [or_else find fst]. rewrite (getCol_put d (Z.to_nat v) u n) by (auto; lia).
  destruct (Nat.eqb_spec u (Z.to_nat v)) as [->|N].
  - rewrite Z2Nat.id by lia. rewrite Z.eqb_refl. reflexivity.
  - destruct (Z.eqb_spec v (Z.of_nat u)); [lia|reflexivity].
Qed.
Lemma entries_in ids d n : forall vs v col, Forall (fun z => 0 <= z < Z.of_nat n)%Z ids -> length ids * d = length vs ->
  In (v, col) (entries ids d vs) -> (0 <= v < Z.of_nat n)%Z /\ length col = d.
Proof.
  induction ids as [|z r IH]; intros vs v col F E I; cbn in I; [contradiction|]. inversion F; subst. cbn in E.
  destruct I as [[= <- <-]|I]; [split; [assumption|rewrite firstn_length; lia]|].
  apply (IH (skipn d vs)); [assumption|rewrite skipn_length; lia|exact I].
Qed.
Lemma valid_range m ids : validIDs m ids = true -> Forall (fun z => 0 <= z < Z.of_nat (nVertices m))%Z ids.
Proof.
  unfold validIDs. rewrite forallb_forall. intros H. apply Forall_forall. intros z I. specialize (H z I).
  unfold isValidVertexID in H. apply andb_true_iff in H. destruct H as [H1 H2]. apply Z.leb_le in H1. apply Z.ltb_lt in H2. auto.
Qed.

Lemma no_write_prefix m d h x : no_write_before_reset m d (h ++ [x]) -> no_write_before_reset m d h.
Proof. intros H h1 h2 r E. apply (H h1 (h2 ++ [x]) r). rewrite E, <- app_assoc. reflexivity. Qed.

Definition good (m d n dims : nat) (buf : list Q) h : Prop :=
  (forall v col, In (v, col) (written m d h) -> (0 <= v < Z.of_nat n)%Z /\ length col = dims) /\
  (written m d h = [] -> allzero buf) /\
  (forall v, v < n -> length buf = n * dims -> getCol dims v buf = latest dims v (written m d h)).
Definition vals h s : Prop := forall w x, In w (st_writes s) -> lookup (wr_mesh w) (st_meshes s) = Some x ->
  mx_provided x = true \/ st_remeshing s = false -> no_write_before_reset (wr_mesh w) (wr_data w) h ->
  good (wr_mesh w) (wr_data w) (nVertices (mx_mesh x)) (wr_dims w) (wr_buf w) h.

Lemma good_zero m d n dims buf h : written m d h = [] -> allzero buf -> good m d n dims buf h.
Proof.
  intros E Z. split; [|split].
  - rewrite E. contradiction.
  - auto.
  - intros v L K. rewrite E. unfold latest. cbn. eapply getCol_zero; eassumption.
Qed.
Lemma vals_start s0 : started s0 -> vals [] s0.
Proof.
  intros [A B D E F G I J] w x IW L _ _. apply good_zero; [reflexivity|].
  destruct (G w IW) as [-> _]. intros q [].
Qed.
Lemma good_same m d n dims buf h h' : written m d h' = written m d h -> good m d n dims buf h -> good m d n dims buf h'.
Proof. unfold good. intros ->. auto. Qed.

Lemma vals_same h x s s' : vals h s -> (forall m d, written m d (h ++ [x]) = written m d h) ->
  st_writes s' = st_writes s -> st_remeshing s' = st_remeshing s ->
  (forall m z, lookup m (st_meshes s') = Some z -> exists u, lookup m (st_meshes s) = Some u /\
     nVertices (mx_mesh z) = nVertices (mx_mesh u) /\ mx_provided z = mx_provided u) -> vals (h ++ [x]) s'.
Proof.
  intros V WE S1 S2 S3 w z IW L P NW. rewrite S1 in IW. destruct (S3 _ _ L) as [u [U1 [U2 U3]]].
  apply no_write_prefix in NW. rewrite U2. eapply good_same; [apply WE|].
  apply V; auto. rewrite <- U3, <- S2. exact P.
Qed.

(** what an initialize() or advance() hands over *)
Lemma fit_good h s w x e : vals h s -> In w (st_writes s) ->
  lookup (wr_mesh w) (readied W s e) = Some x -> mx_provided x = true ->
  no_write_before_reset (wr_mesh w) (wr_data w) h ->
  (forall y, lookup (wr_mesh w) (st_meshes s) = Some y -> length (wr_buf w) = nVertices (mx_mesh y) * wr_dims w \/ nVertices (mx_mesh y) = 0) ->
  good (wr_mesh w) (wr_data w) (nVertices (mx_mesh x)) (wr_dims w) (wr_buf (fitOne (readied W s e) w)) h.
Proof.
  intros V IW L P NW FB. destruct (readied_points W _ _ _ _ L P) as [y (Y1&Y2&Y3)].
  destruct (V w y IW Y1 (or_introl Y2) NW) as (G1&G2&G3).
  unfold fitOne. rewrite L, P. cbn [negb wr_buf setBuf].
  assert (NE : nVertices (mx_mesh x) = nVertices (mx_mesh y)) by (unfold nVertices; rewrite Y3; reflexivity).
  rewrite NE. destruct (FB y Y1) as [K|K].
  - rewrite resize_same by exact K. repeat split; auto; apply (G1 _ _ H).
  - rewrite K in *. split; [exact G1|]. split.
    + intros E. apply resize_zero. auto.
    + intros v Lv. lia.
Qed.

Lemma vals_step s0 h s c r s' : inv s0 h s -> vals h s -> effect W s c r s' -> vals (h ++ [(c, r)]) s'.
Proof.
  intros I V E.
  assert (ND : NoDup (map fst (st_meshes s))).
  { destruct (i_alike _ _ _ I) as [A _]. rewrite A. apply (i_nodup _ _ _ I). }
  assert (IN : inert c = true \/ r = None -> forall m d, written m d (h ++ [(c, r)]) = written m d h).
  { intros IC m d. rewrite written_snoc. destruct IC as [IC|IC]; [apply written_inert; exact IC|rewrite IC; apply written_none]. }
  destruct E as [c|c r IC|c a r IC|dt p e c b PH AT|c r n IC|c r m b IC PH ER|c r m x y IC ED OP SV RU
    |c m x ps y OP CV CC|m x l RM PH LK ON CO UL|m d PH|m d ids vs x w PH LK FW LE VA LB|e s' r PH IZ|dt p e s' r PH ON DT AD|s' r PH FI].
  - eapply vals_same; eauto.
  - eapply vals_same; eauto.
  - eapply vals_same; eauto.
  - eapply vals_same; eauto.
  - eapply vals_same; eauto.
  - eapply vals_same; eauto. cbn. intros k z. rewrite lookup_alter. destruct (m =? k); [|eauto].
    destruct (lookup k (st_meshes s)) as [y|]; [|discriminate]. intros [= <-]. exists y. auto.
  - destruct OP as [PF [LX [PX LO]]]. eapply vals_same; eauto. intros k z. rewrite lookup_put.
    destruct (Nat.eqb_spec m k) as [<-|N]; [|eauto]. rewrite LX. intros [= <-]. exists x. repeat split; auto.
    unfold nVertices. cbn. f_equal. apply SV.
  - (* vertices *)
    destruct OP as [PF [LX [PX LO]]]. destruct (createVertices_ok _ _ _ CV) as [V1 [V2 V3]].
    assert (WE : forall m' d' l r, written1 m' d' l (c, r) = l) by (intros m' d' l r; destruct CC as [[-> _]|[n [l' [-> _]]]]; reflexivity).
    intros w z IW L P NW. apply no_write_prefix in NW.
    assert (WQ : forall m d, written m d (h ++ [(c, Some (RIds (seq (nVertices (mx_mesh x)) (length ps))))]) = written m d h)
      by (intros; rewrite written_snoc; apply WE).
    eapply good_same; [apply WQ|].
    cbn [withWrites st_writes] in IW. unfold resizeBuffers in IW. apply in_map_iff in IW. destruct IW as [w0 [W0 IW]].
    change (st_meshes (withWrites ?a ?b)) with (st_meshes a) in L. rewrite lookup_put in L.
    change (st_remeshing (withWrites (putMesh s m y) (resizeBuffers m (nVertices y) false (st_writes s)))) with (st_remeshing s) in P.
    destruct (Nat.eqb_spec (wr_mesh w0) m) as [E0|N].
    + subst w. cbn [setBuf wr_mesh wr_data wr_dims wr_buf] in *. rewrite E0, Nat.eqb_refl, LX in L. injection L as <-.
      cbn [setMesh mx_mesh mx_provided] in *. rewrite E0 in *.
      assert (B := i_buf _ _ _ I w0 x IW). rewrite E0 in B. specialize (B LX).
      assert (G := V w0 x IW). rewrite E0 in G. destruct (G LX P NW) as (G1&G2&G3).
      split; [|split].
      * intros v col IV. destruct (G1 v col IV). split; [lia|assumption].
      * intros EZ. apply resize_zero. auto.
      * intros v Lv _. destruct (written m (wr_data w0) h) as [|e0 l0] eqn:EW.
        -- unfold latest. cbn [find]. eapply getCol_zero; [apply resize_zero; auto|apply resize_length|exact Lv].
        -- assert (NZ : length (wr_buf w0) = nVertices (mx_mesh x) * wr_dims w0).
           { destruct B as [B|[B _]]; [exact B|]. exfalso. destruct e0 as [v0 c0].
             destruct (G1 v0 c0 (or_introl eq_refl)). lia. }
           unfold resizeBuffer. rewrite firstn_all2 by nia.
           destruct (Nat.lt_ge_cases v (nVertices (mx_mesh x))) as [Lo|Hi].
           ++ rewrite getCol_app_l by nia. apply G3; assumption.
           ++ rewrite <- EW in *. unfold latest.
              destruct (find _ (written m (wr_data w0) h)) as [[v0 c0]|] eqn:FD.
              { apply find_some in FD. destruct FD as [F1 F2]. cbn in F2. apply Z.eqb_eq in F2.
                destruct (G1 _ _ F1). lia. }
              unfold getCol. rewrite skipn_app, skipn_all2 by nia. rewrite app_nil_l.
              set (t := firstn _ _). rewrite (allzero_repeat t).
              ** f_equal. unfold t. rewrite firstn_length, skipn_length, repeat_length. nia.
              ** intros q IQ. unfold t in IQ. apply in_firstn, in_skipn, repeat_allzero in IQ. exact IQ.
    + subst w0. destruct (Nat.eqb_spec m (wr_mesh w)); [congruence|]. apply V; auto.
  - (* reset *)
    intros w z IW L P NW.
    assert (WQ : forall m' d, written m' d (h ++ [(ResetMesh m, Some RUnit)]) = written m' d h) by (intros; rewrite written_snoc; reflexivity).
    eapply good_same; [apply WQ|].
    assert (NW0 := no_write_prefix _ _ _ _ NW).
    change (st_writes (putMesh (withLocks s l) m (clearMesh (mx_mesh x)))) with (st_writes s) in IW.
    change (st_remeshing (putMesh (withLocks s l) m (clearMesh (mx_mesh x)))) with (st_remeshing s) in P.
    rewrite lookup_put in L. change (st_meshes (withLocks s l)) with (st_meshes s) in L.
    destruct (Nat.eqb_spec m (wr_mesh w)) as [E0|N]; [|apply V; auto].
    assert (EW : written (wr_mesh w) (wr_data w) h = []).
    { apply (NW h [] RUnit). rewrite E0. reflexivity. }
    apply good_zero; [exact EW|].
    rewrite <- E0, LK in L. injection L as <-. cbn [setMesh mx_provided] in P.
    rewrite E0 in LK. apply (V w x IW LK P NW0). exact EW.
  - eapply vals_same; eauto. intros m' d'. rewrite written_snoc. cbn. destruct (_ && _); reflexivity.
  - (* write *)
    intros u z IU L P NW. apply no_write_prefix in NW. rename u into u1.
    unfold alterWrite in IU. cbn [withWrites st_writes] in IU. apply in_map_iff in IU. destruct IU as [u [U0 IU]].
    change (st_meshes (alterWrite s m d ?f)) with (st_meshes s) in L.
    change (st_remeshing (alterWrite s m d ?f)) with (st_remeshing s) in P.
    destruct ((wr_mesh u =? m) && (wr_data u =? d)) eqn:K.
    + assert (u = w) as -> by (eapply found_unique; [apply (i_wkeys _ _ _ I)|apply (i_wnodup _ _ _ I)|eassumption..]).
      apply andb_true_iff in K. destruct K as [K1 K2]. apply Nat.eqb_eq in K1, K2.
      subst u1. cbn [setBuf wr_mesh wr_data wr_dims wr_buf] in *. rewrite K1 in L. rewrite LK in L. injection L as <-.
      rewrite K1, K2 in *.
      assert (G := V w x IU). rewrite K1, K2 in G. destruct (G LK P NW) as (G1&G2&G3).
      assert (VR := valid_range _ _ VA).
      assert (WE : written m d (h ++ [(WriteData m d ids vs, Some RUnit)]) = rev (entries ids (wr_dims w) vs) ++ written m d h).
      { rewrite written_snoc. cbn [written1]. rewrite !Nat.eqb_refl. cbn [andb]. destruct ids as [|i0 ids']; [reflexivity|].
        rewrite <- LE. rewrite Nat.mul_comm, Nat.div_mul by discriminate. reflexivity. }
      unfold good. rewrite WE. split; [|split].
      * intros v col IV. apply in_app_or in IV. destruct IV as [IV|IV]; [|auto].
        apply in_rev in IV. eapply entries_in; eassumption.
      * intros EN. apply app_eq_nil in EN. destruct EN as [EN1 EN2].
        destruct ids as [|i0 r0]; [cbn; auto|]. cbn in EN1. apply app_eq_nil in EN1. destruct EN1. discriminate.
      * intros v Lv _. rewrite (writeValues_get (wr_dims w) (nVertices (mx_mesh x))) by (auto; lia).
        unfold latest. rewrite find_app. unfold sought. destruct (find _ (rev _)); [reflexivity|].
        cbn [or_else]. apply G3; [exact Lv|lia].
    + subst u1. eapply good_same; [|apply V; eauto]. rewrite written_snoc. cbn [written1].
      destruct ((m =? wr_mesh u) && (d =? wr_data u)) eqn:K2; [|reflexivity].
      rewrite (Nat.eqb_sym m), (Nat.eqb_sym d) in K2. congruence.
  - (* initialize *)
    destruct (init_shape W _ _ _ _ IZ ND) as (P1&P2&P3&P4&P5&P6&P7&P8&P9&P10&P11&P12&P13&P14).
    intros w z. rewrite P10. intros IW L P NW. apply in_map_iff in IW. destruct IW as [w0 [<- IW]].
    apply good_zero; [rewrite written_snoc; reflexivity|apply zeroBuffer_zero].
  - destruct (adv_shape W _ _ _ _ _ _ AD ND) as [c [atEnd (A0&P1&P2&P3&P4&P5&P6&P7&P8&P9&P10&P11&P12&P13&P14&P15)]].
    intros w z. rewrite P13. intros IW L P NW. apply in_map_iff in IW. destruct IW as [w0 [<- IW]].
    apply good_zero; [rewrite written_snoc; reflexivity|apply zeroBuffer_zero].
  - assert (s' = withPhase (withSections s 0) Finalized false /\ r = RUnit) as [-> ->].
    { unfold finalize in FI. destruct (st_phase s); [injection FI as <- <-; auto..|congruence]. }
    eapply vals_same; eauto. intros. rewrite written_snoc. reflexivity.
Qed.

Lemma happens_inv s0 h s : started s0 -> happens W s0 h s -> inv s0 h s /\ vals h s.
Proof.
  intros ST H. induction H as [|h s c s' r H [I V] E|h s c s' H [I V] E].
  - split; [apply inv_start|apply vals_start]; exact ST.
  - assert (EF := step_effect W s c (Some r) s' E). split; [eapply inv_step|eapply vals_step]; eassumption.
  - assert (EF := step_effect W s c None s' E). split; [eapply inv_step|eapply vals_step]; eassumption.
Qed.
End Val.
