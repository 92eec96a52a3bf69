(** What one call can do to the state of a participant. *)
From Coq Require Import ZArith QArith Bool List Arith Lia.
From Verif Require Import M_Time M_Mesh M_Prep M_Box M_Quad M_Api S_Api P_Api.
Import ListNotations.
Open Scope nat_scope.

Section Eff.
Context {C : Type}.
Variable W : world C.
Implicit Types s : state C.

(** calls whose success does not count for [life], [editable], [points], [written] *)
Definition inert (c : call C) : bool :=
  match c with
  | Initialize _ | Advance _ _ _ | Finalize | ResetMesh _ | SetMeshVertex _ _ | SetMeshVertices _ _ _ | WriteData _ _ _ _ => false
  | _ => true
  end.

(** the open mesh [m] of a participant *)
Definition opened s (m : nat) (x : meshCtx) : Prop :=
  st_phase s <> Finalized /\ lookup m (st_meshes s) = Some x /\ mx_provided x = true /\ lookup m (st_locks s) = Some false.

Inductive effect s : call C -> option result -> state C -> Prop :=
| E_fail c : effect s c None s
| E_keep c r : inert c = true -> effect s c (Some r) s
| E_mark c a r : inert c = true -> effect s c (Some r) (withCpl s (w_mark W a (st_cpl s)))
| E_late dt p e c b : st_phase s = Initialized -> w_addTime W (st_cpl s) dt = Some (c, b) ->
    effect s (Advance (Some dt) p e) None (withCpl s c)
| E_sections c r n : inert c = true -> effect s c (Some r) (withSections s n)
| E_region c r m b : inert c = true -> st_phase s = Constructed ->
    (exists bs x, c = SetMeshAccessRegion m bs /\ r = RUnit /\ lookup m (st_meshes s) = Some x /\ mx_provided x = false /\
       mx_region x = None /\ length bs = m_dim (mx_mesh x) * 2 /\ boxOfBounds bs = Some b) ->
    effect s c (Some r) (withMeshes s (alter m (fun x => setRegion x b) (st_meshes s)))
| E_conn c r m x y : inert c = true -> edits c = Some m -> opened s m x -> sameV (mx_mesh x) y ->
    (forall z, r = Some z -> z = RUnit) -> effect s c r (putMesh s m y)
| E_verts c m x ps y : opened s m x -> createVertices (mx_mesh x) ps = Some y ->
    (c = SetMeshVertex m (hd [] ps) /\ length ps = 1 \/
     exists n l, c = SetMeshVertices m n l /\ ps = columns n (m_dim (mx_mesh x)) l /\ length l = n * m_dim (mx_mesh x)) ->
    effect s c (Some (RIds (seq (nVertices (mx_mesh x)) (length ps))))
      (withWrites (putMesh s m y) (resizeBuffers m (nVertices y) false (st_writes s)))
| E_reset m x l : st_remeshing s = true -> st_phase s = Initialized -> lookup m (st_meshes s) = Some x ->
    w_ongoing W (st_cpl s) = true -> w_complete W (st_cpl s) = true -> unlock m (st_locks s) = Some l ->
    effect s (ResetMesh m) (Some RUnit) (putMesh (withLocks s l) m (clearMesh (mx_mesh x)))
| E_write0 m d : st_phase s <> Finalized -> effect s (WriteData m d [] []) (Some RUnit) s
| E_write m d ids vs x w : st_phase s <> Finalized -> lookup m (st_meshes s) = Some x -> findWrite s m d = Some w ->
    length ids * wr_dims w = length vs -> validIDs (mx_mesh x) ids = true ->
    nVertices (mx_mesh x) * wr_dims w = length (wr_buf w) ->
    effect s (WriteData m d ids vs) (Some RUnit)
      (alterWrite s m d (fun w => setBuf w (writeValues (wr_dims w) (zs ids) vs (wr_buf w))))
| E_init e s' r : st_phase s = Constructed -> initialize W s (Some e) = Done s' r -> effect s (Initialize (Some e)) (Some r) s'
| E_adv dt p e s' r : st_phase s = Initialized -> w_ongoing W (st_cpl s) = true -> (0 < dt)%Z ->
    advance W s (Some dt) p (Some e) = Done s' r -> effect s (Advance (Some dt) p (Some e)) (Some r) s'
| E_fin s' r : st_phase s <> Finalized -> finalize s = Done s' r -> effect s Finalize (Some r) s'.

Lemma addQuad_same tol m a b c d y : addQuad tol m a b c d = QDone y -> sameV m y.
Proof.
  unfold addQuad. destruct (negb _); [discriminate|]. destruct (negb _); [discriminate|].
  destruct (isConvexQuad tol _ _ _ _) as [| |[] o]; try discriminate.
  destruct (map _ o) as [|q0 [|q1 [|q2 [|q3 [|? ?]]]]]; try discriminate.
  intros [= <-]. unfold splitQuad. destruct (Qle_bool _ _); split; reflexivity.
Qed.
Lemma setMeshQuad_same tol m a b c d y : setMeshQuad tol m a b c d = QDone y -> sameV m y.
Proof. unfold setMeshQuad. destruct (_ && _); [apply addQuad_same|discriminate]. Qed.
Lemma addQuads_same l : forall m, sameV m (fst (addQuads (C := C) W m l)) /\
  (forall y, snd (addQuads (C := C) W m l) = QDone y -> sameV m y).
Proof.
  induction l as [|[[[a b] c] d] r IH]; intros m; cbn.
  - split; [apply sameV_refl|]. intros y [= <-]. apply sameV_refl.
  - destruct (addQuad _ m a b c d) as [| |y] eqn:E; cbn; try (split; [apply sameV_refl|discriminate]).
    apply addQuad_same in E. destruct (IH y) as [I1 I2]. split.
    + eapply sameV_trans; eassumption.
    + intros z Ez. eapply sameV_trans; [exact E|]. apply I2; exact Ez.
Qed.
Lemma createTet_same m a b c d y : createTetrahedron m a b c d = Some y -> sameV m y.
Proof. unfold createTetrahedron. destruct (_ && _); [|discriminate]. intros [= <-]. split; reflexivity. Qed.
Lemma addTets_same l : forall m y, addTetrahedra m l = Some y -> sameV m y.
Proof.
  induction l as [|[[[a b] c] d] r IH]; intros m y; cbn; [intros [= <-]; apply sameV_refl|].
  destruct (createTetrahedron m a b c d) as [z|] eqn:E; [|discriminate].
  intros H. eapply sameV_trans; [eapply createTet_same; eassumption | apply IH; exact H].
Qed.

Definition ends (o : outcome C) (r : option result) s' : Prop :=
  match r with Some r => o = Done s' r | None => o = Fail s' end.
Lemma ends_guard s b k r s' : ends (guardFail s b k) r s' -> (b = false /\ r = None /\ s' = s) \/ (b = true /\ ends k r s').
Proof.
  unfold guardFail. destruct b; [auto|]. unfold ends. destruct r; [discriminate|]. intros [= <-]. auto.
Qed.
Lemma ends_full s x k r s' : ends (ifFull s x k) r s' -> (mx_full x = false /\ r = Some RUnit /\ s' = s) \/ (mx_full x = true /\ ends k r s').
Proof.
  unfold ifFull. destruct (mx_full x); [auto|]. unfold ends. destruct r; [|discriminate]. intros [= <- <-]. auto.
Qed.
Lemma ends_fail s r s' : ends (Fail s) r s' -> r = None /\ s' = s.
Proof. destruct r; cbn; [discriminate|]. intros [= <-]. auto. Qed.
Lemma ends_done s t r s' : ends (Done s t) r s' -> r = Some t /\ s' = s.
Proof. destruct r; cbn; [|discriminate]. intros [= <- <-]. auto. Qed.
Lemma ends_crash r s' : ends Crash r s' -> False.
Proof. destruct r; discriminate. Qed.
Lemma ends_broken r s' : ends Broken r s' -> False.
Proof. destruct r; discriminate. Qed.
Lemma ends_use s m k r s' : ends (mesh_use s m k) r s' ->
  st_phase s <> Finalized /\ ((lookup m (st_meshes s) = None /\ r = None /\ s' = s) \/ (exists x, lookup m (st_meshes s) = Some x /\ ends (k x) r s')).
Proof.
  unfold mesh_use. intros H. destruct (st_phase s) eqn:P; cbn in H; try (destruct r; discriminate).
  all: split; [discriminate|].
  all: destruct (lookup m (st_meshes s)) as [x|]; [right; exists x; auto|apply ends_fail in H; tauto].
Qed.
Lemma ends_modify s m k r s' : ends (mesh_modify s m k) r s' ->
  st_phase s <> Finalized /\ ((r = None /\ s' = s) \/ (exists x, opened s m x /\ ends (k x) r s')).
Proof.
  unfold mesh_modify. intros H. apply ends_use in H. destruct H as [P [[_ H]|[x [L H]]]]; (split; [exact P|]); [auto|].
  destruct (mx_provided x) eqn:E; [|apply ends_fail in H; auto].
  unfold checkLock in H. destruct (lookup m (st_locks s)) as [[]|] eqn:K; [apply ends_fail in H; auto| |destruct (ends_crash _ _ H)].
  right. exists x. split; [|exact H]. repeat split; assumption.
Qed.
Lemma ends_access s m d k r s' : ends (data_access s m d k) r s' ->
  st_phase s <> Finalized /\ ((r = None /\ s' = s) \/ (exists x, lookup m (st_meshes s) = Some x /\ (mx_provided x || mx_direct x = true) /\ ends (k x) r s')).
Proof.
  unfold data_access. intros H. apply ends_use in H. destruct H as [P [[_ H]|[x [L H]]]]; (split; [exact P|]); [auto|].
  destruct (mx_provided x || mx_direct x) eqn:E; [|apply ends_fail in H; auto].
  destruct (existsb _ _); [|apply ends_fail in H; auto].
  right. exists x. auto.
Qed.

Definition c_is (c : call C) x y z : Prop := match c with Advance a b d => x = a /\ y = b /\ z = d | _ => False end.
Ltac failed R := try (exfalso; discriminate R); try rewrite R; apply E_fail.
Ltac peel H := lazymatch type of H with
  | ends (guardFail _ _ _) _ _ => apply ends_guard in H; let G := fresh "G" in let R := fresh "R" in destruct H as [[_ [R ->]]|[G H]]; [failed R|]
  | ends (ifFull _ _ _) _ _ => apply ends_full in H; let G := fresh "G" in let R := fresh "R" in destruct H as [[_ [R ->]]|[G H]]; [try (exfalso; discriminate R); try rewrite R; apply E_keep; reflexivity|]
  | ends (mesh_modify _ _ _) _ _ => apply ends_modify in H; let P := fresh "P" in let x := fresh "x" in let O := fresh "O" in
      let R := fresh "R" in destruct H as [P [[R ->]|[x [O H]]]]; [failed R|]
  | ends (mesh_use _ _ _) _ _ => apply ends_use in H; let P := fresh "P" in let x := fresh "x" in let O := fresh "O" in
      let R := fresh "R" in destruct H as [P [[_ [R ->]]|[x [O H]]]]; [failed R|]
  | ends (data_access _ _ _ _) _ _ => apply ends_access in H; let P := fresh "P" in let x := fresh "x" in let O := fresh "O" in let D := fresh "D" in
      let R := fresh "R" in destruct H as [P [[R ->]|[x [O [D H]]]]]; [failed R|]
  | ends (Fail _) _ _ => apply ends_fail in H; let R := fresh "R" in destruct H as [R ->]; try (exfalso; discriminate R); try rewrite R
  | ends (Done _ _) _ _ => apply ends_done in H; let R := fresh "R" in destruct H as [R ->]; try (exfalso; discriminate R); try rewrite R
  | ends Crash _ _ => destruct (ends_crash _ _ H)
  | ends Broken _ _ => destruct (ends_broken _ _ H)
  | ends (match ?z with _ => _ end) _ _ => let K := fresh "K" in destruct z eqn:K
  end.

Lemma requires_effect s p a c r s' : inert c = true -> ends (requires W s p a) r s' -> effect s c r s'.
Proof. intros I H. unfold requires in H. repeat peel H; [apply E_mark | apply E_keep]; exact I. Qed.
Lemma phase_true a b : phase_eqb a b = true -> a = b.
Proof. destruct a, b; cbn; congruence. Qed.

Lemma step_effect s c r s' : ends (step W s c) r s' -> effect s c r s'.
Proof.
  intros H. destruct c; cbn [step] in H.
  - (* Initialize *)
    destruct e as [e|].
    + destruct (st_phase s) eqn:P; [| |].
      1: destruct r as [r|]; [apply E_init; assumption|].
      all: unfold initialize in H; rewrite P in H; repeat peel H; apply E_fail.
    + unfold initialize in H. repeat peel H; apply E_fail.
  - (* Advance *)
    assert (H0 : forall x y z, c_is (Advance dt partnerChanged e) x y z -> ends (advance W s x y z) r s') by (intros x y z [-> [-> ->]]; exact H).
    unfold advance in H. peel H.
    destruct (st_solver s) eqn:V; cbn [negb] in H; [|peel H].
    destruct (st_phase s) eqn:P; [peel H; apply E_fail| |peel H; apply E_fail].
    peel H. destruct dt as [dt|]; [|peel H; apply E_fail].
    peel H. peel H.
    destruct (w_addTime W (st_cpl s) dt) as [[c b]|] eqn:A; [|peel H; apply E_fail].
    cbv zeta in H. destruct (_ && _ && _) in H; [peel H; eapply E_late; eassumption|].
    destruct e as [e|]; [|peel H].
    destruct r as [r|]; [|discriminate].
    apply E_adv; auto; [apply Z.ltb_lt; assumption|]. apply (H0 _ _ _ (conj eq_refl (conj eq_refl eq_refl))).
  - destruct (st_phase s) eqn:P; destruct r as [r|]; try (apply E_fin; congruence);
    unfold finalize in H; rewrite P in H; cbn in H; try discriminate. injection H as <-. apply E_fail.
  - repeat peel H. apply E_keep. reflexivity.
  - repeat peel H. apply E_keep. reflexivity.
  - repeat peel H. apply E_keep. reflexivity.
  - eapply requires_effect; [reflexivity|eassumption].
  - eapply requires_effect; [reflexivity|eassumption].
  - eapply requires_effect; [reflexivity|eassumption].
  - repeat peel H. apply E_keep. reflexivity.
  - repeat peel H. apply E_keep. reflexivity.
  - repeat peel H; apply E_keep; reflexivity.
  - unfold getMeshVertexSize in H. repeat peel H; try apply E_fail; apply E_keep; reflexivity.
  - unfold resetMesh in H. repeat peel H. apply E_reset; auto. apply phase_true; assumption.
  - (* SetMeshVertex *)
    repeat peel H. unfold addVertices in H.
    destruct (createVertices (mx_mesh x) [position]) as [y|] eqn:Y; peel H.
    eapply (E_verts s _ m x [position] y); try assumption. left. split; reflexivity.
  - repeat peel H. unfold addVertices in H.
    destruct (createVertices (mx_mesh x) _) as [y|] eqn:Y; peel H.
    eapply (E_verts s _ m x _ y); try eassumption. right. exists n, positions.
    split; [reflexivity|]. split; [reflexivity|]. apply Nat.eqb_eq. assumption.
  - repeat peel H. eapply E_conn; try eassumption; try reflexivity; [split; reflexivity|congruence].
  - repeat peel H. eapply E_conn; try eassumption; try reflexivity; [|congruence].
    apply fold_mesh. intros. split; reflexivity.
  - repeat peel H. eapply E_conn; try eassumption; try reflexivity; [|congruence].
    split; reflexivity.
  - repeat peel H. eapply E_conn; try eassumption; try reflexivity; [|congruence].
    apply fold_mesh. intros ? [[? ?] ?]. split; reflexivity.
  - repeat peel H; [apply E_fail|]. eapply E_conn; try eassumption; try reflexivity; [|congruence].
    eapply setMeshQuad_same; eassumption.
  - do 4 peel H. 
    destruct (addQuads_same (quadruples (zs ids)) (mx_mesh x)) as [S1 S2].
    destruct (addQuads W (mx_mesh x) (quadruples (zs ids))) as [y [| |z]] eqn:K; repeat peel H.
    + eapply E_conn; try eassumption; try reflexivity. congruence.
    + eapply E_conn; try eassumption; try reflexivity; [|congruence]. apply S2. reflexivity.
  - repeat peel H. eapply E_conn; try eassumption; try reflexivity; [|congruence].
    eapply createTet_same; eassumption.
  - repeat peel H. eapply E_conn; try eassumption; try reflexivity; [|congruence].
    eapply addTets_same; eassumption.
  - (* WriteData *)
    unfold writeData in H.
    assert (P : st_phase s <> Finalized \/ (r = None /\ s' = s)).
    { destruct (st_phase s); [left; discriminate|left; discriminate|right; apply ends_fail in H; exact H]. }
    destruct P as [P|[-> ->]]; [|apply E_fail].
    destruct (st_phase s) eqn:PP; [| |congruence].
    all: repeat peel H; try apply E_fail.
    all: try (apply andb_true_iff in K0; destruct K0 as [K0 K1]; destruct ids; [|discriminate]; destruct values; [|discriminate]; apply E_write0; congruence).
    all: match goal with F : findWrite ?s0 _ _ = Some ?w |- _ => apply (E_write s0 m d ids values x w) end; try assumption; try congruence;
      try (apply Nat.eqb_eq; assumption).
  - unfold readData in H. repeat peel H; try apply E_fail; apply E_keep; reflexivity.
  - unfold setRegionOf in H. repeat peel H; try apply E_fail; apply E_region; [reflexivity|apply phase_true; assumption|].
    exists bounds, x.
    match goal with K : negb _ && _ = true |- _ => apply andb_true_iff in K; destruct K as [K _]; apply negb_true_iff in K end.
    match goal with K : (_ =? _) = true |- _ => apply Nat.eqb_eq in K end.
    destruct (mx_region x); [discriminate|]. repeat split; assumption.
  - unfold getVertices in H. repeat peel H; try apply E_fail; apply E_keep; reflexivity.
  - repeat peel H. apply E_sections. reflexivity.
  - repeat peel H; [apply E_fail | apply E_sections; reflexivity].
Qed.
End Eff.
