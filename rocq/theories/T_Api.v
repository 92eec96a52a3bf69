(** Theorems about the API: life cycle (C21), locked meshes (C22), vertex IDs
    (C23), written and read values (C24). *)
From Coq Require Import ZArith QArith Bool List Arith Lia.
From Verif Require Import M_Time M_Mesh M_Prep M_Box M_Quad M_Api S_Api P_Api P_ApiEff P_ApiInv P_ApiVal P_ApiThm.
Import ListNotations.
Open Scope nat_scope.

(** ** A concrete participant for the examples: a coupling scheme of two time
    windows of 10 ticks, a provided mesh 1 with written data 7 and a received
    mesh 2 with read data 8. *)
Definition exWorld : world nat := {|
  w_eps := 0%Z; w_tol := 0%Q; w_tol2 := 0%Q; w_addr := fun i => i;
  w_sampleAt := fun w t => match rev w with (_, v) :: _ => Some v | [] => None end;
  w_ongoing := fun c => c <? 2; w_complete := fun _ => true; w_substeps := fun _ => false;
  w_time := fun c => (10 * Z.of_nat c)%Z; w_maxStep := fun _ => 10%Z;
  w_required := fun _ _ => false; w_fulfilled := fun _ _ => false; w_mark := fun _ c => c;
  w_addTime := fun c dt => if (dt <=? 10)%Z then Some (if (dt =? 10)%Z then (S c, true) else (c, false)) else None |}.
Definition exStart : state nat := {|
  st_phase := Constructed; st_experimental := true; st_remeshing := true; st_parallel := false;
  st_meshes := [(1, MkCtx (emptyMesh 2) true true false None); (2, MkCtx (emptyMesh 2) false false true None)];
  st_writes := [MkWr 1 7 1 []]; st_reads := [MkRd 2 8 1 []]; st_names := [7; 8];
  st_locks := [(1, false); (2, false)]; st_cpl := 0; st_sections := 0; st_solver := false |}.
Definition exPartner : mesh := setVerts (emptyMesh 2) [MkVertex [0; 0] 0 true false; MkVertex [1; 0] 1 true false]%Q.
Definition exIn (c : nat) : incoming nat := MkIn (fun _ => exPartner) (fun _ _ => [(0%Z, [3; 4]%Q)]) c.
Example exStart_started : started exStart.
Proof.
  constructor; cbn; try reflexivity.
  - repeat constructor; cbn; intuition discriminate.
  - intros m x. destruct m as [|[|[|m]]]; cbn; try discriminate; intros [= <-]; cbn; repeat split; lia.
  - repeat constructor; cbn; tauto.
  - intros w [<-|[]]. cbn. repeat split; [lia|auto|]. eexists; reflexivity.
Qed.
(** the calls of a history, executed one after the other *)
Fixpoint play (s : state nat) (l : list (call nat)) : option (list (call nat * option result) * state nat) :=
  match l with
  | [] => Some ([], s)
  | c :: r =>
      match step exWorld s c with
      | Done s' x => match play s' r with Some (h, z) => Some ((c, Some x) :: h, z) | None => None end
      | Fail s' => match play s' r with Some (h, z) => Some ((c, None) :: h, z) | None => None end
      | _ => None
      end
  end.
Lemma play_happens l : forall s0 h0 s h z, happens exWorld s0 h0 s -> play s l = Some (h, z) -> happens exWorld s0 (h0 ++ h) z.
Proof.
  induction l as [|c r IH]; intros s0 h0 s h z H P; cbn [play] in P.
  - injection P as <- <-. rewrite app_nil_r. exact H.
  - destruct (step exWorld s c) as [s' x|s'| |] eqn:E; try discriminate.
    + destruct (play s' r) as [[h1 z1]|] eqn:E1; [|discriminate]. injection P as <- <-.
      change (h0 ++ (c, Some x) :: h1) with (h0 ++ [(c, Some x)] ++ h1). rewrite app_assoc.
      eapply IH; [eapply happens_done; eassumption|exact E1].
    + destruct (play s' r) as [[h1 z1]|] eqn:E1; [|discriminate]. injection P as <- <-.
      change (h0 ++ (c, None) :: h1) with (h0 ++ [(c, None)] ++ h1). rewrite app_assoc.
      eapply IH; [eapply happens_fail; eassumption|exact E1].
Qed.
(** a run with errors, remeshing and subcycling *)
Definition exCalls : list (call nat) :=
  [ GetMaxTimeStepSize; SetMeshVertices 1 2 [0; 0; 1; 0]%Q; SetMeshEdge 1 0 1; SetMeshVertex 1 [5; 5]%Q;
    WriteData 1 7 [0; 1; 0]%Z [1; 2; 3]%Q; Initialize (Some (exIn 0));
    Initialize (Some (exIn 0)); SetMeshVertex 1 [6; 6]%Q; ReadData 2 8 [1; 0; 1]%Z 5 3;
    WriteData 1 7 [2]%Z [9]%Q; WriteData 1 7 [3]%Z [9]%Q; Advance (Some 10%Z) false (Some (exIn 1));
    ResetMesh 1; SetMeshVertices 1 1 [7; 7]%Q; Advance (Some 4%Z) false (Some (exIn 1));
    WriteData 1 7 [0]%Z [8]%Q ].
Definition exRun := play exStart exCalls.
Example exRun_results : option_map (fun x => map snd (fst x)) exRun = Some
  [ None; Some (RIds [0; 1]); Some RUnit; Some (RIds [2]); Some RUnit;
    Some (RStored [(1, 7, 0%Z, [3; 2; 0]%Q)]);
    None; None; Some (RValues [4; 3; 4]%Q);
    Some RUnit; None; Some (RStored [(1, 7, 10%Z, [0; 0; 9]%Q)]);
    Some RUnit; Some (RIds [0]); None; Some RUnit ].
Proof. vm_compute. reflexivity. Qed.
Lemma exRun_happens h z : exRun = Some (h, z) -> happens exWorld exStart h z.
Proof. unfold exRun. intros E. exact (play_happens exCalls exStart [] exStart h z (happens_start _ _) E). Qed.
Definition exHist : list (call nat * option result) := match exRun with Some (h, _) => h | None => [] end.
Definition exEnd : state nat := match exRun with Some (_, z) => z | None => exStart end.
Example exHist_happens : happens exWorld exStart exHist exEnd.
Proof.
  apply exRun_happens. unfold exHist, exEnd.
  assert (N : exRun <> None) by (vm_compute; discriminate). destruct exRun as [[h z]|]; [reflexivity|congruence].
Qed.

(** ** C21: the life cycle *)

(** A call can only succeed in the phases the documentation allows, where the
    phase follows from the successful calls of initialize() and finalize()
    alone; errors do not change it. *)
Theorem C21_calls_follow_the_life_cycle :
  forall (C : Type) (W : world C) s0 h s, started s0 -> happens W s0 h s ->
  (forall c s' r, step W s c = Done s' r -> allowed (life h) c) /\
  (forall dt p e s' r, step W s (Advance dt p e) = Done s' r ->
     step W s IsCouplingOngoing = Done s (RBool true) /\ exists t, dt = Some t /\ (0 < t)%Z) /\
  (life h = Initialized -> exists b, step W s IsCouplingOngoing = Done s (RBool b)) /\
  (life h <> Finalized -> exists s', step W s Finalize = Done s' RUnit).
Proof.
  intros C W s0 h s ST H. destruct (happens_inv W _ _ _ ST H) as [I _].
  rewrite <- (i_phase _ _ _ I). split; [|split; [|split]].
  - intros c s' r E. eapply done_allowed. exact E.
  - intros dt p e s' r E. assert (P := done_allowed W _ _ _ _ E). cbn in P.
    cbn [step] in E |- *. unfold guardFail. rewrite P. cbn.
    unfold advance, guardFail in E. rewrite P in E.
    destruct (_ =? _); [|discriminate]. destruct (negb (st_solver s)); [discriminate|].
    destruct (w_ongoing W (st_cpl s)); [|discriminate]. split; [reflexivity|].
    destruct dt as [t|]; [|discriminate]. exists t. split; [reflexivity|].
    destruct (negb _) in E; [|discriminate]. destruct (Z.ltb_spec 0 t); [assumption|discriminate].
  - intros P. cbn. unfold guardFail. rewrite P. cbn. eauto.
  - intros P. cbn. unfold finalize. destruct (st_phase s); [eauto..|congruence].
Qed.
Print Assumptions C21_calls_follow_the_life_cycle.

(** In a whole history initialize() succeeds at most once, and after a
    successful finalize() only the profiling calls succeed. *)
Theorem C21_initialize_and_finalize_once :
  forall (C : Type) (W : world C) s0 h s, started s0 -> happens W s0 h s ->
  (forall h1 e r h2 e' r' h3, h <> h1 ++ (Initialize e, Some r) :: h2 ++ (Initialize e', Some r') :: h3) /\
  (forall h1 r h2, h = h1 ++ (Finalize, Some r) :: h2 -> forall c r', In (c, Some r') h2 -> is_profiling c).
Proof.
  intros C W s0 h s ST H. split.
  - intros h1 e r h2 e' r' h3 E.
    assert (E2 : h = (h1 ++ (Initialize e, Some r) :: h2) ++ (Initialize e', Some r') :: h3)
      by (rewrite E, <- app_assoc; reflexivity).
    assert (A := happens_allowed W _ _ _ _ _ _ _ ST H E2). cbn in A.
    unfold life in A. rewrite fold_left_app in A. cbn [fold_left life1] in A.
    revert A. apply life_progress. discriminate.
  - intros h1 r h2 E c r' IC. apply in_split in IC. destruct IC as [a [b ->]].
    assert (E2 : h = (h1 ++ (Finalize, Some r) :: a) ++ (c, Some r') :: b)
      by (rewrite E, <- app_assoc; reflexivity).
    assert (A := happens_allowed W _ _ _ _ _ _ _ ST H E2).
    destruct (happens_split W _ _ _ H _ _ _ E2) as [s1 [s2 [H1 _]]].
    rewrite (finalized_stays W _ _ _ ST H1 _ _ _ eq_refl) in A.
    destruct c; cbn in *; congruence || exact I.
Qed.
Print Assumptions C21_initialize_and_finalize_once.

(** A call in a wrong phase is reported as an error and changes nothing, if it
    tests the phase first ([guarded]), or before finalize() for every call but
    advance(). *)
Theorem C21_wrong_phase_is_reported :
  forall (C : Type) (W : world C) s0 h s c, started s0 -> happens W s0 h s ->
  ~ allowed (life h) c -> guarded c \/ (life h <> Finalized /\ ~ is_advance c) -> step W s c = Fail s.
Proof.
  intros C W s0 h s c ST H N G. destruct (happens_inv W _ _ _ ST H) as [I _].
  rewrite <- (i_phase _ _ _ I) in N, G. apply fails_reported; assumption.
Qed.
Print Assumptions C21_wrong_phase_is_reported.

(** The rest of the claim is false.  advance() in a wrong phase, and calls with
    a mesh name after finalize(), use a null pointer before they report
    anything; this happens for every participant. *)
Theorem C21_wrong_phase_reported_always_refuted :
  (forall (C : Type) (W : world C) s0 dt p e, started s0 -> step W s0 (Advance dt p e) = Crash) /\
  (forall (C : Type) (W : world C) s0 h s, started s0 -> happens W s0 h s -> life h = Finalized ->
     forall m pos, step W s (SetMeshVertex m pos) = Crash /\ step W s (GetMeshVertexSize m) = Crash).
Proof.
  split.
  - intros C W s0 dt p e ST. cbn. unfold advance, guardFail. rewrite (sd_sections _ ST), (sd_solver _ ST). reflexivity.
  - intros C W s0 h s ST H L m pos. destruct (happens_inv W _ _ _ ST H) as [I _].
    assert (P := i_phase _ _ _ I). rewrite L in P. cbn. unfold mesh_modify, getMeshVertexSize, mesh_use. rewrite P. auto.
Qed.
Print Assumptions C21_wrong_phase_reported_always_refuted.
(** Profiling sections can still be started after finalize(). *)
Theorem C21_nothing_after_finalize_refuted :
  forall (C : Type) (W : world C) s, exists s', step W s (StartProfilingSection false) = Done s' RUnit.
Proof. intros C W s. eexists. reflexivity. Qed.
Print Assumptions C21_nothing_after_finalize_refuted.

Example C21_example : life exHist = Initialized /\
  step exWorld exEnd (Initialize (Some (exIn 0))) = Fail exEnd /\
  step exWorld exEnd (Advance (Some 11%Z) false (Some (exIn 2))) = Fail exEnd /\
  match step exWorld exEnd (Advance (Some 10%Z) false (Some (exIn 2))) with
  | Done s' (RStored l) => l = [(1, 7, 20%Z, [8]%Q)] /\ w_ongoing exWorld (st_cpl s') = false
  | _ => False
  end.
Proof. vm_compute. repeat split. Qed.

(** ** C22: vertices and connectivity can be set only before initialize() or
    between resetMesh() and the next advance() *)

(** Otherwise every attempt is an error and changes nothing; meshes received
    from others can never be set. *)
Theorem C22_locked_mesh_cannot_be_set :
  forall (C : Type) (W : world C) s0 h s m x c, started s0 -> happens W s0 h s -> life h <> Finalized ->
  lookup m (st_meshes s0) = Some x -> edits c = Some m ->
  editable m h = false \/ mx_provided x = false -> step W s c = Fail s.
Proof.
  intros C W s0 h s m x c ST H LF L ED K. destruct (happens_inv W _ _ _ ST H) as [I _].
  destruct (edits_modify W s c m ED) as [k ->].
  destruct (i_alike _ _ _ I) as [AK AL].
  destruct (lookup_some_in m (st_meshes s0) (st_meshes s) x) as [y Y]; [exact AK|exact L|].
  destruct (AL m y Y) as [x0 [X0 (A1&_)]]. rewrite L in X0. injection X0 as <-.
  apply modify_locked; [rewrite (i_phase _ _ _ I); exact LF|].
  destruct K as [K|K]; [left; rewrite (lock_of _ _ _ _ _ I Y), K; reflexivity|].
  right. exists y. split; [exact Y|congruence].
Qed.
Print Assumptions C22_locked_mesh_cannot_be_set.

(** While a provided mesh may be set, setting vertices and valid connectivity
    succeeds. *)
Theorem C22_open_mesh_can_be_set :
  forall (C : Type) (W : world C) s0 h s m x, started s0 -> happens W s0 h s -> life h <> Finalized ->
  lookup m (st_meshes s0) = Some x -> mx_provided x = true -> editable m h = true ->
  let d := m_dim (mx_mesh x) in
  let valid z := (0 <= z < Z.of_nat (length (points m h)))%Z in
  (forall p, length p = d -> exists s' r, step W s (SetMeshVertex m p) = Done s' r) /\
  (forall n ps, length ps = n * d -> exists s' r, step W s (SetMeshVertices m n ps) = Done s' r) /\
  (forall a b, valid a -> valid b -> exists s', step W s (SetMeshEdge m a b) = Done s' RUnit) /\
  (forall a b c, valid a -> valid b -> valid c -> a <> b -> a <> c -> b <> c ->
     exists s', step W s (SetMeshTriangle m a b c) = Done s' RUnit) /\
  (forall a b c e, d = 3 -> valid a -> valid b -> valid c -> valid e -> NoDup [a; b; c; e] ->
     exists s', step W s (SetMeshTetrahedron m a b c e) = Done s' RUnit).
Proof.
  intros C W s0 h s m x ST H LF L PX ED d valid. destruct (happens_inv W _ _ _ ST H) as [I _].
  destruct (i_alike _ _ _ I) as [AK AL].
  destruct (lookup_some_in m (st_meshes s0) (st_meshes s) x) as [y Y]; [exact AK|exact L|].
  destruct (AL m y Y) as [x0 [X0 (A1&A2&A3&A4)]]. rewrite L in X0. injection X0 as <-.
  assert (PY : mx_provided y = true) by congruence. specialize (A4 PY). fold d in A4.
  assert (NV : nVertices (mx_mesh y) = length (points m h)).
  { rewrite <- (i_points _ _ _ I m y Y PY), map_length. reflexivity. }
  assert (VV : forall z, valid z -> isValidVertexID (mx_mesh y) z = true).
  { intros z [V1 V2]. unfold isValidVertexID. rewrite NV. apply andb_true_iff. split; [apply Z.leb_le|apply Z.ltb_lt]; assumption. }
  assert (MO := fun k => modify_open s0 h s m y k I LF Y PY ED).
  cbn [step]. repeat split.
  - intros p E. rewrite MO. unfold guardFail, addVertices. rewrite A4, E, Nat.eqb_refl.
    destruct (createVertices_total [p] (mx_mesh y)) as [z ->]; [repeat constructor; congruence|]. eauto.
  - intros n ps E. rewrite MO. unfold guardFail, addVertices. rewrite A4, E, Nat.eqb_refl.
    destruct (createVertices_total (columns n d ps) (mx_mesh y)) as [z ->]; [rewrite A4; apply columns_all; exact E|]. eauto.
  - intros a b Va Vb. rewrite MO. unfold ifFull, guardFail. cbn [validIDs forallb]. rewrite !VV by assumption.
    cbn [andb]. destruct (mx_full y); eauto.
  - intros a b c Va Vb Vc N1 N2 N3. rewrite MO. unfold ifFull, guardFail. cbn [validIDs forallb]. rewrite !VV by assumption.
    cbn [uniqueElements existsb]. destruct (Z.eqb_spec a b), (Z.eqb_spec a c), (Z.eqb_spec b c); try congruence.
    cbn [andb orb negb]. destruct (mx_full y); eauto.
  - intros a b c e D3 Va Vb Vc Ve NDD. rewrite MO. unfold ifFull, guardFail. rewrite A4, D3. cbn [Nat.eqb].
    destruct (mx_full y); [|eauto]. cbn [validIDs forallb]. rewrite !VV by assumption. cbn [andb].
    unfold createTetrahedron. rewrite A4, D3.
    assert (DI : distinct4 (Z.to_nat a) (Z.to_nat b) (Z.to_nat c) (Z.to_nat e) = true).
    { unfold valid in *. unfold distinct4.
      inversion NDD as [|? ? Q1 Q2]; subst. inversion Q2 as [|? ? Q3 Q4]; subst. inversion Q4 as [|? ? Q5 Q6]; subst. cbn in *.
      repeat (apply andb_true_iff; split); apply negb_true_iff, Nat.eqb_neq; intros EQ; apply Z2Nat.inj in EQ; intuition. }
    rewrite DI. cbn. eauto.
Qed.
Print Assumptions C22_open_mesh_can_be_set.

(** A mesh only changes by setting it while it may be set, by resetMesh(), by
    initialize(), and by an advance() where it or another mesh was reset. *)
Theorem C22_mesh_changes_only_by_permitted_calls :
  forall (C : Type) (W : world C) s0 h s m x c s' r, started s0 -> happens W s0 h s ->
  lookup m (st_meshes s0) = Some x -> step W s c = Done s' r \/ step W s c = Fail s' ->
  option_map mx_mesh (lookup m (st_meshes s')) = option_map mx_mesh (lookup m (st_meshes s)) \/
  (edits c = Some m /\ mx_provided x = true /\ editable m h = true) \/
  c = ResetMesh m \/ (exists e, c = Initialize e) \/
  (exists dt p e m', c = Advance dt p e /\ (p = true \/ editable m' h = true)).
Proof.
  intros C W s0 h s m x c s' r ST H L E. destruct (happens_inv W _ _ _ ST H) as [I _].
  destruct (i_alike _ _ _ I) as [AK AL].
  destruct (lookup_some_in m (st_meshes s0) (st_meshes s) x) as [y Y]; [exact AK|exact L|].
  destruct (AL m y Y) as [x0 [X0 (A1&_)]]. rewrite L in X0. injection X0 as <-.
  assert (EF : exists r', effect W s c r' s').
  { destruct E as [E|E]; [exists (Some r)|exists None]; apply step_effect; exact E. }
  destruct EF as [r' EF]. destruct (effect_mesh W _ _ _ _ _ _ _ _ I EF Y) as [K|[K|[[K _]|[[e [z [K _]]]|[dt [p [e [z [m' [y' (K&_&_&K2)]]]]]]]]]].
  - left. exact K.
  - right; left. rewrite <- A1. exact K.
  - auto.
  - right; right; right; left. eauto.
  - right; right; right; right. exists dt, p, e, m'. auto.
Qed.
Print Assumptions C22_mesh_changes_only_by_permitted_calls.

(** An attempt that fails changes nothing, except with setMeshQuads(). *)
Theorem C22_failed_attempt_changes_nothing :
  forall (C : Type) (W : world C) s c m s', edits c = Some m -> (forall ids, c <> SetMeshQuads m ids) ->
  step W s c = Fail s' -> s' = s.
Proof. intros C W s c m s'. apply failed_edit. Qed.
Print Assumptions C22_failed_attempt_changes_nothing.

(** setMeshQuads() keeps the triangles of the quads before the wrong one. *)
Definition quadCalls : list (call nat) := [ SetMeshVertices 1 4 [0; 0; 1; 0; 1; 1; 0; 1]%Q ].
Theorem C22_failed_attempt_changes_nothing_refuted :
  exists h s s' x x', started exStart /\ happens exWorld exStart h s /\
  step exWorld s (SetMeshQuads 1 [0; 1; 2; 3; 0; 0; 1; 2]%Z) = Fail s' /\
  lookup 1 (st_meshes s) = Some x /\ lookup 1 (st_meshes s') = Some x' /\
  m_tris (mx_mesh x) = [] /\ m_tris (mx_mesh x') <> [].
Proof.
  destruct (play exStart quadCalls) as [[h s]|] eqn:P; [|vm_compute in P; discriminate].
  assert (HH : happens exWorld exStart h s) by exact (play_happens quadCalls exStart [] exStart h s (happens_start _ _) P).
  vm_compute in P. injection P as <- <-.
  do 5 eexists. split; [exact exStart_started|]. split; [exact HH|].
  split; [vm_compute; reflexivity|]. split; [vm_compute; reflexivity|]. split; [vm_compute; reflexivity|].
  split; [vm_compute; reflexivity|]. vm_compute. discriminate.
Qed.
Print Assumptions C22_failed_attempt_changes_nothing_refuted.

(** Repeated vertex IDs: setMeshTriangle() reports an error, setMeshTriangles()
    accepts the degenerate triangle, setMeshTetrahedron() fails an assertion. *)
Definition triCalls : list (call nat) := [ SetMeshVertices 1 2 [0; 0; 1; 0]%Q ].
Definition exStart3 : state nat := withMeshes exStart [(1, MkCtx (emptyMesh 3) true true false None); (2, MkCtx (emptyMesh 3) false false true None)].
Theorem C22_degenerate_elements_rejected_refuted :
  (exists h s s', happens exWorld exStart h s /\ step exWorld s (SetMeshTriangle 1 0 0 1) = Fail s /\
     step exWorld s (SetMeshTriangles 1 [0; 0; 1]%Z) = Done s' RUnit) /\
  (exists h s, started exStart3 /\ happens exWorld exStart3 h s /\ step exWorld s (SetMeshTetrahedron 1 0 0 1 1) = Crash).
Proof.
  split.
  - destruct (play exStart triCalls) as [[h s]|] eqn:P; [|vm_compute in P; discriminate].
    assert (HH : happens exWorld exStart h s) by exact (play_happens triCalls exStart [] exStart h s (happens_start _ _) P).
    vm_compute in P. injection P as <- <-. do 3 eexists. split; [exact HH|]. split; vm_compute; reflexivity.
  - destruct (play exStart3 [SetMeshVertices 1 2 [0; 0; 0; 1; 0; 0]%Q]) as [[h s]|] eqn:P; [|vm_compute in P; discriminate].
    assert (HH : happens exWorld exStart3 h s) by exact (play_happens _ exStart3 [] exStart3 h s (happens_start _ _) P).
    vm_compute in P. injection P as <- <-. do 2 eexists. split; [|split; [exact HH|vm_compute; reflexivity]].
    constructor; cbn; try reflexivity.
    + repeat constructor; cbn; intuition discriminate.
    + intros m x. destruct m as [|[|[|m]]]; cbn; try discriminate; intros [= <-]; cbn; repeat split; lia.
    + repeat constructor; cbn; tauto.
    + intros w [<-|[]]. cbn. repeat split; [lia|auto|]. eexists; reflexivity.
Qed.
Print Assumptions C22_degenerate_elements_rejected_refuted.

Example C22_example : editable 1 exHist = true /\ editable 2 exHist = false /\
  editable 1 (firstn 12 exHist) = false /\ editable 1 (firstn 5 exHist) = true.
Proof. vm_compute. repeat split. Qed.

(** ** C23: vertex IDs *)
(** [points m h] are the coordinates set for the mesh since its last reset, in
    order.  New vertices get the next IDs, the size is their number, and vertex
    [i] of the mesh has the [i]-th coordinates. *)
Theorem C23_vertex_ids_are_consecutive_and_stable :
  forall (C : Type) (W : world C) s0 h s m x, started s0 -> happens W s0 h s ->
  lookup m (st_meshes s0) = Some x -> mx_provided x = true ->
  (forall p s' r, step W s (SetMeshVertex m p) = Done s' r -> r = RIds [length (points m h)]) /\
  (forall n ps s' r, step W s (SetMeshVertices m n ps) = Done s' r -> r = RIds (seq (length (points m h)) n)) /\
  (life h <> Finalized -> step W s (GetMeshVertexSize m) = Done s (RNat (length (points m h)))) /\
  (exists y, lookup m (st_meshes s) = Some y /\
     forall i, option_map v_coords (nth_error (m_verts (mx_mesh y)) i) = nth_error (points m h) i).
Proof.
  intros C W s0 h s m x ST H L PX. destruct (happens_inv W _ _ _ ST H) as [I _].
  destruct (i_alike _ _ _ I) as [AK AL].
  destruct (lookup_some_in m (st_meshes s0) (st_meshes s) x) as [y Y]; [exact AK|exact L|].
  destruct (AL m y Y) as [x0 [X0 (A1&A2&A3&A4)]]. rewrite L in X0. injection X0 as <-.
  assert (PY : mx_provided y = true) by congruence.
  assert (PT := i_points _ _ _ I m y Y PY).
  assert (NV : nVertices (mx_mesh y) = length (points m h)) by (rewrite <- PT, map_length; reflexivity).
  assert (IDS : forall c s' r, step W s c = Done s' r -> edits c = Some m -> (exists p, c = SetMeshVertex m p) \/ (exists n ps, c = SetMeshVertices m n ps) ->
    exists k, r = RIds (seq (length (points m h)) k) /\ (forall p, c = SetMeshVertex m p -> k = 1) /\ (forall n ps, c = SetMeshVertices m n ps -> k = n)).
  { intros c s' r E ED CC. assert (EF := step_effect W s c (Some r) s' E).
    inversion EF; subst; try (exfalso; destruct CC as [[? CC]|[? [? CC]]]; subst; discriminate).
    match goal with K : opened _ _ _ |- _ => destruct K as [PF [LX _]] end.
    match goal with K : _ \/ (exists n l, _ = SetMeshVertices _ n l /\ _) |- _ => destruct K as [[-> LP]|[n [l (->&EP&EL)]]] end; cbn in ED; injection ED as ->; rewrite Y in LX; injection LX as <-.
    - exists 1. rewrite NV, LP. repeat split; intros; congruence.
    - exists n. rewrite EP, columns_length, NV. repeat split; intros; congruence. }
  split; [|split; [|split]].
  - intros p s' r E. destruct (IDS _ _ _ E eq_refl (or_introl (ex_intro _ p eq_refl))) as [k (->&K&_)].
    rewrite (K p eq_refl). reflexivity.
  - intros n ps s' r E. destruct (IDS _ _ _ E eq_refl (or_intror (ex_intro _ n (ex_intro _ ps eq_refl)))) as [k (->&_&K)].
    rewrite (K n ps eq_refl). reflexivity.
  - intros LF. cbn. unfold getMeshVertexSize, mesh_use, guardFail. rewrite (i_phase _ _ _ I), Y, PY.
    destruct (life h); cbn; try congruence; rewrite NV; reflexivity.
  - exists y. split; [exact Y|]. intros i. rewrite <- PT. symmetry. apply nth_error_map.
Qed.
Print Assumptions C23_vertex_ids_are_consecutive_and_stable.

(** Without a reset, later calls leave the coordinates of an ID as they are. *)
Theorem C23_ids_keep_their_coordinates :
  forall (C : Type) (m : nat) (h h2 : @history C) i p,
  (forall r, ~ In (ResetMesh m, Some r) h2) -> nth_error (points m h) i = Some p ->
  nth_error (points m (h ++ h2)) i = Some p.
Proof.
  intros C m h h2 i p NR E. unfold points. rewrite fold_left_app. fold (points m h).
  revert E. generalize (points m h). induction h2 as [|[c [r|]] t IH]; intros ps E; cbn [fold_left]; [exact E| |].
  - apply IH; [intros r' K; apply (NR r'); right; exact K|].
    assert (NR0 := NR r).
    destruct c; cbn [points1]; try exact E; try (destruct (Nat.eqb_spec m0 m) as [->|N]; [|exact E]);
      try (rewrite nth_error_app1; [exact E|]; apply nth_error_Some; congruence).
    exfalso. apply NR0. left. reflexivity.
  - rewrite points_none. apply IH; [intros r' K; apply (NR r'); right; exact K|exact E].
Qed.
Print Assumptions C23_ids_keep_their_coordinates.
Example C23_example : points 1 (firstn 12 exHist) = [[0; 0]; [1; 0]; [5; 5]]%Q /\ points 1 exHist = [[7; 7]]%Q /\
  step exWorld exEnd (GetMeshVertexSize 1) = Done exEnd (RNat 1).
Proof. vm_compute. repeat split. Qed.

(** ** C24: written and read values *)
(** initialize() hands over, for every provided mesh (and for received meshes
    if remeshing is off), exactly one sample: it holds the last value written
    for every vertex, or zero. *)
Theorem C24_initialize_hands_over_written_values :
  forall (C : Type) (W : world C) s0 h s e s' l w x y, started s0 -> happens W s0 h s ->
  step W s (Initialize (Some e)) = Done s' (RStored l) ->
  In w (st_writes s0) -> lookup (wr_mesh w) (st_meshes s0) = Some x -> mx_provided x = true \/ st_remeshing s0 = false ->
  no_write_before_reset (wr_mesh w) (wr_data w) h ->
  lookup (wr_mesh w) (st_meshes s') = Some y ->
  hands_over l (wr_mesh w) (wr_data w) 0 (nVertices (mx_mesh y)) (wr_dims w) h.
Proof.
  intros C W s0 h s e s' l w x y ST H E IW LX P NW LY. destruct (happens_inv W _ _ _ ST H) as [I V].
  destruct (i_alike _ _ _ I) as [AK AL].
  assert (ND : NoDup (map fst (st_meshes s))) by (rewrite AK; apply (i_nodup _ _ _ I)).
  destruct (init_shape W _ _ _ _ E ND) as (P1&P2&P3&P4&P5&P6&P7&P8&P9&P10&P11&P12&P13&P14).
  injection P11 as ->. rewrite P8 in LY.
  change (map (fitOne (readied W s e)) (st_writes s)) with (settled W true s e).
  assert (KE : map wkey (settled W true s e) = map wkey (st_writes s0)).
  { rewrite <- (i_wkeys _ _ _ I). cbn. rewrite map_map. apply map_ext. apply fitOne_key. }
  destruct (wkeys_in _ _ _ KE IW) as [u (IU&U1&U2&U3)].
  assert (NDW : NoDup (map (fun w => (wr_mesh w, wr_data w)) (settled W true s e))) by (eapply wkeys_nodup; [exact KE|apply (i_wnodup _ _ _ I)]).
  rewrite <- U1, <- U2, <- U3 in *. exists (wr_buf u).
  assert (LC : life h = Constructed) by (rewrite <- (i_phase _ _ _ I); exact P1).
  assert (PY : mx_provided y = true \/ st_remeshing s = false).
  { rewrite (i_remeshing _ _ _ I). destruct P as [P|P]; [left|right; exact P].
    destruct (readied_alike W s0 s e (i_alike _ _ _ I)) as [_ RA]. destruct (RA _ _ LY) as [x0 [X0 (A1&_)]]. congruence. }
  assert (G := settled_good W s0 h s true e u y I V ltac:(congruence) (or_intror (or_introl LC)) IU LY PY NW).
  destruct G as (G1&G2&G3).
  assert (LN : length (wr_buf u) = nVertices (mx_mesh y) * wr_dims u).
  { cbn in IU. apply in_map_iff in IU. destruct IU as [u0 [<- IU]]. rewrite fitOne_mesh in LY. rewrite fitOne_dims. apply fitOne_length. exact LY. }
  split; [|split; [exact LN|]].
  - apply stored_entry; auto.
  - intros v Lv. apply G3; assumption.
Qed.
Print Assumptions C24_initialize_hands_over_written_values.

(** The same for advance(), for the time that is reached, if the time window
    ends or the scheme exchanges substeps. *)
Theorem C24_advance_hands_over_written_values :
  forall (C : Type) (W : world C) s0 h s dt p e s' l w x y, started s0 -> happens W s0 h s ->
  step W s (Advance (Some dt) p (Some e)) = Done s' (RStored l) ->
  In w (st_writes s0) -> lookup (wr_mesh w) (st_meshes s0) = Some x -> mx_provided x = true \/ st_remeshing s0 = false ->
  no_write_before_reset (wr_mesh w) (wr_data w) h ->
  lookup (wr_mesh w) (st_meshes s') = Some y ->
  exists c atEnd, w_addTime W (st_cpl s) dt = Some (c, atEnd) /\
  if atEnd || w_substeps W c then hands_over l (wr_mesh w) (wr_data w) (w_time W c) (nVertices (mx_mesh y)) (wr_dims w) h else l = [].
Proof.
  intros C W s0 h s dt p e s' l w x y ST H E IW LX P NW LY. destruct (happens_inv W _ _ _ ST H) as [I V].
  destruct (i_alike _ _ _ I) as [AK AL].
  assert (ND : NoDup (map fst (st_meshes s))) by (rewrite AK; apply (i_nodup _ _ _ I)).
  destruct (adv_shape W _ _ _ _ _ _ E ND) as [c [atEnd (A0&P1&P2&P3&P4&P5&P6&P7&P8&P9&P10&P11&P12&P13&P14&P15)]].
  exists c, atEnd. split; [exact A0|]. injection P14 as ->. destruct (atEnd || w_substeps W c); [|reflexivity].
  rewrite P11 in LY.
  assert (KE : map wkey (settled W (redo s p atEnd) s e) = map wkey (st_writes s0)).
  { rewrite <- (i_wkeys _ _ _ I). unfold settled. destruct (redo s p atEnd); [|reflexivity].
    rewrite map_map. apply map_ext. apply fitOne_key. }
  destruct (wkeys_in _ _ _ KE IW) as [u (IU&U1&U2&U3)].
  assert (NDW : NoDup (map (fun w => (wr_mesh w, wr_data w)) (settled W (redo s p atEnd) s e))) by (eapply wkeys_nodup; [exact KE|apply (i_wnodup _ _ _ I)]).
  rewrite <- U1, <- U2, <- U3 in *. exists (wr_buf u).
  assert (LC : life h = Initialized) by (rewrite <- (i_phase _ _ _ I); exact P1).
  assert (PY : mx_provided y = true \/ st_remeshing s = false).
  { rewrite (i_remeshing _ _ _ I). destruct P as [P|P]; [left|right; exact P].
    destruct (readied_alike W s0 s e (i_alike _ _ _ I)) as [_ RA].
    destruct (redo s p atEnd); [destruct (RA _ _ LY) as [x0 [X0 (A1&_)]]|destruct (AL _ _ LY) as [x0 [X0 (A1&_)]]]; congruence. }
  assert (B : st_remeshing s = true \/ life h = Constructed \/ redo s p atEnd = false).
  { unfold redo. destruct (st_remeshing s); auto. }
  assert (G := settled_good W s0 h s _ e u y I V ltac:(congruence) B IU LY PY NW).
  destruct G as (G1&G2&G3).
  assert (LN := settled_fit W s0 h s p atEnd e u y I LC P4 IU LY).
  split; [|split; [exact LN|]].
  - apply stored_entry; auto.
  - intros v Lv. apply G3; assumption.
Qed.
Print Assumptions C24_advance_hands_over_written_values.

(** An invalid vertex ID or a buffer of the wrong size is an error and changes
    nothing; otherwise the call succeeds. *)
Theorem C24_write_is_checked :
  forall (C : Type) (W : world C) s0 h s m d ids vs x w, started s0 -> happens W s0 h s -> life h <> Finalized ->
  lookup m (st_meshes s) = Some x -> findWrite s m d = Some w ->
  let correct := length ids * wr_dims w = length vs /\ forall z, In z ids -> (0 <= z < Z.of_nat (nVertices (mx_mesh x)))%Z in
  (~ correct -> step W s (WriteData m d ids vs) = Fail s) /\
  (correct -> mx_provided x = true \/ mx_direct x = true ->
   life h = Constructed \/ w_ongoing W (st_cpl s) = true ->
   exists s', step W s (WriteData m d ids vs) = Done s' RUnit).
Proof.
  intros C W s0 h s m d ids vs x w ST H LF L F correct. destruct (happens_inv W _ _ _ ST H) as [I V].
  assert (PH := i_phase _ _ _ I).
  assert (INW : In d (st_names s)).
  { rewrite (i_names _ _ _ I). apply find_some in F. destruct F as [F1 F2].
    apply andb_true_iff in F2. destruct F2 as [F3 F4]. apply Nat.eqb_eq in F3, F4.
    destruct (wkeys_in _ _ _ (eq_sym (i_wkeys _ _ _ I)) F1) as [u (U0&U1&U2&U3)].
    destruct (sd_bufs _ ST u U0) as (_&_&K&_). congruence. }
  assert (DW : forall k, existsb (Nat.eqb d) (st_names s) = true -> mx_provided x || mx_direct x = true -> data_access s m d k = k x).
  { intros k K1 K2. unfold data_access, mesh_use. rewrite PH, L, K1, K2. destruct (life h); cbn; congruence. }
  assert (EX : existsb (Nat.eqb d) (st_names s) = true) by (apply existsb_exists; exists d; split; [exact INW|apply Nat.eqb_refl]).
  cbn [step]. unfold writeData. rewrite PH.
  split.
  - intros NC. destruct (life h) eqn:LH; [| |congruence].
    all: unfold guardFail; destruct (phase_eqb _ _ || w_ongoing W (st_cpl s)); [|reflexivity].
    all: destruct (mx_provided x || mx_direct x) eqn:PD;
      [|unfold data_access, mesh_use; rewrite PH, L, PD; reflexivity].
    all: rewrite DW, F by (assumption || reflexivity).
    all: destruct ((length ids =? 0) && (length vs =? 0)) eqn:Z0;
      [exfalso; apply NC; apply andb_true_iff in Z0; destruct Z0 as [Z1 Z2]; apply Nat.eqb_eq in Z1, Z2;
       destruct ids; [|discriminate]; destruct vs; [|discriminate]; split; [reflexivity|intros z []]|].
    all: destruct (Nat.eqb_spec (length ids * wr_dims w) (length vs)) as [SZ|]; [|reflexivity].
    all: destruct (validIDs (mx_mesh x) ids) eqn:VA; [|reflexivity].
    all: exfalso; apply NC; split; [exact SZ|]; intros z IZ; apply valid_range in VA; rewrite Forall_forall in VA; auto.
  - intros [SZ VA] PD ON.
    assert (PD' : mx_provided x || mx_direct x = true) by (destruct PD as [-> | ->]; auto using orb_true_r).
    assert (VI : validIDs (mx_mesh x) ids = true).
    { unfold validIDs. apply forallb_forall. intros z IZ. unfold isValidVertexID. destruct (VA z IZ).
      apply andb_true_iff. split; [apply Z.leb_le|apply Z.ltb_lt]; assumption. }
    assert (BF : ids <> [] -> nVertices (mx_mesh x) * wr_dims w = length (wr_buf w)).
    { intros NE. assert (F' := find_some _ _ F). destruct F' as [F1 F2]. apply andb_true_iff in F2. destruct F2 as [F3 F4].
      apply Nat.eqb_eq in F3, F4. assert (LW : lookup (wr_mesh w) (st_meshes s) = Some x) by (rewrite F3; exact L).
      destruct (i_buf _ _ _ I w x F1 LW) as [K|[K _]]; [auto|].
      exfalso. destruct ids as [|z t]; [congruence|]. destruct (VA z (or_introl eq_refl)). lia. }
    assert (BODY : exists s', data_access s m d (fun x0 => match findWrite s m d with
        | None => Fail s
        | Some w0 => if (length ids =? 0) && (length vs =? 0) then Done s RUnit else
            guardFail s (length ids * wr_dims w0 =? length vs)
            (guardFail s (validIDs (mx_mesh x0) ids)
             (if nVertices (mx_mesh x0) * wr_dims w0 =? length (wr_buf w0)
              then Done (alterWrite s m d (fun w1 => setBuf w1 (writeValues (wr_dims w1) (zs ids) vs (wr_buf w1)))) RUnit
              else Crash))
        end) = Done s' RUnit).
    { rewrite DW, F by assumption. destruct ids as [|z t].
      - cbn in SZ. destruct vs; [|discriminate]. cbn. eauto.
      - cbn [length Nat.eqb andb]. unfold guardFail. cbn [length] in SZ. rewrite SZ, Nat.eqb_refl, VI, BF, Nat.eqb_refl by discriminate. eauto. }
    destruct BODY as [s' BODY]. exists s'.
    destruct (life h); [| |congruence]; unfold guardFail at 1; cbn [phase_eqb orb].
    + exact BODY.
    + destruct ON as [ON|ON]; [discriminate|]. rewrite ON. exact BODY.
Qed.
Print Assumptions C24_write_is_checked.

(** readData() returns, vertex by vertex in the order of the IDs, the values of
    the waveform at the requested time, and changes nothing; the waveform of
    read data is only replaced by initialize() and advance(). *)
Theorem C24_read_returns_the_values_of_the_vertices :
  forall (C : Type) (W : world C) s m d ids t n s' r, step W s (ReadData m d ids t n) = Done s' r ->
  s' = s /\ exists x rd l, lookup m (st_meshes s) = Some x /\ findRead s m d = Some rd /\ r = RValues l /\ length l = n /\
  (ids <> [] -> exists field, w_sampleAt W (rd_wave rd) (w_time W (st_cpl s) + t) = Some field /\
     length field = nVertices (mx_mesh x) * rd_dims rd /\
     (forall i z, nth_error ids i = Some z -> (0 <= z < Z.of_nat (nVertices (mx_mesh x)))%Z /\
        value_at (rd_dims rd) i l = value_at (rd_dims rd) (Z.to_nat z) field)).
Proof.
  intros C W s m d ids t n s' r H.
  assert (EF := step_effect W s _ (Some r) s' H). 
  assert (ES : s' = s).
  { clear EF. assert (H' : ends (readData W s m d ids t n) (Some r) s') by exact H. unfold readData in H'.
    do 4 (apply ends_guard in H'; destruct H' as [[_ [? _]]|[_ H']]; [discriminate|]).
    apply ends_access in H'. destruct H' as [_ [[? _]|[x [_ [_ H']]]]]; [discriminate|].
    destruct (findRead s m d); [|discriminate]. destruct (checkLock m (st_locks s)) as [[]|]; try discriminate.
    destruct (_ && _); [injection H' as <- <-; reflexivity|].
    do 3 (apply ends_guard in H'; destruct H' as [[_ [? _]]|[_ H']]; [discriminate|]).
    destruct (w_sampleAt W _ _); [|discriminate]. destruct (readValues _ _ _ _); [|discriminate].
    injection H' as <- <-. reflexivity. }
  split; [exact ES|]. subst s'. clear EF.
  assert (H' : ends (readData W s m d ids t n) (Some r) s) by exact H. unfold readData in H'.
  do 4 (apply ends_guard in H'; destruct H' as [[_ [? _]]|[_ H']]; [discriminate|]).
  apply ends_access in H'. destruct H' as [_ [[? _]|[x [LX [_ H']]]]]; [discriminate|].
  destruct (findRead s m d) as [rd|] eqn:FR; [|discriminate]. destruct (checkLock m (st_locks s)) as [[]|]; try discriminate.
  destruct ((length ids =? 0) && (n =? 0)) eqn:Z0.
  - injection H' as <-. exists x, rd, []. apply andb_true_iff in Z0. destruct Z0 as [Z1 Z2]. apply Nat.eqb_eq in Z1, Z2.
    repeat split; auto. intros NE. destruct ids; [congruence|discriminate].
  - apply ends_guard in H'. destruct H' as [[_ [? _]]|[_ H']]; [discriminate|].
    apply ends_guard in H'. destruct H' as [[_ [? _]]|[SZ H']]; [discriminate|]. apply Nat.eqb_eq in SZ.
    apply ends_guard in H'. destruct H' as [[_ [? _]]|[VA H']]; [discriminate|].
    destruct (w_sampleAt W (rd_wave rd) (w_time W (st_cpl s) + t)) as [field|] eqn:FS; [|discriminate].
    unfold readValues in H'. destruct (Nat.eqb_spec (length field) (rd_dims rd * nVertices (mx_mesh x))) as [LF|]; [|discriminate].
    injection H' as <-. rewrite Nat.mul_comm in LF. apply valid_range in VA. rewrite Forall_forall in VA.
    assert (COL : forall z, In z ids -> length (getCol (rd_dims rd) (Z.to_nat z) field) = rd_dims rd).
    { intros z IZ. destruct (VA z IZ). eapply getCol_length; [exact LF|]. lia. }
    assert (LL : forall l, (forall z, In z l -> In z ids) -> length (flat_map (fun v => getCol (rd_dims rd) v field) (zs l)) = length l * rd_dims rd).
    { induction l as [|z l IH]; intros INC; [reflexivity|]. cbn [zs map flat_map length Nat.mul]. fold (zs l). rewrite app_length, COL, IH by (intros; apply INC; cbn; auto). reflexivity. }
    exists x, rd, (flat_map (fun v => getCol (rd_dims rd) v field) (zs ids)).
    repeat split; auto. { rewrite LL by auto. exact SZ. }
    intros NE. exists field. repeat split; auto.
    + apply VA. eapply nth_error_In; eassumption.
    + apply VA. eapply nth_error_In; eassumption.
    + assert (COLS : forall l i z, (forall u, In u l -> In u ids) -> nth_error l i = Some z ->
        value_at (rd_dims rd) i (flat_map (fun v => getCol (rd_dims rd) v field) (zs l)) = getCol (rd_dims rd) (Z.to_nat z) field).
      { induction l as [|u l IH]; intros j y INC NJ; [destruct j; discriminate|].
        assert (CU := COL u (INC u (or_introl eq_refl))). cbn [zs map flat_map]. fold (zs l). unfold value_at in *. destruct j as [|j].
        - cbn in NJ. injection NJ as ->. cbn [Nat.mul skipn]. rewrite firstn_app, CU, Nat.sub_diag, firstn_O, app_nil_r.
          apply firstn_all2. lia.
        - cbn in NJ. rewrite skipn_app, CU. rewrite skipn_all2 by (rewrite CU; cbn; lia).
          replace (S j * rd_dims rd - rd_dims rd) with (j * rd_dims rd) by (cbn; lia).
          rewrite app_nil_l. apply IH; auto. intros; apply INC; cbn; auto. }
      apply COLS; auto.
Qed.
Print Assumptions C24_read_returns_the_values_of_the_vertices.
Theorem C24_read_data_stays_until_advance :
  forall (C : Type) (W : world C) s c s' r, step W s c = Done s' r \/ step W s c = Fail s' ->
  (forall e, c <> Initialize e) -> ~ is_advance c -> st_reads s' = st_reads s.
Proof.
  intros C W s c s' r [E|E] N1 N2; eapply (passive_reads W); try eassumption;
  [apply (step_effect W s c (Some r) s' E)|apply (step_effect W s c None s' E)].
Qed.
Print Assumptions C24_read_data_stays_until_advance.

(** Without [no_write_before_reset] the claim is false: a value written before
    resetMesh() is handed over for the new vertex with the same ID. *)
Definition staleCalls : list (call nat) :=
  [ SetMeshVertices 1 1 [0; 0]%Q; Initialize (Some (exIn 0)); WriteData 1 7 [0]%Z [5]%Q; ResetMesh 1; SetMeshVertices 1 1 [7; 7]%Q ].
Theorem C24_values_do_not_survive_reset_refuted :
  exists h s s', started exStart /\ happens exWorld exStart h s /\ points 1 h = [[7; 7]%Q] /\
  step exWorld s (Advance (Some 10%Z) false (Some (exIn 1))) = Done s' (RStored [(1, 7, 10%Z, [5]%Q)]).
Proof.
  destruct (play exStart staleCalls) as [[h s]|] eqn:P; [|vm_compute in P; discriminate].
  assert (HH : happens exWorld exStart h s) by exact (play_happens staleCalls exStart [] exStart h s (happens_start _ _) P).
  vm_compute in P. injection P as <- <-.
  do 3 eexists. split; [exact exStart_started|]. split; [exact HH|].
  split; vm_compute; reflexivity.
Qed.
Print Assumptions C24_values_do_not_survive_reset_refuted.

Example C24_example : no_write_before_reset 1 7 exHist /\ written 1 7 exHist = [(0%Z, [8]%Q)] /\
  written 1 7 (firstn 5 exHist) = [(0%Z, [3]%Q); (1%Z, [2]%Q); (0%Z, [1]%Q)] /\
  map (fun v => latest 1 v (written 1 7 (firstn 5 exHist))) [0; 1; 2] = [[3]; [2]; [0]]%Q.
Proof.
  split; [|vm_compute; repeat split].
  intros h1 h2 r E.
  assert (K : length h1 = 12).
  { assert (NT : nth_error (map fst exHist) (length h1) = Some (ResetMesh 1)).
    { rewrite E, map_app, nth_error_app2 by (rewrite map_length; lia). rewrite map_length, Nat.sub_diag. reflexivity. }
    clear E. do 12 (destruct h1 as [|? h1]; [vm_compute in NT; discriminate|]). destruct h1 as [|? h1]; [reflexivity|].
    exfalso. do 4 (destruct h1 as [|? h1]; [vm_compute in NT; discriminate|]). vm_compute in NT. destruct h1; discriminate. }
  assert (h1 = firstn 12 exHist) as ->.
  { rewrite E, firstn_app, K. cbn [Nat.sub]. rewrite firstn_all2 by lia. cbn. symmetry. apply app_nil_r. }
  vm_compute. reflexivity.
Qed.
