(* Proofs about the C and Fortran bindings. *)
From Coq Require Import Ascii String List ZArith Bool Lia.
From Verif Require Import M_Bind S_Bind.
Import ListNotations.
Open Scope string_scope.
Open Scope list_scope.
Open Scope Z_scope.

(* Texts *)

Lemma eqb_eq (a b : char) : Ascii.eqb a b = true <-> a = b.
Proof. apply Ascii.eqb_eq. Qed.

Lemma cstring_name n b : cName n b -> cstring b = Ok n.
Proof.
  intros [N [rest ->]]. induction n as [|c n IH]; cbn.
  - reflexivity.
  - destruct (Ascii.eqb c NUL) eqn:E.
    + apply eqb_eq in E. exfalso. apply N. left. exact E.
    + cbn in IH. rewrite IH; [reflexivity|]. intro H. apply N. right. exact H.
Qed.

Lemma nth_error_mid (a : list char) c r : nth_error (a ++ c :: r) (List.length a) = Some c.
Proof. rewrite nth_error_app2 by lia. rewrite Nat.sub_diag. reflexivity. Qed.

Lemma stripLoop_pad n' c pad rest :
  c <> BLANK -> c <> NUL -> (forall x, In x pad -> x = BLANK \/ x = NUL) ->
  stripLoop ((n' ++ [c]) ++ pad ++ rest) (List.length ((n' ++ [c]) ++ pad)) = Ok (List.length (n' ++ [c])).
Proof.
  intros B N. revert rest. induction pad as [|x pad IH] using rev_ind; intros rest P.
  - rewrite app_nil_r, (app_length n'), Nat.add_comm. cbn [List.length Nat.add app stripLoop].
    rewrite <- app_assoc. cbn [app]. rewrite nth_error_mid.
    destruct (Ascii.eqb c BLANK) eqn:E1; [apply eqb_eq in E1; contradiction|].
    destruct (Ascii.eqb c NUL) eqn:E2; [apply eqb_eq in E2; contradiction|]. reflexivity.
  - replace (List.length ((n' ++ [c]) ++ pad ++ [x])) with (S (List.length ((n' ++ [c]) ++ pad)))
      by (repeat rewrite app_length; cbn [List.length]; lia).
    cbn [stripLoop].
    replace ((n' ++ [c]) ++ (pad ++ [x]) ++ rest) with (((n' ++ [c]) ++ pad) ++ x :: rest)
      by (repeat rewrite <- app_assoc; reflexivity).
    rewrite nth_error_mid.
    assert (Ascii.eqb x BLANK || Ascii.eqb x NUL = true) as ->.
    { destruct (P x) as [-> | ->]; [apply in_or_app; right; left; reflexivity| |]; reflexivity. }
    rewrite <- app_assoc. apply IH. intros y Hy. apply P. apply in_or_app. left. exact Hy.
Qed.

Lemma firstn_exact {A} (l r : list A) : firstn (List.length l) (l ++ r) = l.
Proof. rewrite firstn_app, Nat.sub_diag, firstn_all, firstn_O, app_nil_r. reflexivity. Qed.

Lemma stripped_name n s : fName n s -> strippedStringView s = Ok n.
Proof.
  intros (N & (n' & c & En & B) & pad & rest & Et & P & El).
  unfold strippedStringView, strippedLength. rewrite El, Et. unfold len.
  destruct (Z.ltb_spec (Z.of_nat (List.length (n ++ pad))) 0) as [L|_]; [lia|].
  rewrite Nat2Z.id. subst n. rewrite stripLoop_pad; [| exact B | | exact P].
  - cbn [bind]. rewrite firstn_exact. reflexivity.
  - intro E. apply N. apply in_or_app. right. left. exact E.
Qed.

Lemma toSV_clean n : ~ In NUL n -> toSV n = n.
Proof.
  induction n as [|c n IH]; intro N; [reflexivity|]. cbn.
  destruct (Ascii.eqb c NUL) eqn:E.
  - apply eqb_eq in E. exfalso. apply N. left. exact E.
  - rewrite IH; [reflexivity|]. intro H. apply N. right. exact H.
Qed.

(* Arrays *)

Lemma unsigned_small z : 0 <= z < 2 ^ 64 -> toUnsigned z = z.
Proof. apply Z.mod_small. Qed.

Lemma span_begins {A} (l b : list A) z : begins l b -> z = len l -> span b z = Ok l.
Proof.
  intros [r ->] ->. unfold span, len. rewrite app_length.
  destruct (Z.ltb_spec (Z.of_nat (List.length l + List.length r)) (Z.of_nat (List.length l))) as [L|_]; [lia|].
  rewrite Nat2Z.id, firstn_exact. reflexivity.
Qed.

Lemma room_holds {A} n (b : list A) z : holds n b -> z = Z.of_nat n -> room b z = Ok n.
Proof.
  unfold holds. intros H ->. unfold room.
  destruct (Z.ltb_spec (Z.of_nat (List.length b)) (Z.of_nat n)) as [L|_]; [lia|].
  rewrite Nat2Z.id. reflexivity.
Qed.

Lemma poke_overwritten {A} (l b : list A) : (List.length l <= List.length b)%nat -> poke l b = overwritten l b.
Proof.
  unfold poke. revert b. induction l as [|x l IH]; intros b L.
  - destruct b; reflexivity.
  - destruct b as [|y b]; cbn in L; [lia|]. cbn. f_equal. apply IH. lia.
Qed.

Lemma mulInt_ok a b : isInt (a * b) -> mulInt a b = Ok (a * b).
Proof.
  unfold isInt, mulInt. intros [L U].
  destruct (Z.leb_spec (- 2 ^ 31) (a * b)) as [_|H]; [|lia].
  destruct (Z.ltb_spec (a * b) (2 ^ 31)) as [_|H]; [reflexivity|lia].
Qed.

Lemma mulInt_ok' a b c : a * b = c -> isInt c -> mulInt a b = Ok c.
Proof. intros <- H. apply mulInt_ok. exact H. Qed.

Section Library.
Variable W : library.
Hypothesis HW : sane W.

Lemma participant_cases p c :
  (exists p' r, participant W p c = Ok (p', r)) \/ participant W p c = Throw.
Proof.
  unfold participant. destruct (answers W HW p (handOn c)) as [[[p' r] E]|E].
  - left. exists p', r. exact E.
  - right. exact E.
Qed.

Lemma participant_typed p c p' r : participant W p c = Ok (p', r) -> returns (handOn c) r.
Proof. apply (typed W HW). Qed.

Lemma mesh_cases p m :
  (exists d, meshDimensions W p m = Ok (p, d) /\ meshDim W p m d /\ 1 <= d <= 3) \/
  (meshDimensions W p m = Throw /\
   forall c, usesMesh (toSV m) (handOn c) -> participant W p c = Throw).
Proof.
  unfold meshDimensions, meshDim.
  destruct (participant_cases p (GetMeshDimensions m)) as [(p' & r & E)|E].
  - left. pose proof E as Q. unfold participant in Q. cbn [handOn] in Q.
    apply (meshQuery W HW) in Q. destruct Q as [-> (d & -> & B)].
    exists d. rewrite E. cbn. split; [reflexivity|]. split; [exists p; reflexivity|exact B].
  - right. rewrite E. split; [reflexivity|]. intros c U. unfold participant in *. cbn [handOn] in E.
    exact (meshRefused W HW p (toSV m) (handOn c) E U).
Qed.

Lemma data_cases p m n :
  (exists d, dataDimensions W p m n = Ok (p, d) /\ dataDim W p m n d /\ 1 <= d <= 3) \/
  (dataDimensions W p m n = Throw /\
   forall c, usesData (toSV m) (toSV n) (handOn c) -> participant W p c = Throw).
Proof.
  unfold dataDimensions, dataDim.
  destruct (participant_cases p (GetDataDimensions m n)) as [(p' & r & E)|E].
  - left. pose proof E as Q. unfold participant in Q. cbn [handOn] in Q.
    apply (dataQuery W HW) in Q. destruct Q as [-> (d & -> & B)].
    exists d. rewrite E. cbn. split; [reflexivity|]. split; [exists p; reflexivity|exact B].
  - right. rewrite E. split; [reflexivity|]. intros c U. unfold participant in *. cbn [handOn] in E.
    exact (dataRefused W HW p (toSV m) (toSV n) (handOn c) E U).
Qed.

Definition follows {O : Type} (x : R (option (state W) * ret)) (y : R (option (state W) * O))
    (seen : ret -> O) : Prop :=
  match x with
  | Ok (s', r) => y = Ok (s', seen r)
  | Throw | Terminate => y = Terminate
  | UB => y = UB
  end.

Ltac names :=
  repeat match goal with
  | H : cName ?n ?b |- _ => rewrite (cstring_name n b H); clear H
  | H : fName ?n ?b |- _ => rewrite (stripped_name n b H); clear H
  end.

Ltac result c :=
  match goal with
  | |- context [participant W ?p c] =>
      let E := fresh "E" in let p' := fresh "p'" in let r := fresh "r" in let Ty := fresh "Ty" in
      destruct (participant_cases p c) as [(p' & r & E)|E]; rewrite E; cbn [bind fst snd tryAbort follows];
      [pose proof (participant_typed _ _ _ _ E) as Ty; cbn [handOn returns] in Ty
      |reflexivity]
  end.

Ltac finish :=
  repeat match goal with
  | H : exists _, _ |- _ => destruct H
  | H : _ /\ _ |- _ => destruct H
  end; subst; cbn [asInt asBool asDouble asInts asDoubles asBoth bind fst snd tryAbort simple];
  try reflexivity;
  try match goal with b : bool |- _ => destruct b; reflexivity end.

Ltac int := unfold isInt, len in *; lia.

Ltac dims p m :=
  let d := fresh "dm" in let Q := fresh "Q" in let D := fresh "D" in let B := fresh "B" in
  destruct (mesh_cases p m) as [(d & Q & D & B)|[Q Rm]]; rewrite Q; cbn [bind fst snd];
  [|rewrite Rm by reflexivity; reflexivity].
Ltac ddims p m n :=
  let d := fresh "dd" in let Q := fresh "Q" in let D := fresh "D" in let B := fresh "B" in
  destruct (data_cases p m n) as [(d & Q & D & B)|[Q Rm]]; rewrite Q; cbn [bind fst snd];
  [|rewrite Rm by (cbn [handOn usesData]; split; reflexivity); reflexivity].

Ltac arrays :=
  repeat first
    [ rewrite unsigned_small by int
    | match goal with
      | H : begins ?l ?b |- context [span ?b ?z] => rewrite (span_begins l b z H) by int; cbn [bind]
      | H : holds ?n ?b |- context [room ?b ?z] => rewrite (room_holds n b z H) by int; cbn [bind]
      end ].

(* C *)

Lemma c_step s c size cc :
  cWrites W c size cc -> cAllowed W s c ->
  (forall p c', s = Some p -> c = Call c' -> fits W p c' size) ->
  follows (cxxStep W s c) (cStep W s cc) (cSeen W cc).
Proof.
  intros Wr Al Fi. unfold cAllowed in Al.
  destruct s as [p|].
  2:{ destruct Wr; cbn [cxxStep follows cStep];
      try (exfalso; exact (Al eq_refl)); try reflexivity;
      unfold precicec_createParticipant, precicec_createParticipant_withCommunicator; names; cbn [bind];
      match goal with |- context [newParticipant W ?a ?b ?c ?d ?e] =>
        destruct (newParticipant W a b c d e); reflexivity end. }
  destruct Wr; cbn [cxxStep cStep]; try reflexivity;
    specialize (Fi p _ eq_refl eq_refl); cbn [fits] in Fi.
  - unfold precicec_initialize. cbn [checked bind]. result Initialize. finish.
  - unfold precicec_advance. cbn [checked bind]. result (Advance dt). finish.
  - unfold precicec_finalize. cbn [checked bind]. result Finalize. finish.
  - unfold precicec_getMeshDimensions. names. cbn [checked bind]. result (GetMeshDimensions m). finish.
  - unfold precicec_getDataDimensions. names. cbn [checked bind]. result (GetDataDimensions m d). finish.
  - unfold precicec_isCouplingOngoing. cbn [checked bind]. result IsCouplingOngoing. finish.
  - unfold precicec_isTimeWindowComplete. cbn [checked bind]. result IsTimeWindowComplete. finish.
  - unfold precicec_getMaxTimeStepSize. cbn [arrow bind]. result GetMaxTimeStepSize. finish.
  - unfold precicec_requiresInitialData. cbn [checked bind]. result RequiresInitialData. finish.
  - unfold precicec_requiresWritingCheckpoint. cbn [checked bind]. result RequiresWritingCheckpoint. finish.
  - unfold precicec_requiresReadingCheckpoint. cbn [checked bind]. result RequiresReadingCheckpoint. finish.
  - unfold precicec_requiresMeshConnectivityFor. names. cbn [checked bind]. result (RequiresMeshConnectivityFor m). finish.
  - unfold precicec_resetMesh. names. cbn [checked bind]. result (ResetMesh m). finish.
  - unfold precicec_setMeshVertex. names. cbn [checked bind]. dims p m. specialize (Fi _ D). arrays.
    result (SetMeshVertex m x). finish.
  - unfold precicec_setMeshVertices. names. cbn [checked bind]. dims p m.
    destruct Fi as (I1 & I2 & I3). destruct (I3 _ D) as [I4 I5].
    rewrite (mulInt_ok' dm size (len x)) by int. cbn [bind]. arrays.
    result (SetMeshVertices m x n). finish. cbn [cSeen]. rewrite poke_overwritten by assumption. reflexivity.
  - unfold precicec_getMeshVertexSize. names. cbn [checked bind]. result (GetMeshVertexSize m). finish.
  - unfold precicec_setMeshEdge. names. cbn [checked bind]. result (SetMeshEdge m a b). finish.
  - unfold precicec_setMeshEdges. names. cbn [checked bind]. destruct Fi as (I1 & I2).
    unfold mulUnsigned. rewrite Z.mod_small; rewrite unsigned_small by int; [|int]. arrays.
    result (SetMeshEdges m l). finish.
  - unfold precicec_setMeshTriangle. names. cbn [checked bind]. result (SetMeshTriangle m a b c). finish.
  - unfold precicec_setMeshTriangles. names. cbn [checked bind]. destruct Fi as (I1 & I2).
    unfold mulUnsigned. rewrite Z.mod_small; rewrite unsigned_small by int; [|int]. arrays.
    result (SetMeshTriangles m l). finish.
  - unfold precicec_setMeshQuad. names. cbn [checked bind]. result (SetMeshQuad m a b c e). finish.
  - unfold precicec_setMeshQuads. names. cbn [checked bind]. destruct Fi as (I1 & I2).
    unfold mulUnsigned. rewrite Z.mod_small; rewrite unsigned_small by int; [|int]. arrays.
    result (SetMeshQuads m l). finish.
  - unfold precicec_setMeshTetrahedron. names. cbn [checked bind]. result (SetMeshTetrahedron m a b c e). finish.
  - unfold precicec_setMeshTetrahedra. names. cbn [checked bind]. destruct Fi as (I1 & I2).
    unfold mulUnsigned. rewrite Z.mod_small; rewrite unsigned_small by int; [|int]. arrays.
    result (SetMeshTetrahedra m l). finish.
  - unfold precicec_writeData. names. cbn [checked bind]. ddims p m d.
    destruct Fi as (I1 & I2 & I3). destruct (I3 _ D) as [I4 I5].
    rewrite (mulInt_ok' size dd (len v)) by int. cbn [bind]. arrays.
    result (WriteData m d l v). finish.
  - unfold precicec_readData. names. cbn [checked bind]. ddims p m d.
    destruct Fi as (I1 & I2 & I3). destruct (I3 _ D) as [I4 I5].
    rewrite (mulInt_ok' size dd (dd * size)) by int. cbn [bind]. arrays.
    result (ReadData m d l t n). finish. cbn [cSeen]. rewrite poke_overwritten by assumption. reflexivity.
  - unfold precicec_writeAndMapData. names. cbn [checked bind]. dims p m.
    destruct Fi as (I1 & I2 & I3). destruct (I2 _ D) as [I4 I5].
    rewrite (mulInt_ok' size dm (len x)) by int. cbn [bind]. ddims p m d.
    destruct (I3 _ D0) as [I6 I7]. rewrite (mulInt_ok' size dd (len v)) by int. cbn [bind]. arrays.
    result (WriteAndMapData m d x v). finish.
  - unfold precicec_mapAndReadData. names. cbn [checked bind]. dims p m.
    destruct Fi as (I1 & I2 & I3). destruct (I2 _ D) as [I4 I5].
    rewrite (mulInt_ok' size dm (len x)) by int. cbn [bind]. ddims p m d.
    destruct (I3 _ D0) as [I6 I7]. rewrite (mulInt_ok' size dd (dd * size)) by int. cbn [bind]. arrays.
    result (MapAndReadData m d x t n). finish. cbn [cSeen]. rewrite poke_overwritten by assumption. reflexivity.
  - unfold precicec_requiresGradientDataFor. names. cbn [checked bind]. result (RequiresGradientDataFor m d). finish.
  - unfold precicec_writeGradientData. names. cbn [checked bind]. ddims p m d. dims p m.
    destruct Fi as (I1 & I2 & I3). destruct (I3 _ _ D0 D) as [I4 I5].
    rewrite (mulInt_ok' dd dm (dd * dm)) by (try reflexivity; unfold isInt; nia). cbn [bind].
    rewrite (mulInt_ok' size (dd * dm) (len v)) by int. cbn [bind]. arrays.
    result (WriteGradientData m d l v). finish.
  - unfold precicec_setMeshAccessRegion. names. cbn [arrow bind]. dims p m. specialize (Fi _ D).
    unfold mulUnsigned. rewrite Z.mod_small; rewrite unsigned_small by int; [|int]. arrays.
    result (SetMeshAccessRegion m x). finish.
  - unfold precicec_getMeshVertexIDsAndCoordinates. names. cbn [arrow bind]. dims p m.
    destruct Fi as (I1 & I2 & I3). destruct (I3 _ D) as [I4 I5].
    rewrite (mulInt_ok' dm size (dm * size)) by int. cbn [bind]. arrays.
    result (GetMeshVertexIDsAndCoordinates m n k). finish. cbn [cSeen].
    rewrite poke_overwritten by assumption. rewrite poke_overwritten by assumption. reflexivity.
  - unfold precicec_startProfilingSection. names. cbn [arrow bind]. result (StartProfilingSection s). finish.
  - unfold precicec_stopLastProfilingSection. cbn [arrow bind]. result StopLastProfilingSection. finish.
Qed.

(* Fortran *)

Lemma f_step s c size cc :
  fWrites W c size cc -> fAllowed W s c ->
  (forall p c', s = Some p -> c = Call c' -> fits W p c' size) ->
  follows (cxxStep W s c) (fStep W s cc) (fSeen cc).
Proof.
  intros Wr Al Fi. unfold fAllowed in Al.
  destruct s as [p|].
  2:{ destruct Wr; cbn [cxxStep follows fStep]; try reflexivity;
      unfold precicef_create, precicef_create_with_communicator; names; cbn [bind];
      match goal with |- context [newParticipant W ?a ?b ?c ?d ?e] =>
        destruct (newParticipant W a b c d e); reflexivity end. }
  destruct Wr; cbn [cxxStep fStep];
    try (exfalso; apply Al; discriminate);
    specialize (Fi p _ eq_refl eq_refl); cbn [fits] in Fi.
  - unfold precicef_initialize. cbn [checked bind]. result Initialize. finish.
  - unfold precicef_advance. cbn [checked bind]. result (Advance dt). finish.
  - unfold precicef_finalize. cbn [checked bind]. result Finalize. finish.
  - unfold precicef_get_mesh_dimensions. names. cbn [checked bind]. result (GetMeshDimensions m). finish.
  - unfold precicef_get_data_dimensions. names. cbn [checked bind]. result (GetDataDimensions m d). finish.
  - unfold precicef_is_coupling_ongoing. cbn [checked bind]. result IsCouplingOngoing. finish.
  - unfold precicef_is_time_window_complete. cbn [checked bind]. result IsTimeWindowComplete. finish.
  - unfold precicef_get_max_time_step_size. cbn [checked bind]. result GetMaxTimeStepSize. finish.
  - unfold precicef_requires_initial_data. cbn [checked bind]. result RequiresInitialData. finish.
  - unfold precicef_requires_writing_checkpoint. cbn [checked bind]. result RequiresWritingCheckpoint. finish.
  - unfold precicef_requires_reading_checkpoint. cbn [checked bind]. result RequiresReadingCheckpoint. finish.
  - unfold precicef_requires_mesh_connectivity_for. names. cbn [checked bind]. result (RequiresMeshConnectivityFor m). finish.
  - unfold precicef_reset_mesh. names. cbn [checked bind]. result (ResetMesh m). finish.
  - unfold precicef_set_mesh_vertex. names. cbn [checked bind]. dims p m. specialize (Fi _ D). arrays.
    result (SetMeshVertex m x). finish.
  - unfold precicef_set_vertex, precicef_set_mesh_vertex. names. cbn [checked bind]. dims p m. specialize (Fi _ D). arrays.
    result (SetMeshVertex m x). finish.
  - unfold precicef_set_mesh_vertices. names. cbn [checked bind]. dims p m.
    destruct Fi as (I1 & I2 & I3). destruct (I3 _ D) as [I4 I5].
    rewrite (mulInt_ok' dm size (len x)) by int. cbn [bind]. arrays.
    result (SetMeshVertices m x n). finish. cbn [fSeen]. rewrite poke_overwritten by assumption. reflexivity.
  - unfold precicef_set_vertices, precicef_set_mesh_vertices. names. cbn [checked bind]. dims p m.
    destruct Fi as (I1 & I2 & I3). destruct (I3 _ D) as [I4 I5].
    rewrite (mulInt_ok' dm size (len x)) by int. cbn [bind]. arrays.
    result (SetMeshVertices m x n). finish. cbn [fSeen]. rewrite poke_overwritten by assumption. reflexivity.
  - unfold precicef_get_mesh_vertex_size. names. cbn [checked bind]. result (GetMeshVertexSize m). finish.
  - unfold precicef_set_mesh_edge. names. cbn [checked bind]. result (SetMeshEdge m a b). finish.
  - unfold precicef_set_edge, precicef_set_mesh_edge. names. cbn [checked bind]. result (SetMeshEdge m a b). finish.
  - unfold precicef_set_mesh_edges. names. cbn [checked bind]. destruct Fi as (I1 & I2).
    unfold mulUnsigned. rewrite Z.mod_small; rewrite unsigned_small by int; [|int]. arrays.
    result (SetMeshEdges m l). finish.
  - unfold precicef_set_mesh_triangle. names. cbn [checked bind]. result (SetMeshTriangle m a b c). finish.
  - unfold precicef_set_triangle, precicef_set_mesh_triangle. names. cbn [checked bind]. result (SetMeshTriangle m a b c). finish.
  - unfold precicef_set_mesh_triangles. names. cbn [checked bind]. destruct Fi as (I1 & I2).
    unfold mulUnsigned. rewrite Z.mod_small; rewrite unsigned_small by int; [|int]. arrays.
    result (SetMeshTriangles m l). finish.
  - unfold precicef_set_mesh_quad. names. cbn [checked bind]. result (SetMeshQuad m a b c e). finish.
  - unfold precicef_set_quad, precicef_set_mesh_quad. names. cbn [checked bind]. result (SetMeshQuad m a b c e). finish.
  - unfold precicef_set_mesh_quads. names. cbn [checked bind]. destruct Fi as (I1 & I2).
    unfold mulUnsigned. rewrite Z.mod_small; rewrite unsigned_small by int; [|int]. arrays.
    result (SetMeshQuads m l). finish.
  - unfold precicef_set_mesh_tetrahedron. names. cbn [checked bind]. result (SetMeshTetrahedron m a b c e). finish.
  - unfold precicef_set_tetrahedron, precicef_set_mesh_tetrahedron. names. cbn [checked bind]. result (SetMeshTetrahedron m a b c e). finish.
  - unfold precicef_set_mesh_tetrahedra. names. cbn [checked bind]. destruct Fi as (I1 & I2).
    unfold mulUnsigned. rewrite Z.mod_small; rewrite unsigned_small by int; [|int]. arrays.
    result (SetMeshTetrahedra m l). finish.
  - unfold precicef_write_data. names. cbn [checked bind]. ddims p m d.
    destruct Fi as (I1 & I2 & I3). destruct (I3 _ D) as [I4 I5].
    rewrite (mulInt_ok' size dd (len v)) by int. cbn [bind]. arrays.
    result (WriteData m d l v). finish.
  - unfold precicef_read_data. names. cbn [checked bind]. ddims p m d.
    destruct Fi as (I1 & I2 & I3). destruct (I3 _ D) as [I4 I5].
    rewrite (mulInt_ok' size dd (dd * size)) by int. cbn [bind]. arrays.
    result (ReadData m d l t n). finish. cbn [fSeen]. rewrite poke_overwritten by assumption. reflexivity.
  - unfold precicef_write_and_map_data. names. cbn [checked bind]. dims p m.
    destruct Fi as (I1 & I2 & I3). destruct (I2 _ D) as [I4 I5].
    rewrite (mulInt_ok' size dm (len x)) by int. cbn [bind]. ddims p m d.
    destruct (I3 _ D0) as [I6 I7]. rewrite (mulInt_ok' size dd (len v)) by int. cbn [bind]. arrays.
    result (WriteAndMapData m d x v). finish.
  - unfold precicef_map_and_read_data. names. cbn [checked bind]. dims p m.
    destruct Fi as (I1 & I2 & I3). destruct (I2 _ D) as [I4 I5].
    rewrite (mulInt_ok' size dm (len x)) by int. cbn [bind]. ddims p m d.
    destruct (I3 _ D0) as [I6 I7]. rewrite (mulInt_ok' size dd (dd * size)) by int. cbn [bind]. arrays.
    result (MapAndReadData m d x t n). finish. cbn [fSeen]. rewrite poke_overwritten by assumption. reflexivity.
  - unfold precicef_requires_gradient_data_for. names. cbn [checked bind]. result (RequiresGradientDataFor m d). finish.
  - unfold precicef_write_gradient_data. names. cbn [checked bind]. dims p m. ddims p m d.
    destruct Fi as (I1 & I2 & I3). destruct (I3 _ _ D D0) as [I4 I5].
    rewrite (mulInt_ok' dm dd (dm * dd)) by (try reflexivity; unfold isInt; nia). cbn [bind].
    rewrite (mulInt_ok' size (dm * dd) (len v)) by int. cbn [bind]. arrays.
    result (WriteGradientData m d l v). finish.
  - unfold precicef_set_mesh_access_region. names. cbn [checked bind]. dims p m. specialize (Fi _ D).
    rewrite (mulInt_ok' dm 2 (len x)) by int. cbn [bind]. arrays.
    result (SetMeshAccessRegion m x). finish.
  - unfold precicef_get_mesh_vertex_ids_and_coordinates. names. cbn [checked bind]. dims p m.
    destruct Fi as (I1 & I2 & I3). destruct (I3 _ D) as [I4 I5].
    rewrite (mulInt_ok' dm size (dm * size)) by int. cbn [bind]. arrays.
    result (GetMeshVertexIDsAndCoordinates m n k). finish. cbn [fSeen].
    rewrite poke_overwritten by assumption. rewrite poke_overwritten by assumption. reflexivity.
  - unfold precicef_start_profiling_section. names. cbn [checked bind]. result (StartProfilingSection s). finish.
  - unfold precicef_stop_last_profiling_section. cbn [checked bind]. result StopLastProfilingSection. finish.
Qed.

(* Programs *)

Lemma run_follows {C : Type} (step : option (state W) -> C -> R (option (state W) * output))
    (seen : C -> ret -> output) (writes : pcall W -> Z -> C -> Prop)
    (allowed : option (state W) -> pcall W -> Prop) :
  (forall s c size cc, writes c size cc -> allowed s c ->
     (forall p c', s = Some p -> c = Call c' -> fits W p c' size) ->
     follows (cxxStep W s c) (step s cc) (seen cc)) ->
  forall cs ccs s,
  Forall2 (fun c cc => writes (fst c) (snd c) cc) cs ccs -> proper W allowed s cs ->
  run step s ccs =
    (map (fun x => seen (fst x) (snd x)) (combine ccs (fst (run (cxxStep W) s (map fst cs)))),
     inBindings (snd (run (cxxStep W) s (map fst cs)))).
Proof.
  intros Step cs ccs s F. revert s. induction F as [|[c size] cc cs ccs Wr F IH]; intros s Pr.
  - reflexivity.
  - destruct Pr as (Al & Fi & Pr). cbn [map fst snd run] in *.
    pose proof (Step s c size cc Wr Al Fi) as St. unfold follows in St.
    destruct (cxxStep W s c) as [[s' r]| | |] eqn:E.
    + rewrite St, (IH s' (Pr s' r eq_refl)).
      destruct (run (cxxStep W) s' (map fst cs)) as [rs e]. reflexivity.
    + rewrite St. reflexivity.
    + rewrite St. reflexivity.
    + rewrite St. reflexivity.
Qed.

End Library.

(* Fortran texts in general *)

Lemma stripLoop_inv b k n : stripLoop b k = Ok n ->
  (0 < n <= k)%nat /\ (n <= List.length b)%nat /\
  (exists c, nth_error b (n - 1) = Some c /\ c <> BLANK /\ c <> NUL) /\
  forall i, (n <= i < k)%nat -> nth_error b i = Some BLANK \/ nth_error b i = Some NUL.
Proof.
  induction k as [|k IH]; cbn [stripLoop]; [discriminate|].
  destruct (nth_error b k) as [c|] eqn:E; [|discriminate].
  destruct (Ascii.eqb c BLANK) eqn:E1; [|destruct (Ascii.eqb c NUL) eqn:E2]; cbn [orb]; intro H.
  - apply eqb_eq in E1. subst c. destruct (IH H) as (A1 & A2 & A3 & A4). split; [lia|]. split; [exact A2|].
    split; [exact A3|]. intros i Hi. destruct (Nat.eq_dec i k) as [->|N]; [left; exact E|apply A4; lia].
  - apply eqb_eq in E2. subst c. destruct (IH H) as (A1 & A2 & A3 & A4). split; [lia|]. split; [exact A2|].
    split; [exact A3|]. intros i Hi. destruct (Nat.eq_dec i k) as [->|N]; [right; exact E|apply A4; lia].
  - injection H as <-. assert (k < List.length b)%nat by (apply nth_error_Some; congruence).
    split; [lia|]. split; [lia|]. split.
    + exists c. cbn. rewrite Nat.sub_0_r. split; [exact E|].
      split; intros ->; [rewrite (proj2 (eqb_eq _ _) eq_refl) in E1|rewrite (proj2 (eqb_eq _ _) eq_refl) in E2]; discriminate.
    + intros i Hi. lia.
Qed.

Lemma stripped_last s n : strippedStringView s = Ok n -> exists n' c, n = n' ++ [c] /\ c <> BLANK /\ c <> NUL.
Proof.
  unfold strippedStringView, strippedLength. destruct (Z.ltb (textLength s) 0); [discriminate|].
  destruct (stripLoop (text s) (Z.to_nat (textLength s))) as [k| | |] eqn:E; cbn [bind]; try discriminate.
  intro H. injection H as <-. destruct (stripLoop_inv _ _ _ E) as (A1 & A2 & (c & A3 & A4 & A5) & _).
  exists (firstn (k - 1) (text s)), c. split; [|split; assumption].
  assert (nth_error (firstn k (text s)) (k - 1) = Some c) as N.
  { rewrite <- A3. rewrite <- (firstn_skipn k (text s)) at 2. rewrite nth_error_app1; [reflexivity|].
    rewrite firstn_length_le by exact A2. lia. }
  apply nth_error_split in N. destruct N as (l1 & l2 & N1 & N2).
  assert (List.length (firstn k (text s)) = k) as L by (apply firstn_length_le; exact A2).
  rewrite N1 in L. rewrite app_length in L. cbn [List.length] in L.
  assert (l2 = []) as -> by (destruct l2; [reflexivity|cbn [List.length] in L; lia]).
  rewrite N1. f_equal.
  assert (firstn (k - 1) (firstn k (text s)) = firstn (k - 1) (text s)) as <-
    by (rewrite firstn_firstn; f_equal; lia).
  rewrite N1, <- N2. symmetry. apply firstn_exact.
Qed.

Lemma stripLoop_blank b k :
  (forall i, (i < k)%nat -> nth_error b i = Some BLANK \/ nth_error b i = Some NUL) -> stripLoop b k = UB.
Proof.
  induction k as [|k IH]; intro H; cbn [stripLoop]; [reflexivity|].
  destruct (H k (Nat.lt_succ_diag_r k)) as [-> | ->]; cbn [Ascii.eqb]; apply IH; intros i Hi; apply H; lia.
Qed.

(* The version *)

Lemma strncpy_nil n : strncpy [] n = repeat NUL n.
Proof. induction n as [|n IH]; cbn; [reflexivity|]. rewrite IH. reflexivity. Qed.

Lemma strncpy_text v n : ~ In NUL v ->
  strncpy v n = firstn n (v ++ repeat NUL n).
Proof.
  revert v. induction n as [|n IH]; intros v N; [reflexivity|].
  destruct v as [|c v].
  - cbn. rewrite strncpy_nil. f_equal. symmetry.
    rewrite <- (repeat_length NUL n) at 1. apply firstn_all.
  - cbn [strncpy]. destruct (Ascii.eqb c NUL) eqn:E.
    + apply eqb_eq in E. exfalso. apply N. left. exact E.
    + rewrite IH by (intro H; apply N; right; exact H). cbn [app firstn]. f_equal.
      replace (repeat NUL (S n)) with (repeat NUL n ++ [NUL]) by (symmetry; apply repeat_cons).
      rewrite app_assoc. rewrite (firstn_app n (v ++ repeat NUL n)).
      replace (n - List.length (v ++ repeat NUL n))%nat with 0%nat
        by (rewrite app_length, repeat_length; lia).
      cbn [firstn]. rewrite app_nil_r. reflexivity.
Qed.
