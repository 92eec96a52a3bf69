(* C85: A solver that uses the C or Fortran bindings gets what it would get from C++. *)
From Coq Require Import Ascii String List ZArith Bool Lia.
From Verif Require Import M_Bind S_Bind P_Bind.
Import ListNotations.
Open Scope string_scope.
Open Scope list_scope.
Open Scope Z_scope.

(* The C++ interface hands every call on as it is, and creates the participant it is asked
   for; of a name that contains NULs, which is how arrays of characters arrive, it takes
   the part in front of the first one. *)
Theorem C85_cpp : forall (W : library) (p : state W) (c : call),
  (forall n, In n (texts c) -> ~ In NUL n) -> participant W p c = implCall W p c.
Proof.
  intros W p c H. unfold participant. f_equal.
  destruct c; cbn [texts] in H; cbn [handOn]; try reflexivity;
    rewrite ?toSV_clean by (apply H; cbn; auto); reflexivity.
Qed.
Print Assumptions C85_cpp.

Theorem C85_cpp_create : forall (W : library) (name conf rest rest' : list char) (rank size : Z) (k : option (comm W)),
  ~ In NUL name -> ~ In NUL conf ->
  newParticipant W name conf rank size k = construct W name conf rank size k /\
  newParticipant W (name ++ NUL :: rest) (conf ++ NUL :: rest') rank size k = construct W name conf rank size k.
Proof.
  intros W name conf rest rest' rank size k N C. unfold newParticipant.
  assert (forall n r, ~ In NUL n -> toSV (n ++ NUL :: r) = n) as B.
  { induction n as [|c n IH]; intros r H; [reflexivity|]. cbn [app toSV].
    destruct (Ascii.eqb c NUL) eqn:E.
    - apply eqb_eq in E. exfalso. apply H. left. exact E.
    - rewrite IH; [reflexivity|]. intro G. apply H. right. exact G. }
  rewrite !toSV_clean, !B by assumption. split; reflexivity.
Qed.
Print Assumptions C85_cpp_create.

(* Whatever library is behind it and whatever calls a program makes, in any order: written
   in C, with any memory behind its texts and arrays, it sees the results of the C++
   program, entry by entry, writes nothing beyond the arrays, and is aborted where the C++
   program gets an error, among others for calls before the creation, after finalize, and
   for a second creation. *)
Theorem C85_c : forall (W : library), sane W ->
  forall (cs : list (pcall W * Z)) (ccs : list (ccall W)) (s : option (state W)),
  Forall2 (fun c cc => cWrites W (fst c) (snd c) cc) cs ccs ->
  proper W (cAllowed W) s cs ->
  run (cStep W) s ccs =
    (map (fun x => cSeen W (fst x) (snd x)) (combine ccs (fst (run (cxxStep W) s (map fst cs)))),
     inBindings (snd (run (cxxStep W) s (map fst cs)))).
Proof. intros W HW. apply run_follows. apply c_step. exact HW. Qed.
Print Assumptions C85_c.

(* The same in Fortran, with texts that are padded with blanks. *)
Theorem C85_fortran : forall (W : library), sane W ->
  forall (cs : list (pcall W * Z)) (fcs : list fcall) (s : option (state W)),
  Forall2 (fun c fc => fWrites W (fst c) (snd c) fc) cs fcs ->
  proper W (fAllowed W) s cs ->
  run (fStep W) s fcs =
    (map (fun x => fSeen (fst x) (snd x)) (combine fcs (fst (run (cxxStep W) s (map fst cs)))),
     inBindings (snd (run (cxxStep W) s (map fst cs)))).
Proof. intros W HW. apply run_follows. apply f_step. exact HW. Qed.
Print Assumptions C85_fortran.

(* What arrives of any Fortran text is its beginning up to the last character that is
   neither blank nor NUL. *)
Theorem C85_text : forall (s : fstr) (n : list char), strippedStringView s = Ok n ->
  exists n' c pad rest,
    n = n' ++ [c] /\ c <> BLANK /\ c <> NUL /\
    text s = n ++ pad ++ rest /\
    (forall x, In x pad -> x = BLANK \/ x = NUL) /\
    textLength s = len (n ++ pad).
Proof.
  intros s n H. destruct (stripped_last s n H) as (n' & c & En & B & N). exists n', c.
  unfold strippedStringView, strippedLength in H.
  destruct (Z.ltb_spec (textLength s) 0) as [L|L]; [discriminate|].
  destruct (stripLoop (text s) (Z.to_nat (textLength s))) as [k| | |] eqn:E; cbn [bind] in H; try discriminate.
  injection H as H. destruct (stripLoop_inv _ _ _ E) as (A1 & A2 & _ & A4).
  assert (Z.to_nat (textLength s) <= List.length (text s))%nat as Le.
  { destruct (Nat.le_gt_cases (Z.to_nat (textLength s)) k) as [G|G]; [lia|].
    assert (nth_error (text s) (Z.to_nat (textLength s) - 1) <> None) as X.
    { destruct (A4 (Z.to_nat (textLength s) - 1)%nat) as [Y|Y]; [lia| |]; rewrite Y; discriminate. }
    apply nth_error_Some in X. lia. }
  exists (firstn (Z.to_nat (textLength s) - k) (skipn k (text s))),
         (skipn (Z.to_nat (textLength s)) (text s)).
  assert (List.length n = k) as Ln by (rewrite <- H; apply firstn_length_le; exact A2).
  split; [exact En|]. split; [exact B|]. split; [exact N|]. split; [|split].
  - rewrite <- H, app_assoc. 
    replace (firstn k (text s) ++ firstn (Z.to_nat (textLength s) - k) (skipn k (text s)))
      with (firstn (Z.to_nat (textLength s)) (text s)).
    + symmetry. apply firstn_skipn.
    + replace (Z.to_nat (textLength s)) with (k + (Z.to_nat (textLength s) - k))%nat at 1 by lia.
      rewrite <- (firstn_skipn k (text s)) at 1.
      rewrite firstn_app, firstn_firstn.
      rewrite firstn_length_le by exact A2.
      f_equal; f_equal; lia.
  - intros x Hx. apply In_nth_error in Hx. destruct Hx as [i Hi].
    assert (i < Z.to_nat (textLength s) - k)%nat as Li.
    { assert (nth_error (firstn (Z.to_nat (textLength s) - k) (skipn k (text s))) i <> None) as X by congruence.
      apply nth_error_Some in X. rewrite firstn_length in X. lia. }
    assert (nth_error (text s) (k + i) = Some x) as X.
    { rewrite <- (firstn_skipn k (text s)). rewrite nth_error_app2 by (rewrite firstn_length_le by exact A2; lia).
      rewrite firstn_length_le by exact A2. replace (k + i - k)%nat with i by lia.
      rewrite <- (firstn_skipn (Z.to_nat (textLength s) - k) (skipn k (text s))).
      rewrite nth_error_app1; [exact Hi|]. apply nth_error_Some. congruence. }
    destruct (A4 (k + i)%nat) as [Y|Y]; [lia| |]; rewrite Y in X; injection X as <-; [left|right]; reflexivity.
  - unfold len. rewrite app_length, Ln, firstn_length, skipn_length. lia.
Qed.
Print Assumptions C85_text.

(* The version in a Fortran text is the version, cut or filled up with NULs, and nothing
   behind the text is changed. *)
Theorem C85_version : forall (version b rest : list char),
  ~ In NUL version ->
  precicec_getVersionInformation version = version /\
  precicef_get_version_information version
    {| text := b ++ rest; textLength := len b |} =
  Ok (firstn (List.length b) (version ++ repeat NUL (List.length b)) ++ rest).
Proof.
  intros version b rest N. split; [reflexivity|].
  unfold precicef_get_version_information, len. cbn [text textLength].
  destruct (Z.ltb_spec (Z.of_nat (List.length b)) 0) as [L|_]; [lia|].
  destruct (Z.ltb_spec (Z.of_nat (List.length (b ++ rest))) (Z.of_nat (List.length b))) as [L|_];
    [rewrite app_length in L; lia|].
  rewrite Nat2Z.id, strncpy_text by exact N. unfold poke. f_equal. f_equal.
  rewrite firstn_length_le by (rewrite app_length, repeat_length; lia).
  rewrite skipn_app, skipn_all, Nat.sub_diag. reflexivity.
Qed.
Print Assumptions C85_version.

(* Refuted: a call without participant is reported. Five functions of the C bindings use
   the participant that does not exist. *)
Theorem C85_unchecked_refuted : forall (W : library) (m s : cstr) (x : dptr) (n : Z) (i : iptr) c,
  In c [ C_getMaxTimeStepSize W; C_setMeshAccessRegion W m x;
         C_getMeshVertexIDsAndCoordinates W m n i x; C_startProfilingSection W s;
         C_stopLastProfilingSection W ] ->
  run (cStep W) None [c] = ([], Undefined).
Proof.
  intros W m s x n i c H. cbn [In] in H.
  destruct H as [<-|[<-|[<-|[<-|[<-|[]]]]]]; reflexivity.
Qed.
Print Assumptions C85_unchecked_refuted.

(* Refuted: there is one participant at most. In Fortran a second creation constructs a
   second participant while the first one is there, then finalizes the first one; in C it
   is an error. *)
Theorem C85_recreate_refuted : forall (W : library) (old new : state W) name conf name1 conf1 name2 conf2 rank size x,
  fName name name1 -> fName conf conf1 ->
  newParticipant W name conf rank size None = Ok new ->
  participant W old Finalize = Ok x ->
  run (fStep W) (Some old) [F_create name1 conf1 rank size] = ([ONone], Running (Some new)) /\
  run (cStep W) (Some old) [C_createParticipant W name2 conf2 rank size] = ([], Aborted).
Proof.
  intros W old new name conf name1 conf1 name2 conf2 rank size x F1 F2 N Q. split; [|reflexivity].
  cbn [run fStep]. unfold precicef_create.
  rewrite (stripped_name _ _ F1), (stripped_name _ _ F2). cbn [bind]. rewrite N. cbn [bind replace].
  rewrite Q. reflexivity.
Qed.
Print Assumptions C85_recreate_refuted.

(* Refuted: every name of the configuration can be used in Fortran. Names that end in a
   blank never arrive. *)
Theorem C85_trailing_refuted : forall (n : list char) (s : fstr),
  strippedStringView s <> Ok (n ++ [BLANK]).
Proof.
  intros n s H. destruct (stripped_last s _ H) as (n' & c & E & B & _).
  apply app_inj_tail in E. destruct E as [_ E]. apply B. symmetry. exact E.
Qed.
Print Assumptions C85_trailing_refuted.

(* Refuted: a name that is empty is reported as unknown. The function reads the character
   in front of the text. *)
Theorem C85_blank_refuted : forall (W : library) (p : state W) (s : fstr),
  0 <= textLength s ->
  (forall i, (i < Z.to_nat (textLength s))%nat ->
     nth_error (text s) i = Some BLANK \/ nth_error (text s) i = Some NUL) ->
  run (fStep W) (Some p) [F_reset_mesh s] = ([], Undefined).
Proof.
  intros W p s L B. cbn [run fStep]. unfold precicef_reset_mesh, strippedStringView, strippedLength.
  cbn [checked bind]. destruct (Z.ltb_spec (textLength s) 0) as [H|_]; [lia|].
  rewrite stripLoop_blank by exact B. reflexivity.
Qed.
Print Assumptions C85_blank_refuted.

(* Refuted: as many vertices as an int can count can be used. The product with the
   dimensions overflows, whatever the arrays. *)
Theorem C85_count_refuted : forall (W : library) (p : state W) m m1 m2 d size positions ids,
  sane W -> meshDim W p m d -> cName m m1 -> fName m m2 ->
  0 <= size -> 2 ^ 31 <= d * size ->
  run (cStep W) (Some p) [C_setMeshVertices W m1 size positions ids] = ([], Undefined) /\
  run (fStep W) (Some p) [F_set_mesh_vertices m2 size positions ids] = ([], Undefined).
Proof.
  intros W p m m1 m2 d size positions ids HW [p' D] N1 N2 L B. cbn [run cStep fStep].
  assert (mulInt d size = UB) as U.
  { unfold mulInt. destruct (Z.ltb_spec (d * size) (2 ^ 31)) as [H|_]; [lia|].
    rewrite andb_false_r. reflexivity. }
  unfold precicec_setMeshVertices, precicef_set_mesh_vertices, meshDimensions.
  rewrite (cstring_name _ _ N1), (stripped_name _ _ N2). cbn [checked bind]. rewrite D.
  cbn [bind asInt fst snd]. rewrite U. split; reflexivity.
Qed.
Print Assumptions C85_count_refuted.

(* Refuted: the version in a Fortran text is padded with blanks, as Fortran texts are. *)
Theorem C85_version_refuted : forall (version b rest : list char),
  ~ In NUL version -> (List.length version < List.length b)%nat ->
  precicef_get_version_information version
    {| text := b ++ rest; textLength := len b |} <>
  Ok ((version ++ repeat BLANK (List.length b - List.length version)) ++ rest).
Proof.
  intros version b rest N L H. rewrite (proj2 (C85_version version b rest N)) in H.
  injection H as H. apply app_inv_tail in H.
  destruct (List.length b) as [|n] eqn:E; [lia|].
  rewrite firstn_app in H.
  rewrite (firstn_all2 version) in H by lia. apply app_inv_head in H.
  destruct (S n - List.length version)%nat as [|k] eqn:E2; [lia|]. cbn in H. discriminate H.
Qed.
Print Assumptions C85_version_refuted.

(* Refuted: every procedure can be called from Fortran, where compilers append an
   underscore to its name. *)
Theorem C85_symbol_refuted :
  In "precicef_set_tetrahedron" fortranSymbols /\
  ~ In ("precicef_set_tetrahedron" ++ "_")%string fortranSymbols.
Proof.
  split.
  - vm_compute. repeat (first [left; reflexivity | right]).
  - intro H. vm_compute in H. repeat (destruct H as [H|H]; [discriminate H|]). exact H.
Qed.
Print Assumptions C85_symbol_refuted.

(* A library: a counter of calls, one mesh "M" of two dimensions with vector data "D". *)
Definition same (a : list char) (b : string) : bool := String.eqb (string_of_list_ascii a) b.

Definition refused (c : call) : bool :=
  match c with
  | GetMeshDimensions m | RequiresMeshConnectivityFor m | ResetMesh m | SetMeshVertex m _
  | SetMeshVertices m _ _ | GetMeshVertexSize m | SetMeshEdge m _ _ | SetMeshEdges m _
  | SetMeshTriangle m _ _ _ | SetMeshTriangles m _ | SetMeshQuad m _ _ _ _ | SetMeshQuads m _
  | SetMeshTetrahedron m _ _ _ _ | SetMeshTetrahedra m _ | SetMeshAccessRegion m _
  | GetMeshVertexIDsAndCoordinates m _ _ => negb (same m "M")
  | GetDataDimensions m d | WriteData m d _ _ | ReadData m d _ _ _ | WriteAndMapData m d _ _
  | MapAndReadData m d _ _ _ | RequiresGradientDataFor m d | WriteGradientData m d _ _ =>
      negb (same m "M" && same d "D")
  | _ => false
  end.

Definition answer (p : Z) (c : call) : Z * ret :=
  match c with
  | GetMeshDimensions _ | GetDataDimensions _ _ => (p, RInt 2)
  | SetMeshVertex _ _ => (p + 1, RInt p)
  | GetMeshVertexSize _ => (p, RInt p)
  | IsCouplingOngoing | IsTimeWindowComplete | RequiresInitialData | RequiresWritingCheckpoint
  | RequiresReadingCheckpoint | RequiresMeshConnectivityFor _ | RequiresGradientDataFor _ _ =>
      (p, RBool (p <? 3))
  | GetMaxTimeStepSize => (p, RDouble p)
  | SetMeshVertices _ _ n => (p + 1, RInts (map Z.of_nat (seq 5 n)))
  | ReadData _ _ _ _ n | MapAndReadData _ _ _ _ n => (p + 1, RDoubles (map Z.of_nat (seq 40 n)))
  | GetMeshVertexIDsAndCoordinates _ n k =>
      (p + 1, RBoth (map Z.of_nat (seq 0 n)) (map Z.of_nat (seq 70 k)))
  | _ => (p + 1, RNone)
  end.

Definition toy : library := {|
  state := Z;
  comm := Z;
  construct := fun name _ _ _ _ => if same name "A" then Ok 0 else Throw;
  implCall := fun p c => if refused c then Throw else Ok (answer p c);
  f2c := fun z => z
|}.

Example toy_sane : sane toy.
Proof.
  split; cbn [implCall toy state].
  - intros p c. destruct (refused c); [right; reflexivity|left; exists (answer p c); reflexivity].
  - intros p c p' r. destruct (refused c); [discriminate|]. intro H. injection H as H.
    destruct c; cbn [answer returns] in *; injection H as <- <-; eauto;
      try (eexists; split; [reflexivity|]; rewrite map_length, seq_length; reflexivity).
    eexists. eexists. split; [reflexivity|]. rewrite !map_length, !seq_length. split; reflexivity.
  - intros p m p' r. destruct (refused _); [discriminate|]. intro H. injection H as <- <-.
    split; [reflexivity|]. exists 2. split; [reflexivity|lia].
  - intros p m d p' r. destruct (refused _); [discriminate|]. intro H. injection H as <- <-.
    split; [reflexivity|]. exists 2. split; [reflexivity|lia].
  - intros p m c H U. destruct (refused (GetMeshDimensions m)) eqn:E; [|discriminate].
    cbn [refused] in E.
    destruct c; cbn [usesMesh] in U; try contradiction; subst; cbn [refused]; try rewrite E; try reflexivity;
      apply negb_true_iff in E; rewrite E; reflexivity.
  - intros p m d c H U. destruct (refused (GetDataDimensions m d)) eqn:E; [|discriminate].
    cbn [refused] in E.
    destruct c; cbn [usesData] in U; try contradiction; destruct U as [-> ->]; cbn [refused]; rewrite E; reflexivity.
Qed.

Definition t (s : string) : list char := list_ascii_of_string s.

Definition prog : list (pcall toy * Z) :=
  [ (Create (t "A") (t "c.xml") 0 1 None, 0);
    (Call (GetMeshDimensions (t "M")), 0);
    (Call (SetMeshVertices (t "M") [1; 2; 3; 4] 2), 2);
    (Call (SetMeshEdges (t "M") [5; 6]), 1);
    (Call IsCouplingOngoing, 0);
    (Call (WriteData (t "M") (t "D") [5; 6] [7; 8; 9; 10]), 2);
    (Call (ReadData (t "M") (t "D") [6] 11 2), 1);
    (Call (WriteData (t "M") (t "E") [5] [7]), 1);
    (Call Finalize, 0) ].

(* The memory: texts end with NUL, other things follow. *)
Definition ct (s : string) : cstr := t s ++ [NUL; "x"%char].

Definition cprog : list (ccall toy) :=
  [ C_createParticipant toy (ct "A") (ct "c.xml") 0 1;
    C_getMeshDimensions toy (ct "M");
    C_setMeshVertices toy (ct "M") 2 [1; 2; 3; 4; 99] [-1; -1; -1];
    C_setMeshEdges toy (ct "M") 1 [5; 6; 98];
    C_isCouplingOngoing toy;
    C_writeData toy (ct "M") (ct "D") 2 [5; 6; 97] [7; 8; 9; 10; 96];
    C_readData toy (ct "M") (ct "D") 1 [6; 95] 11 [-2; -2; -2];
    C_writeData toy (ct "M") (ct "E") 1 [5] [7];
    C_finalize toy ].

Definition ft (s : string) : fstr :=
  {| text := t s ++ [BLANK; BLANK; NUL; "x"%char]; textLength := len (t s) + 3 |}.

Definition fprog : list fcall :=
  [ F_create (ft "A") (ft "c.xml") 0 1;
    F_get_mesh_dimensions (ft "M");
    F_set_vertices (ft "M") 2 [1; 2; 3; 4; 99] [-1; -1; -1];
    F_set_mesh_edges (ft "M") 1 [5; 6; 98];
    F_is_coupling_ongoing;
    F_write_data (ft "M") (ft "D") 2 [5; 6; 97] [7; 8; 9; 10; 96];
    F_read_data (ft "M") (ft "D") 1 [6; 95] 11 [-2; -2; -2];
    F_write_data (ft "M") (ft "E") 1 [5] [7];
    F_finalize ].

Lemma ct_name s : ~ In NUL (t s) -> cName (t s) (ct s).
Proof. intro N. split; [exact N|]. exists ["x"%char]. reflexivity. Qed.

Lemma ft_name s n c : ~ In NUL (t s) -> t s = n ++ [c] -> c <> BLANK -> fName (t s) (ft s).
Proof.
  intros N E B. split; [exact N|]. split; [exists n, c; split; assumption|].
  exists [BLANK; BLANK; NUL], ["x"%char]. split; [reflexivity|]. split.
  - cbn. intros x [<-|[<-|[<-|[]]]]; auto.
  - unfold ft, len. cbn [textLength]. rewrite app_length. cbn [List.length]. lia.
Qed.

Ltac no_nul := let H := fresh "H" in cbn; intro H; repeat (destruct H as [H|H]; [discriminate H|]); exact H.

Example cprog_writes : Forall2 (fun c cc => cWrites toy (fst c) (snd c) cc) prog cprog.
Proof.
  repeat constructor; cbn [fst snd]; try (apply ct_name; no_nul);
    try (unfold holds; cbn; lia); try (eexists; reflexivity).
Qed.

Example fprog_writes : Forall2 (fun c cc => fWrites toy (fst c) (snd c) cc) prog fprog.
Proof.
  assert (fName (t "A") (ft "A")) as NA by (apply (ft_name "A" [] "A"%char); [no_nul|reflexivity|discriminate]).
  assert (fName (t "M") (ft "M")) as NM by (apply (ft_name "M" [] "M"%char); [no_nul|reflexivity|discriminate]).
  assert (fName (t "D") (ft "D")) as ND by (apply (ft_name "D" [] "D"%char); [no_nul|reflexivity|discriminate]).
  assert (fName (t "E") (ft "E")) as NE by (apply (ft_name "E" [] "E"%char); [no_nul|reflexivity|discriminate]).
  assert (fName (t "c.xml") (ft "c.xml")) as NC
    by (apply (ft_name "c.xml" (t "c.xm") "l"%char); [no_nul|reflexivity|discriminate]).
  unfold prog, fprog.
  constructor; [exact (fCreate toy _ _ _ _ 0 1 0 NA NC)|].
  constructor; [constructor; exact NM|].
  constructor; [apply fw_old_set_mesh_vertices; [exact NM|eexists; reflexivity|unfold holds; cbn; lia]|].
  constructor; [constructor; [exact NM|eexists; reflexivity]|].
  constructor; [constructor|].
  constructor; [constructor; [exact NM|exact ND|eexists; reflexivity|eexists; reflexivity]|].
  constructor; [constructor; [exact NM|exact ND|eexists; reflexivity|unfold holds; cbn; lia]|].
  constructor; [constructor; [exact NM|exact NE|eexists; reflexivity|eexists; reflexivity]|].
  constructor; [constructor|]. constructor.
Qed.

Lemma toy_mesh p m d : meshDim toy p m d -> d = 2.
Proof. intros [p' H]. unfold participant in H. cbn in H. destruct (negb _); [discriminate|congruence]. Qed.
Lemma toy_data p m n d : dataDim toy p m n d -> d = 2.
Proof. intros [p' H]. unfold participant in H. cbn in H. destruct (negb _); [discriminate|congruence]. Qed.
Lemma toy_data_E p m d : dataDim toy p m (t "E") d -> False.
Proof.
  intros [p' H]. unfold participant in H. cbn [implCall toy handOn refused] in H.
  change (same (toSV (t "E")) "D") with false in H. rewrite andb_false_r in H. discriminate H.
Qed.

Ltac one Al :=
  split; [apply Al; [cbn; tauto|intro; discriminate|intro; eauto]|];
  let p := fresh "p" in let c' := fresh "c'" in let Ep := fresh "Ep" in let Ec := fresh "Ec" in
  let s' := fresh "s'" in let r := fresh "r" in let H := fresh "H" in
  split; [intros p c' Ep Ec; injection Ec as <-; cbn [fits]; unfold isInt, len; cbn [List.length]
         |intros s' r H; vm_compute in H; try discriminate H; injection H as <- <-].

Lemma prog_proper (allowed : option Z -> pcall toy -> Prop) :
  (forall s c, In c (map fst prog) -> (s = None -> exists a b, c = Create a b 0 1 None) ->
     (s <> None -> exists c', c = Call c') -> allowed s c) ->
  proper toy allowed None prog.
Proof.
  intro Al. unfold prog in *.
  cbn [map fst] in Al.
  split; [apply Al; [cbn; tauto|intro; eauto|intro X; exfalso; apply X; reflexivity]|].
  split; [discriminate|]. intros s' r H; vm_compute in H; injection H as <- <-.
  one Al; [exact I|].
  one Al; [split; [lia|]; split; [lia|]; intros d D; rewrite (toy_mesh _ _ _ D); lia|].
  one Al; [lia|].
  one Al; [exact I|].
  one Al; [split; [lia|]; split; [lia|]; intros d D; rewrite (toy_data _ _ _ _ D); lia|].
  one Al; [split; [lia|]; split; [lia|]; intros d D; rewrite (toy_data _ _ _ _ D); lia|].
  one Al. split; [lia|]; split; [lia|]; intros d D. exfalso. exact (toy_data_E _ _ _ D).
Qed.

Example cprog_proper : proper toy (cAllowed toy) None prog.
Proof.
  apply prog_proper. intros s c _ H _ E. destruct (H E) as (a & b & ->). exact I.
Qed.

Example fprog_proper : proper toy (fAllowed toy) None prog.
Proof.
  apply prog_proper. intros s c _ _ H E. destruct (H E) as (c' & ->). exact I.
Qed.

(* Both programs see the dimensions, the indices, the answer and the values, keep what is
   behind their arrays, and are aborted when they write data that is not there. *)
Example C85_runs :
  run (cStep toy) None cprog =
    ([ONone; OInt 2; OInts [5; 6; -1]; ONone; OInt 1; ONone; ODoubles [40; 41; -2]], Aborted) /\
  run (fStep toy) None fprog =
    ([ONone; OInt 2; OInts [5; 6; -1]; ONone; OInt 1; ONone; ODoubles [40; 41; -2]], Aborted).
Proof. split; vm_compute; reflexivity. Qed.

Example C85_count_case :
  meshDim toy 0 (t "M") 2 /\ cName (t "M") (ct "M") /\ fName (t "M") (ft "M") /\
  2 ^ 31 <= 2 * 1073741824.
Proof.
  split; [exists 0; reflexivity|]. split; [apply ct_name; no_nul|].
  split; [apply (ft_name "M" [] "M"%char); [no_nul|reflexivity|discriminate]|lia].
Qed.

Example C85_recreate_case :
  newParticipant toy (t "A") (t "c.xml") 0 1 None = Ok 0 /\
  participant toy 17 Finalize = Ok (18, RNone).
Proof. split; reflexivity. Qed.

Example C85_cpp_case : (forall n, In n (texts (WriteData (t "M") (t "D") [1] [2])) -> ~ In NUL n) /\
  In NUL (t "M" ++ [NUL]).
Proof.
  split; [|right; left; reflexivity].
  intros n H. cbn [texts] in H. destruct H as [<-|[<-|[]]]; intros [E|[]]; discriminate E.
Qed.
