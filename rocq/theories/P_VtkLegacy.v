(** The legacy VTK files. *)
From Coq Require Import String Ascii Bool Arith List Lia.
From Verif Require Import M_Vtk S_Vtk P_Vtk P_VtkXml P_VtkPiece.
Import ListNotations.
Open Scope list_scope.

Section Legacy.
Context {V : Type}.
Variables (zero : V) (ofNat : nat -> V) (rd : nat -> V -> V).
Hypothesis rd_zero : forall p, rd p zero = zero.
Notation item := (@item V).
Notation numbers := (numbers zero ofNat rd).
Notation pad3 := (pad3 zero).
Notation attributes := (attributes zero ofNat rd).

Lemma split_app : forall A (a b : list A) n, List.length a = n -> split n (a ++ b) = Some (a, b).
Proof.
  intros A a b n <-. unfold split. rewrite app_length.
  assert (List.length a <=? List.length a + List.length b = true) as -> by (apply Nat.leb_le; lia). cbn [ensure bind].
  rewrite firstn_app, Nat.sub_diag, firstn_all, skipn_app, Nat.sub_diag, skipn_all. cbn [firstn skipn app]. rewrite app_nil_r. reflexivity.
Qed.

(** ** Cells *)
Definition sized (c : list nat) : list nat := List.length c :: c.
Lemma cellLists_ok : forall cells, cellLists (List.length cells) (List.concat (map sized cells)) = Some cells.
Proof.
  induction cells as [|c r IH]; [reflexivity|]. cbn [List.length map List.concat sized app cellLists]. rewrite app_length.
  assert (List.length c <=? List.length c + List.length (List.concat (map sized r)) = true) as -> by (apply Nat.leb_le; lia).
  cbn [ensure bind]. rewrite skipn_app, Nat.sub_diag, skipn_all. cbn [skipn app]. rewrite IH. cbn [bind].
  rewrite firstn_app, Nat.sub_diag, firstn_all. cbn [firstn]. rewrite app_nil_r. reflexivity.
Qed.
Lemma yields_vtkLine : forall e, yields (vtkLine e) (ints (V:=V) (sized (edgeIds e))).
Proof. intros [a b]. cbn. repeat (apply yields_cons; [reflexivity|reflexivity|]). apply yields_space. reflexivity. Qed.
Lemma yields_vtkTriangle : forall e, yields (vtkTriangle e) (ints (V:=V) (sized (triangleIds e))).
Proof. intros [[a b] c]. cbn. repeat (apply yields_cons; [reflexivity|reflexivity|]). apply yields_space. reflexivity. Qed.
Lemma yields_vtkTetra : forall e, yields (vtkTetrahedron e) (ints (V:=V) (sized (tetraIds e))).
Proof. intros [[[a b] c] d]. cbn. repeat (apply yields_cons; [reflexivity|reflexivity|]). apply yields_space. reflexivity. Qed.
Lemma yields_constant : forall t n, yields (flat_map (fun _ => [Int t; Nl]) (seq 0 n)) (ints (V:=V) (map (fun _ => t) (seq 1 n))).
Proof.
  intros t n. unfold ints. rewrite map_map, (seq_from n 1), map_map, <- flat_map_single. apply yields_flat. intros. apply yields_atom; reflexivity.
Qed.

(** the cells that are written *)
Definition cellsVTK (m : mesh (V:=V)) : list (nat * list nat) :=
  if m_dim m =? 2 then linesOf m else tetrahedraOf m ++ trianglesOf m ++ linesOf m.
Definition cellWords (m : mesh (V:=V)) : list item :=
  Wd "CELLS" :: Int (List.length (cellsVTK m)) :: Int (List.length (List.concat (map sized (map snd (cellsVTK m))))) ::
  ints (List.concat (map sized (map snd (cellsVTK m)))) ++
  Wd "CELL_TYPES" :: Int (List.length (cellsVTK m)) :: ints (map fst (cellsVTK m)).
Lemma sized_length : forall l w, Forall (fun c => List.length c = w) l -> List.length (List.concat (map sized l)) = List.length l * S w.
Proof. induction l as [|c l IH]; intros w F; [reflexivity|]. inversion F; subst. cbn [map List.concat]. rewrite app_length. cbn [sized List.length]. rewrite (IH _ H2). nia. Qed.
Lemma yields_cell : forall A (write : A -> list item) (ids : A -> list nat) l,
  (forall x, yields (write x) (ints (sized (ids x)))) -> yields (flat_map write l) (ints (List.concat (map sized (map ids l)))).
Proof. intros A write ids l H. rewrite map_map. apply (yields_cells A write (fun x => sized (ids x)) l H). Qed.

Lemma vtkCells_ok : forall m, m_dim m = 2 \/ m_dim m = 3 -> yields (vtkCells m) (cellWords m).
Proof.
  intros m D. unfold vtkCells, cellWords, cellsVTK. destruct D as [E|E]; rewrite E; cbn [Nat.eqb].
  - rewrite app_nil_l, map_snd_lines, map_fst_lines, (sized_length _ 2 (ids_edges _)).
    unfold linesOf. rewrite !map_length. rewrite <- !app_assoc. cbn [app].
    do 3 (apply yields_cons; [reflexivity|reflexivity|]). apply yields_skip; [reflexivity|].
    apply yields_app; [apply yields_cell, yields_vtkLine|].
    apply yields_skip; [reflexivity|]. do 2 (apply yields_cons; [reflexivity|reflexivity|]). apply yields_skip; [reflexivity|].
    rewrite <- (app_nil_r (ints _)). apply yields_app; [apply yields_constant|apply yields_space; reflexivity].
  - rewrite app_nil_l. rewrite !map_app, map_snd_lines, map_snd_triangles, map_snd_tetras, map_fst_lines, map_fst_triangles, map_fst_tetras.
    rewrite !concat_app, !app_length.
    rewrite (sized_length _ 2 (ids_edges _)), (sized_length _ 3 (ids_triangles _)), (sized_length _ 4 (ids_tetras _)).
    unfold linesOf, trianglesOf, tetrahedraOf. rewrite !map_length. rewrite <- !app_assoc. cbn [app].
    replace (List.length (m_tetrahedra m) + (List.length (m_triangles m) + List.length (m_edges m)))
      with (List.length (m_triangles m) + List.length (m_edges m) + List.length (m_tetrahedra m)) by lia.
    replace (List.length (m_tetrahedra m) * 5 + (List.length (m_triangles m) * 4 + List.length (m_edges m) * 3))
      with (List.length (m_tetrahedra m) * 5 + List.length (m_triangles m) * 4 + List.length (m_edges m) * 3) by lia.
    do 3 (apply yields_cons; [reflexivity|reflexivity|]). apply yields_skip; [reflexivity|].
    rewrite !ints_app, <- !app_assoc.
    apply yields_app; [apply yields_cell, yields_vtkTetra|]. apply yields_app; [apply yields_cell, yields_vtkTriangle|].
    apply yields_app; [apply yields_cell, yields_vtkLine|].
    apply yields_skip; [reflexivity|]. do 2 (apply yields_cons; [reflexivity|reflexivity|]). apply yields_skip; [reflexivity|].
    apply yields_app; [apply yields_constant|]. apply yields_app; [apply yields_constant|].
    rewrite <- (app_nil_r (ints _)). apply yields_app; [apply yields_constant|apply yields_space; reflexivity].
Qed.

(** ** Points *)
Definition pointWords (m : mesh (V:=V)) : list item :=
  flat_map (fun p => map (Num vtkDigits) p ++ (if List.length p =? 2 then [Num vtkDigits zero] else [])) (m_vertices m).
Lemma points_ok : forall m, wfMesh m ->
  exists items, concatOk (map (vtkVertex zero) (m_vertices m)) = Some items /\ yields items (pointWords m) /\
    List.length (pointWords m) = nVertices m * 3 /\
    exists v, numbers (pointWords m) = Some v /\ rows (nVertices m) 3 v = Some (pointsOf zero rd vtkDigits m).
Proof.
  intros m (D & FV & _). rewrite Forall_forall in FV.
  set (w := fun p => match p with
    | [x; y] => [Num vtkDigits x; Sp; Num vtkDigits y; Sp; Num vtkDigits zero; Nl]
    | [x; y; z] => [Num vtkDigits x; Sp; Num vtkDigits y; Sp; Num vtkDigits z; Nl]
    | _ => [] end).
  assert (SH : forall p, In p (m_vertices m) -> (exists x y, p = [x; y]) \/ (exists x y z, p = [x; y; z])).
  { intros p P. specialize (FV p P). destruct p as [|x [|y [|z [|u p]]]]; cbn in FV; try lia; [left|right]; eauto. }
  exists (flat_map w (m_vertices m)). split; [|split; [|split]].
  - apply concatOk_map. intros p P. destruct (SH p P) as [(x & y & ->)|(x & y & z & ->)]; reflexivity.
  - unfold pointWords. apply yields_flat. intros p P. destruct (SH p P) as [(x & y & ->)|(x & y & z & ->)]; cbn;
      repeat (apply yields_cons; [reflexivity|reflexivity|]); apply yields_nil.
  - unfold pointWords, nVertices. clear FV. induction (m_vertices m) as [|p l IH]; [reflexivity|]. cbn [flat_map List.length]. rewrite app_length, IH.
    + destruct (SH p (or_introl eq_refl)) as [(x & y & ->)|(x & y & z & ->)]; cbn [map List.length app Nat.eqb]; lia.
    + intros q Q. apply SH. right; auto.
  - exists (List.concat (map (fun p => pad3 (map (rd vtkDigits) p)) (m_vertices m))). split.
    + apply numbers_flat. intros p P. destruct (SH p P) as [(x & y & ->)|(x & y & z & ->)]; cbn; rewrite ?rd_zero; reflexivity.
    + unfold nVertices, pointsOf. rewrite rows_map; [reflexivity|]. intros p P. apply pad3_length. rewrite map_length, (FV p P). lia.
Qed.

(** ** Attributes *)
Inductive ablock (n : nat) : list item -> string * list (list V) -> Prop :=
| ab_scalar : forall nm ty ws v t, List.length ws = n -> numbers ws = Some v -> rows n 1 v = Some t ->
    ablock n (Wd "SCALARS" :: Wd nm :: Wd ty :: Wd "LOOKUP_TABLE" :: Wd "default" :: ws) (nm, t)
| ab_vector : forall nm ty ws v t, List.length ws = n * 3 -> numbers ws = Some v -> rows n 3 v = Some t ->
    ablock n (Wd "VECTORS" :: Wd nm :: Wd ty :: ws) (nm, t).
Lemma attributes_ok : forall n ws as_, Forall2 (ablock n) ws as_ -> forall f, List.length ws <= f -> attributes f n (List.concat ws) = Some as_.
Proof.
  induction 1 as [|w a ws as_ B F IH]; intros f L; [destruct f; reflexivity|]. cbn [List.length] in L. destruct f as [|f]; [lia|].
  cbn [List.concat]. destruct B as [nm ty l v t LW NV RT|nm ty l v t LW NV RT]; cbn [app S_Vtk.attributes].
  - change (String.eqb "SCALARS" "SCALARS") with true. cbn iota. change (String.eqb "LOOKUP_TABLE" "LOOKUP_TABLE" && String.eqb "default" "default") with true.
    cbn [ensure bind]. rewrite (split_app _ l _ n LW). cbn [bind fst snd]. rewrite NV. cbn [bind]. rewrite RT. cbn [bind].
    rewrite IH by lia. reflexivity.
  - change (String.eqb "VECTORS" "SCALARS") with false. cbn iota. change (String.eqb "VECTORS" "VECTORS") with true.
    cbn [ensure bind]. rewrite (split_app _ l _ (n * 3) LW). cbn [bind fst snd]. rewrite NV. cbn [bind]. rewrite RT. cbn [bind].
    rewrite IH by lia. reflexivity.
Qed.
Lemma ablocks_length : forall n ws as_, Forall2 (ablock n) ws as_ -> List.length ws <= List.length (List.concat ws).
Proof. induction 1 as [|w a ws as_ B F IH]; [cbn; lia|]. cbn [List.length List.concat]. rewrite app_length. destruct B; cbn [List.length]; lia. Qed.

Definition rowWords (vs : list V) : list item := map (Num vtkDigits) vs ++ (if List.length vs <? 3 then [Wd "0"] else []).
Lemma yields_row : forall vs, yields (vtkRow vs) (rowWords vs).
Proof.
  intros vs. unfold vtkRow, rowWords. apply yields_app; [apply yields_nums|]. destruct (_ <? _); [apply yields_atom; reflexivity|apply yields_space; reflexivity].
Qed.
Lemma numbers_row : forall l, List.length l = 2 \/ List.length l = 3 -> numbers (rowWords l) = Some (pad3 (map (rd vtkDigits) l)).
Proof.
  intros l L. unfold rowWords, S_Vtk.pad3. rewrite map_length. apply numbers_app; [apply numbers_nums|]. destruct L as [-> | ->]; reflexivity.
Qed.
Lemma rowWords_length : forall l, List.length l = 2 \/ List.length l = 3 -> List.length (rowWords l) = 3.
Proof. intros l L. unfold rowWords. rewrite app_length, map_length. destruct L as [-> | ->]; reflexivity. Qed.

(** a block of rows given by vectors *)
Lemma vector_block : forall n nm (g : nat -> list V), isWord nm = true -> (forall i, i < n -> List.length (g i) = 2 \/ List.length (g i) = 3) ->
  exists w, yields ([Wd "VECTORS"; Sp; Wd nm; Sp; Wd "double"; Nl] ++ flat_map (fun i => vtkRow (g i)) (seq 0 n)) w /\
    ablock n w (nm, map (fun i => pad3 (map (rd vtkDigits) (g i))) (seq 0 n)).
Proof.
  intros n nm g NW LG. exists (Wd "VECTORS" :: Wd nm :: Wd "double" :: flat_map (fun i => rowWords (g i)) (seq 0 n)). split.
  - cbn [app]. apply yields_cons; [reflexivity|reflexivity|]. apply yields_cons; [exact NW|reflexivity|]. apply yields_cons; [reflexivity|reflexivity|].
    apply yields_flat. intros; apply yields_row.
  - eapply ab_vector.
    + assert (H : forall k m, (forall i, k <= i < k + m -> List.length (g i) = 2 \/ List.length (g i) = 3) -> List.length (flat_map (fun i => rowWords (g i)) (seq k m)) = m * 3).
      { intros k m. revert k. induction m as [|m IH]; intros k H; [reflexivity|]. cbn [seq flat_map]. rewrite app_length, IH, rowWords_length; [lia|apply H; lia|intros; apply H; lia]. }
      apply H. intros; apply LG; lia.
    + apply (numbers_flat zero ofNat rd nat (fun i => rowWords (g i)) (fun i => pad3 (map (rd vtkDigits) (g i)))). intros i I. apply in_seq in I. apply numbers_row, LG. lia.
    + apply (rows_seq V (fun i => pad3 (map (rd vtkDigits) (g i)))). intros i I. apply pad3_length. rewrite map_length. destruct (LG i I); lia.
Qed.

Lemma values_block : forall dim n (d : data) s, (dim = 2 \/ dim = 3) -> wfData dim n d -> isWord (d_name d) = true -> d_last d = Some s ->
  exists i w, vtkValues n d s = Some i /\ yields i w /\ ablock n w (valuesArray zero rd vtkDigits n d s).
Proof.
  intros dim n d s D (DD & W) NW LS. destruct (W s LS) as (LV & _). clear W. unfold vtkValues, valuesArray.
  destruct (Nat.eqb_spec (d_dims d) 1) as [E|E].
  - rewrite E. change (1 <? 1) with false. cbn iota.
    assert (C : concatOk (map (fun id => option_map (fun v => [Num vtkDigits v; Nl]) (nth_error (sp_values s) id)) (seq 0 n))
      = Some (flat_map (fun id => [Num vtkDigits (nth id (sp_values s) zero); Nl]) (seq 0 n))).
    { apply concatOk_map. intros i I. apply in_seq in I. rewrite (nth_error_nth' _ _ i zero) by lia. reflexivity. }
    rewrite C. cbn [option_map].
    exists ([Wd "SCALARS"; Sp; Wd (d_name d); Sp; Wd "double"; Nl; Wd "LOOKUP_TABLE"; Sp; Wd "default"; Nl] ++ flat_map (fun id => [Num vtkDigits (nth id (sp_values s) zero); Nl]) (seq 0 n) ++ [Nl]).
    exists (Wd "SCALARS" :: Wd (d_name d) :: Wd "double" :: Wd "LOOKUP_TABLE" :: Wd "default" :: map (fun id => Num vtkDigits (nth id (sp_values s) zero)) (seq 0 n)).
    split; [reflexivity|]. split.
    + cbn [app]. apply yields_cons; [reflexivity|reflexivity|]. apply yields_cons; [exact NW|reflexivity|]. do 3 (apply yields_cons; [reflexivity|reflexivity|]).
      rewrite <- (app_nil_r (map _ _)). apply yields_app; [|apply yields_space; reflexivity]. rewrite <- flat_map_single. apply yields_flat. intros; apply yields_atom; reflexivity.
    + eapply ab_scalar.
      * rewrite map_length, seq_length. reflexivity.
      * rewrite <- flat_map_single. apply (numbers_flat zero ofNat rd nat _ (fun i => map (rd vtkDigits) (valueAt zero 1 (sp_values s) i))). intros i _.
        cbn. replace (i * 1 + 0) with i by lia. reflexivity.
      * apply (rows_seq V (fun i => map (rd vtkDigits) (valueAt zero 1 (sp_values s) i))). intros; reflexivity.
  - assert (DE : d_dims d = dim) by tauto. assert (T : 1 <? d_dims d = true) by (apply Nat.ltb_lt; lia). rewrite T.
    rewrite (concatOk_map _ _ _ (fun id => vtkRow (valueAt zero (d_dims d) (sp_values s) id))).
    2:{ intros i I. apply in_seq in I. rewrite (block_ok zero (d_dims d) n (sp_values s) i LV) by lia. reflexivity. }
    cbn [option_map].
    destruct (vector_block n (d_name d) (fun i => valueAt zero (d_dims d) (sp_values s) i) NW) as (w & Y & B).
    { intros i _. rewrite valueAt_length, DE. exact D. }
    eexists. exists w. split; [reflexivity|]. split; [|exact B].
    rewrite app_assoc, <- (app_nil_r w). apply yields_app; [exact Y|apply yields_space; reflexivity].
Qed.

Lemma gradient_block : forall dim n step start nm (g : list (list V)), (dim = 2 \/ dim = 3) -> isWord nm = true -> 0 < step -> start < step ->
  List.length g = n * step -> Forall (fun c => List.length c = dim) g ->
  exists i w, vtkGradientBlock nm start step g = Some i /\ yields i w /\
    ablock n w (nm, map (fun i => pad3 (map (rd vtkDigits) (nth (start + i * step) g []))) (seq 0 n)).
Proof.
  intros dim n step start nm g D NW S0 SS LG FG. rewrite Forall_forall in FG.
  destruct (vector_block n nm (fun i => nth (start + i * step) g []) NW) as (w & Y & B).
  { intros i I. rewrite (FG (nth (start + i * step) g [])); [exact D|]. apply nth_In. nia. }
  unfold vtkGradientBlock. rewrite LG, strided_0 by nia. rewrite map_map.
  rewrite (concatOk_map _ _ _ (fun i => vtkRow (nth (start + i * step) g []))).
  2:{ intros i I. apply in_seq in I. rewrite (nth_error_nth' _ g _ []) by nia. reflexivity. }
  eexists. exists w. split; [reflexivity|]. split; [exact Y|exact B].
Qed.

Lemma gradients_block : forall m (d : data) s, wfMesh m -> wfData (m_dim m) (nVertices m) d -> isWord (d_name d) = true -> d_last d = Some s ->
  exists i ws, vtkGradient m d s = Some i /\ yields i (List.concat ws) /\
    Forall2 (ablock (nVertices m)) ws (gradientArrays zero rd vtkDigits (m_dim m) (nVertices m) d s).
Proof.
  intros m d s (D & _) (DD & W) NW LS. destruct (W s LS) as (_ & WG). clear W. unfold vtkGradient, gradientArrays.
  destruct (d_grad d) eqn:G; cbn [negb].
  2:{ exists [], []. repeat split; [apply yields_nil|constructor]. }
  destruct (WG eq_refl) as (LG & FG). clear WG. set (n := nVertices m) in *. set (g := sp_gradients s) in *.
  assert (D0 : 0 < m_dim m) by lia.
  assert (NA : forall x, isWord x = true -> isWord (d_name d ++ x) = true) by (intros; apply isWord_app; auto).
  destruct (Nat.eqb_spec (d_dims d) 1) as [E|E].
  - rewrite E in *. destruct (gradient_block (m_dim m) n 1 0 (d_name d ++ "_gradient") g D) as (i & w & EI & Y & B); try reflexivity; auto.
    rewrite EI. cbn [option_map]. exists (i ++ [Nl]), [w]. split; [reflexivity|]. split.
    + cbn [List.concat]. apply yields_app; [exact Y|apply yields_space; reflexivity].
    + constructor; [|constructor].
      erewrite map_ext_in; [exact B|]. intros j J. apply in_seq in J. cbv beta. do 2 f_equal. symmetry. replace (0 + j * 1) with j by lia.
      apply (column_scalar zero (m_dim m) n g j); auto; lia.
  - assert (DE : d_dims d = m_dim m) by tauto. rewrite DE in *.
    assert (BL : forall k x, k < m_dim m -> isWord x = true -> exists i w, vtkGradientBlock (d_name d ++ x) k (m_dim m) g = Some i /\ yields i w /\
        ablock n w ((d_name d ++ x)%string, map (fun i => pad3 (map (rd vtkDigits) (derivatives zero (m_dim m) (m_dim m) (List.concat g) k i))) (seq 0 n))).
    { intros k x K X. destruct (gradient_block (m_dim m) n (m_dim m) k (d_name d ++ x) g D (NA x X) D0 K LG FG) as (i & w & EI & Y & B).
      exists i, w. split; [exact EI|]. split; [exact Y|]. erewrite map_ext_in; [exact B|]. intros j J. apply in_seq in J. cbv beta. do 2 f_equal. symmetry.
      apply (column_vector zero (m_dim m) n g j k); auto; lia. }
    destruct (BL 0 "_dx"%string) as (i0 & w0 & E0 & Y0 & B0); [lia|reflexivity|].
    destruct (BL 1 "_dy"%string) as (i1 & w1 & E1 & Y1 & B1); [lia|reflexivity|].
    rewrite E0, E1. assert (YN : yields [Nl] (@nil item)) by (apply yields_space; reflexivity).
    destruct D as [D|D]; rewrite D in *; cbn [Nat.eqb].
    + exists ((i0 ++ [Nl] ++ i1 ++ [Nl] ++ []) ++ [Nl]), [w0; w1]. split; [reflexivity|]. split.
      * cbn [List.concat]. rewrite <- !app_assoc. apply yields_app; [exact Y0|]. apply (yields_app _ []); [exact YN|].
        apply yields_app; [exact Y1|]. apply (yields_app _ []); [exact YN|]. exact YN.
      * cbn [firstn map fst snd]. constructor; [exact B0|]. constructor; [exact B1|constructor].
    + destruct (BL 2 "_dz"%string) as (i2 & w2 & E2 & Y2 & B2); [lia|reflexivity|]. rewrite E2.
      exists ((i0 ++ [Nl] ++ i1 ++ [Nl] ++ i2 ++ []) ++ [Nl]), [w0; w1; w2]. split; [reflexivity|]. split.
      * cbn [List.concat]. rewrite <- !app_assoc. apply yields_app; [exact Y0|]. apply (yields_app _ []); [exact YN|].
        apply yields_app; [exact Y1|]. apply (yields_app _ []); [exact YN|]. apply yields_app; [exact Y2|]. exact YN.
      * cbn [firstn map fst snd]. constructor; [exact B0|]. constructor; [exact B1|]. constructor; [exact B2|constructor].
Qed.

Definition vtkArrays (m : mesh (V:=V)) : list (string * list (list V)) :=
  rankArray ofNat 0 m :: map (fun ds : data * sample => valuesArray zero rd vtkDigits (nVertices m) (fst ds) (snd ds)) (filled m) ++
  flat_map (fun ds : data * sample => gradientArrays zero rd vtkDigits (m_dim m) (nVertices m) (fst ds) (snd ds)) (filled m).

Lemma data_blocks : forall m, wfMesh m -> namesAre isWord m ->
  exists i ws, concatOk (map (fun d => match d_last d with None => Some [] | Some s => vtkValues (nVertices m) d s end) (m_data m)) = Some i /\
    yields i (List.concat ws) /\
    Forall2 (ablock (nVertices m)) ws (map (fun ds : data * sample => valuesArray zero rd vtkDigits (nVertices m) (fst ds) (snd ds)) (filled m)).
Proof.
  intros m (D & _ & _ & _ & _ & WD) NA. unfold filled, namesAre, concatOk in *. induction (m_data m) as [|d l IH].
  - exists [], []. repeat split; [apply yields_nil|constructor].
  - inversion WD as [|? ? W1 W2]; subst. inversion NA as [|? ? N1 N2]; subst. destruct (IH W2 N2) as (i & ws & E & Y & F).
    cbn [map allOk flat_map]. destruct (d_last d) as [s|] eqn:LS.
    + destruct (values_block (m_dim m) (nVertices m) d s D W1 N1 LS) as (i1 & w1 & E1 & Y1 & B1). rewrite E1.
      destruct (allOk (map _ l)) as [t|]; [|discriminate]. cbn [option_map List.concat] in *. injection E as ->.
      exists (i1 ++ i), (w1 :: ws). split; [reflexivity|]. split; [apply (yields_app i1 w1 i (List.concat ws)); auto|]. cbn [app map fst snd]. constructor; auto.
    + destruct (allOk (map _ l)) as [t|]; [|discriminate]. cbn [option_map List.concat app] in *. injection E as ->. exists i, ws. auto.
Qed.
Lemma gradients_blocks : forall m, wfMesh m -> namesAre isWord m ->
  exists i ws, vtkGradients m = Some i /\ yields i (List.concat ws) /\
    Forall2 (ablock (nVertices m)) ws (flat_map (fun ds : data * sample => gradientArrays zero rd vtkDigits (m_dim m) (nVertices m) (fst ds) (snd ds)) (filled m)).
Proof.
  intros m W NA. assert (W' := W). destruct W' as (D & _ & _ & _ & _ & WD). unfold vtkGradients, filled, namesAre, concatOk in *. induction (m_data m) as [|d l IH].
  - exists [], []. repeat split; [apply yields_nil|constructor].
  - inversion WD as [|? ? W1 W2]; subst. inversion NA as [|? ? N1 N2]; subst. destruct (IH N2 W2) as (i & ws & E & Y & F).
    cbn [map allOk flat_map]. destruct (d_last d) as [s|] eqn:LS.
    + destruct (gradients_block m d s W W1 N1 LS) as (i1 & w1 & E1 & Y1 & B1). rewrite E1.
      destruct (allOk (map _ l)) as [t|]; [|discriminate]. cbn [option_map List.concat] in *. injection E as ->.
      exists (i1 ++ i), (w1 ++ ws). split; [reflexivity|]. split; [rewrite concat_app; apply yields_app; auto|]. cbn [app flat_map fst snd]. apply Forall2_app; auto.
    + destruct (allOk (map _ l)) as [t|]; [|discriminate]. cbn [option_map List.concat app] in *. injection E as ->. exists i, ws. auto.
Qed.

Lemma read_vtk : forall m, wfMesh m -> namesAre isWord m ->
  exists file, vtkFile zero m = Some file /\ readVTK zero ofNat rd file = Some (GR (pointsOf zero rd vtkDigits m) (cellsVTK m) (vtkArrays m)).
Proof.
  intros m W NA. assert (D : m_dim m = 2 \/ m_dim m = 3) by apply W.
  destruct (points_ok m W) as (pi & PE & PY & PL & pv & PN & PR).
  destruct (data_blocks m W NA) as (di & dw & DE & DY & DF).
  destruct (gradients_blocks m W NA) as (gi & gw & GE & GY & GF).
  unfold vtkFile, vtkMesh, vtkData. rewrite PE, DE, GE. cbn [option_map]. eexists. split; [reflexivity|].
  set (rw := Wd "SCALARS" :: Wd "Rank" :: Wd "unsigned_int" :: Wd "LOOKUP_TABLE" :: Wd "default" :: map (fun _ => Int 0) (seq 0 (nVertices m)) : list item).
  set (n := nVertices m) in *.
  assert (RB : ablock n rw (rankArray ofNat 0 m)).
  { unfold rw, rankArray. fold n. eapply ab_scalar.
    - rewrite map_length, seq_length. reflexivity.
    - rewrite <- flat_map_single. apply (numbers_flat zero ofNat rd nat _ (fun _ => [ofNat 0])). reflexivity.
    - apply (rows_seq V (fun _ => [ofNat 0])). reflexivity. }
  set (aw := rw :: dw ++ gw).
  assert (AF : Forall2 (ablock n) aw (vtkArrays m)) by (constructor; [exact RB|apply Forall2_app; auto]).
  set (W0 := Wd "DATASET" :: Wd "UNSTRUCTURED_GRID" :: Wd "POINTS" :: Int n :: Wd "double" :: pointWords m ++ cellWords m ++ Wd "POINT_DATA" :: Int n :: List.concat aw).
  match goal with |- readVTK _ _ _ ?f = _ => assert (AM : exists body, afterMagic f = Some body /\ yields body W0) end.
  { eexists. split; [unfold vtkHeader; cbn [app afterMagic]; reflexivity|]. unfold W0, aw, rw.
    apply yields_skip; [reflexivity|]. do 2 (apply yields_cons; [reflexivity|reflexivity|]). apply yields_skip; [reflexivity|].
    do 3 (apply yields_cons; [reflexivity|reflexivity|]). do 2 (apply yields_skip; [reflexivity|]). rewrite <- !app_assoc.
    apply yields_app; [exact PY|]. cbn [app]. apply yields_skip; [reflexivity|]. rewrite <- ?app_assoc. apply yields_app; [apply vtkCells_ok; exact D|].
    cbn [app]. do 2 (apply yields_cons; [reflexivity|reflexivity|]). apply yields_skip; [reflexivity|].
    cbn [List.concat app]. do 5 (apply yields_cons; [reflexivity|reflexivity|]). rewrite <- ?app_assoc.
    rewrite <- flat_map_single. apply yields_app; [apply yields_flat; intros; apply yields_atom; reflexivity|].
    cbn [app]. do 2 (apply yields_skip; [reflexivity|]). rewrite concat_app. apply yields_app; auto. }
  destruct AM as (body & AM & YB). unfold readVTK. rewrite AM. cbn [bind]. rewrite (yields_words _ _ YB). cbn [bind]. unfold W0.
  assert (EX : forall x (r : list item), expect x (Wd x :: r) = Some r) by (intros x r; unfold expect; rewrite String.eqb_refl; reflexivity).
  rewrite !EX. cbn [bind]. rewrite !EX. cbn [bind]. rewrite !EX. cbn [bind expectNat snd fst]. rewrite !EX. cbn [bind].
  rewrite (split_app _ (pointWords m) _ (n * 3) PL). cbn [bind fst snd]. rewrite PN. cbn [bind]. rewrite PR. cbn [bind].
  unfold cellWords. cbn [app]. rewrite !EX. cbn [bind expectNat snd fst]. rewrite <- !app_assoc.
  rewrite split_app by (unfold ints; rewrite map_length; reflexivity). cbn [bind fst snd]. unfold ints at 1. rewrite naturals_ints. cbn [bind].
  assert (CL := cellLists_ok (map snd (cellsVTK m))). rewrite map_length in CL. rewrite CL. cbn [bind app]. rewrite !EX. cbn [bind expectNat snd fst].
  rewrite Nat.eqb_refl. cbn [ensure bind]. rewrite split_app by (unfold ints; rewrite !map_length; reflexivity). cbn [bind fst snd].
  unfold ints. rewrite naturals_ints. cbn [bind]. rewrite combine_fst_snd.
  destruct (good_cells m W) as (G1 & G2 & G3).
  assert (GC : forallb (goodCell n) (cellsVTK m) = true).
  { unfold cellsVTK. destruct (m_dim m =? 2); [exact G1|]. rewrite !forallb_app. fold n in G1, G2, G3. rewrite G1, G2, G3. reflexivity. }
  rewrite GC. cbn [ensure bind]. rewrite !EX. cbn [bind expectNat snd fst]. rewrite Nat.eqb_refl. cbn [ensure bind].
  rewrite (attributes_ok n aw _ AF) by (apply (ablocks_length n aw _ AF)). reflexivity.
Qed.
End Legacy.
