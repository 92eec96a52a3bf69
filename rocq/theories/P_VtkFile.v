(** Whole XML files. *)
From Coq Require Import String Ascii Bool Arith List Lia Permutation.
From Verif Require Import M_Vtk S_Vtk P_Vtk P_VtkXml P_VtkPiece.
Import ListNotations.
Open Scope list_scope.

Section File.
Context {V : Type}.
Variables (zero : V) (ofNat : nat -> V) (rd : nat -> V -> V).
Hypothesis rd_zero : forall p, rd p zero = zero.
Notation item := (@item V).
Notation node := (@node V).

Definition cellNodes (k : kind) (m : mesh (V:=V)) : list node :=
  match k with
  | VTU => [El "Cells" [] (map q_node (vtuQ m))]
  | VTP => [El "Lines" [] (map q_node (lineQ m)); El "Polys" [] (map q_node (polyQ m))]
  end.
Lemma grows_cells : forall k m, grows (exportConnectivity k m) (cellNodes k m).
Proof.
  intros [|] m; unfold cellNodes.
  - replace (exportConnectivity VTU m) with (Open "Cells" [] :: flat_map q_write (vtuQ m) ++ [Close "Cells"]).
    + apply grows_el, grows_all, vtu_ok.
    + unfold exportConnectivity, vtuQ. cbn [flat_map q_write]. rewrite app_nil_r, <- !app_assoc. reflexivity.
  - replace (exportConnectivity VTP m) with ((Open "Lines" [] :: flat_map q_write (lineQ m) ++ [Close "Lines"]) ++ (Open "Polys" [] :: flat_map q_write (polyQ m) ++ [Close "Polys"])).
    + apply (grows_app _ [_] _ [_]); apply grows_el, grows_all.
      * apply (uniform_ok _ writeLine edgeIds 2 (m_edges m) yields_line (notags_lines _) (ids_edges _)).
      * apply (uniform_ok _ writeTriangle triangleIds 3 (m_triangles m) yields_triangle (notags_triangles _) (ids_triangles _)).
    + unfold exportConnectivity, lineQ, polyQ. cbn [flat_map q_write]. rewrite !app_nil_r, <- !app_assoc. cbn [app]. rewrite <- !app_assoc. reflexivity.
Qed.

(** the children of the piece *)
Lemma sub_piece : forall k m rank, wfMesh m -> namesAre isValue m ->
  exists file L at_, subFile zero k rank m = Some file /\ Forall q_ok L /\
    piece (vtkFormat k) file = Some (pieceAttributes k m, pointsNode zero m :: cellNodes k m ++ [El "PointData" at_ (map q_node L)]) /\
    allOk (map (fun q => table zero ofNat rd (nVertices m) (q_read q)) L) = Some (allArrays zero ofNat rd streamDigits rank m) /\
    map (fun q => (q_name q, q_comp q)) L = allDeclared zero rd m.
Proof.
  intros k m rank W N. destruct (mesh_arrays zero ofNat rd m rank W N) as (L & E & F & T & Q).
  set (at_ := [("Scalars"%string, Wd "Rank" :: Sp :: nameList (scalarNames m)); ("Vectors"%string, nameList (vectorNames m))]) in *.
  set (dat := Open "PointData" at_ :: flat_map q_write L ++ [Close "PointData"]) in *.
  set (inner := exportPoints zero m ++ exportConnectivity k m ++ dat).
  eexists. exists L, at_. split; [|split; [exact F|split; [|split; [exact T|exact Q]]]].
  { unfold subFile. rewrite E. cbn [option_map]. reflexivity. }
  assert (GD : grows dat [El "PointData" at_ (map q_node L)]) by (apply grows_el, grows_all; exact F).
  assert (GI : grows inner (pointsNode zero m :: cellNodes k m ++ [El "PointData" at_ (map q_node L)])).
  { apply (grows_app _ [pointsNode zero m] _ (cellNodes k m ++ _)); [apply grows_points|]. apply grows_app; [apply grows_cells|exact GD]. }
  unfold piece. rewrite (grows_parse _ [El "VTKFile" [("type"%string, [Wd (vtkFormat k)])] [El (vtkFormat k) [] [El "Piece" (pieceAttributes k m) (pointsNode zero m :: cellNodes k m ++ [El "PointData" at_ (map q_node L)])]]]).
  - destruct k; reflexivity.
  - match goal with |- grows ?l _ => replace l with (Open "VTKFile" [("type"%string, [Wd (vtkFormat k)])] ::
      (Open (vtkFormat k) [] :: (Open "Piece" (pieceAttributes k m) :: inner ++ [Close "Piece"]) ++ [Close (vtkFormat k)]) ++ [Close "VTKFile"]) end.
    + apply grows_el, grows_el, grows_el, GI.
    + unfold inner. cbn [app]. rewrite <- !app_assoc. cbn [app]. reflexivity.
Qed.

Lemma pointData_kid : forall k m at_ L, kid "PointData" (pointsNode zero m :: cellNodes k m ++ [El "PointData" at_ (map q_node L)]) = Some (at_, map q_node L).
Proof. intros [|] m at_ L; reflexivity. Qed.

Lemma read_vtu : forall m rank, wfMesh m -> namesAre isValue m ->
  exists file, subFile zero VTU rank m = Some file /\
    readVTU zero ofNat rd file = Some (GR (pointsOf zero rd streamDigits m) (trianglesOf m ++ linesOf m ++ tetrahedraOf m) (allArrays zero ofNat rd streamDigits rank m)).
Proof.
  intros m rank W N. destruct (sub_piece VTU m rank W N) as (file & L & at_ & E & F & P & T & _).
  exists file. split; [exact E|]. unfold readVTU. change "UnstructuredGrid"%string with (vtkFormat VTU). rewrite P. cbn [bind fst snd].
  change (attrNat "NumberOfPoints" (pieceAttributes VTU m)) with (Some (nVertices m)).
  change (attrNat "NumberOfCells" (pieceAttributes VTU m)) with (Some (List.length (m_edges m) + List.length (m_triangles m) + List.length (m_tetrahedra m))).
  cbn [bind]. rewrite (readPoints_ok zero ofNat rd rd_zero m _ W). cbn [bind].
  change (kid "Cells" (pointsNode zero m :: cellNodes VTU m ++ [El "PointData" at_ (map q_node L)])) with (Some (@nil (string * list item), map q_node (vtuQ m))).
  cbn [bind snd]. destruct (vtu_ok m) as (FQ & R1 & R2 & R3). rewrite (arrays_all _ FQ). cbn [bind].
  unfold readCells. rewrite R1, R2. cbn [bind].
  assert (LE : List.length (ends 0 (map snd (cellsVTU m))) = List.length (m_edges m) + List.length (m_triangles m) + List.length (m_tetrahedra m)).
  { unfold cellsVTU. rewrite !map_app, !ends_app, !app_length. rewrite map_snd_lines, map_snd_triangles, map_snd_tetras.
    rewrite (ends_uniform 3 _ _ (ids_triangles _)), (ends_uniform 2 _ _ (ids_edges _)), (ends_uniform 4 _ _ (ids_tetras _)).
    repeat rewrite ?map_length, ?seq_length. lia. }
  rewrite LE, Nat.eqb_refl. cbn [ensure bind]. rewrite cut_ends, R3. cbn [bind].
  assert (LT : List.length (map fst (cellsVTU m)) = List.length (m_edges m) + List.length (m_triangles m) + List.length (m_tetrahedra m)).
  { unfold cellsVTU, trianglesOf, linesOf, tetrahedraOf. rewrite map_length, !app_length, !map_length. lia. }
  rewrite LT, Nat.eqb_refl. cbn [ensure bind]. rewrite combine_fst_snd.
  destruct (good_cells m W) as (G1 & G2 & G3). unfold cellsVTU at 1. rewrite !forallb_app, G1, G2, G3. cbn [andb ensure bind].
  unfold readArrays. rewrite pointData_kid. cbn [bind snd]. rewrite (arrays_all _ F). cbn [bind]. rewrite map_map, T. reflexivity.
Qed.

Lemma read_vtp : forall m rank, wfMesh m -> namesAre isValue m ->
  exists file, subFile zero VTP rank m = Some file /\
    readVTP zero ofNat rd file = Some (GR (pointsOf zero rd streamDigits m) (linesOf m ++ trianglesOf m) (allArrays zero ofNat rd streamDigits rank m)).
Proof.
  intros m rank W N. destruct (sub_piece VTP m rank W N) as (file & L & at_ & E & F & P & T & _).
  exists file. split; [exact E|]. unfold readVTP. change "PolyData"%string with (vtkFormat VTP). rewrite P. cbn [bind fst snd].
  change (attrNat "NumberOfPoints" (pieceAttributes VTP m)) with (Some (nVertices m)).
  change (attrNat "NumberOfLines" (pieceAttributes VTP m)) with (Some (List.length (m_edges m))).
  change (attrNat "NumberOfPolys" (pieceAttributes VTP m)) with (Some (List.length (m_triangles m))).
  cbn [bind]. rewrite (readPoints_ok zero ofNat rd rd_zero m _ W). cbn [bind].
  change (kid "Lines" (pointsNode zero m :: cellNodes VTP m ++ [El "PointData" at_ (map q_node L)])) with (Some (@nil (string * list item), map q_node (lineQ m))).
  change (kid "Polys" (pointsNode zero m :: cellNodes VTP m ++ [El "PointData" at_ (map q_node L)])) with (Some (@nil (string * list item), map q_node (polyQ m))).
  destruct (uniform_ok _ writeLine edgeIds 2 (m_edges m) (yields_line (V:=V)) (notags_lines _) (ids_edges _)) as (F1 & R1).
  destruct (uniform_ok _ writeTriangle triangleIds 3 (m_triangles m) (yields_triangle (V:=V)) (notags_triangles _) (ids_triangles _)) as (F2 & R2).
  fold (lineQ m) in F1, R1. fold (polyQ m) in F2, R2.
  cbn [bind snd]. rewrite (arrays_all _ F1). cbn [bind]. rewrite R1. cbn [bind]. rewrite (arrays_all _ F2). cbn [bind]. rewrite R2. cbn [bind].
  assert (CL : map (pair 3) (map edgeIds (m_edges m)) = linesOf m) by (unfold linesOf; rewrite map_map; reflexivity).
  assert (CT : map (pair 5) (map triangleIds (m_triangles m)) = trianglesOf m).
  { unfold trianglesOf. rewrite map_map. apply map_ext. intros [[a b] c]. reflexivity. }
  rewrite CL, CT. destruct (good_cells m W) as (G1 & G2 & _). rewrite forallb_app, G1, G2. cbn [andb ensure bind].
  unfold readArrays. rewrite pointData_kid. cbn [bind snd]. rewrite (arrays_all _ F). cbn [bind]. rewrite map_map, T. reflexivity.
Qed.

Lemma read_declared : forall k m rank, wfMesh m -> namesAre isValue m ->
  exists file, subFile zero k rank m = Some file /\ declared (vtkFormat k) file = Some (allDeclared zero rd m).
Proof.
  intros k m rank W N. destruct (sub_piece k m rank W N) as (file & L & at_ & E & F & P & _ & Q).
  exists file. split; [exact E|]. unfold declared. rewrite P. cbn [bind fst snd]. rewrite pointData_kid. cbn [bind snd].
  rewrite kids_all, map_map. rewrite (allOk_map _ _ _ (fun q => (q_name q, q_comp q))); [rewrite Q; reflexivity|].
  intros q X. rewrite Forall_forall in F. destruct (F q X) as (NV & _). destruct q as [[[ty nm] c] b]. cbn [fst] in *.
  change (attrName "Name" (arrayTag (V:=V) ty nm c)) with (if isValue nm then Some nm else None).
  change (attrNat "NumberOfComponents" (arrayTag (V:=V) ty nm c)) with (Some c).
  cbn in NV. rewrite NV. reflexivity.
Qed.
End File.
