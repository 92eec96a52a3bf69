(** The pieces: points, cells and data of a mesh are read back. *)
From Coq Require Import String Ascii Bool Arith List Lia.
From Verif Require Import M_Vtk S_Vtk P_Vtk P_VtkXml.
Import ListNotations.
Open Scope list_scope.

Section Piece.
Context {V : Type}.
Variables (zero : V) (ofNat : nat -> V) (rd : nat -> V -> V).
Hypothesis rd_zero : forall p, rd p zero = zero.
Notation item := (@item V).
Notation node := (@node V).
Notation numbers := (numbers zero ofNat rd).
Notation table := (table zero ofNat rd).
Notation pad3 := (pad3 zero).

(** ** Points *)
Definition pointsNode (m : mesh) : node :=
  El "Points" [] [El "DataArray" (arrayTag "Float64" "Position" 3) (map Tx (flat_map (writeVertex zero) (m_vertices m)))].
Lemma grows_points : forall m, grows (exportPoints zero m) [pointsNode m].
Proof.
  intros m. unfold exportPoints, pointsNode.
  replace (Open "Points" [] :: Open "DataArray" (arrayTag "Float64" "Position" 3) :: flat_map (writeVertex zero) (m_vertices m) ++ [Close "DataArray"; Close "Points"])
    with (Open "Points" [] :: (Open "DataArray" (arrayTag "Float64" "Position" 3) :: flat_map (writeVertex zero) (m_vertices m) ++ [Close "DataArray"]) ++ [Close "Points"])
    by (cbn [app]; rewrite <- app_assoc; reflexivity).
  apply grows_el, grows_el, grows_text. apply notag_flat. intros p _. unfold writeVertex. rewrite !forallb_app, notag_nums.
  destruct (_ =? _); reflexivity.
Qed.
Lemma readPoints_ok : forall m rest, wfMesh m ->
  readPoints zero ofNat rd (nVertices m) (pointsNode m :: rest) = Some (pointsOf zero rd streamDigits m).
Proof.
  intros m rest (D & FV & _). unfold readPoints, pointsNode. change (kid "Points" (El "Points" [] ?k :: rest)) with (Some (@nil (string * list item), k)).
  cbn [kid String.eqb]. cbn [bind snd]. 
  set (w := flat_map (fun p => map (Num streamDigits) p ++ (if List.length p =? 2 then [Num streamDigits zero] else [])) (m_vertices m) : list item).
  assert (Y : yields (flat_map (writeVertex zero) (m_vertices m)) w).
  { apply yields_flat. intros p _. unfold writeVertex. apply yields_app; [apply yields_nums|].
    destruct (_ =? _); cbn [app]; [apply yields_cons; try reflexivity|]; apply yields_space; reflexivity. }
  assert (A : array (arrayTag "Float64" "Position" 3, map Tx (flat_map (writeVertex zero) (m_vertices m))) = Some ("Position"%string, 3, w)).
  { unfold array. cbn [fst snd].
    change (attrName "Name" (arrayTag (V:=V) "Float64" "Position" 3)) with (Some "Position"%string).
    change (attrNat "NumberOfComponents" (arrayTag (V:=V) "Float64" "Position" 3)) with (Some 3). cbn [bind].
    rewrite textOf_text, (yields_words _ _ Y). reflexivity. }
  change (kid "DataArray" [El "DataArray" (arrayTag "Float64" "Position" 3) (map Tx (flat_map (writeVertex zero) (m_vertices m)))])
    with (Some (arrayTag (V:=V) "Float64" "Position" 3, map Tx (flat_map (writeVertex zero) (m_vertices m)))).
  cbn [bind]. rewrite A. cbn [bind]. unfold S_Vtk.table.
  assert (N : numbers w = Some (List.concat (map (fun p => pad3 (map (rd streamDigits) p)) (m_vertices m)))).
  { apply numbers_flat. intros p P. rewrite Forall_forall in FV. specialize (FV p P). unfold S_Vtk.pad3. rewrite map_length, FV.
    apply numbers_app; [apply numbers_nums|]. destruct D as [-> | ->]; cbn; rewrite ?rd_zero; reflexivity. }
  rewrite N. cbn [bind]. unfold nVertices. rewrite rows_map.
  - reflexivity.
  - intros p P. rewrite Forall_forall in FV. apply pad3_length. rewrite map_length, (FV p P). lia.
Qed.

(** ** Cells *)
Definition ints (l : list nat) : list item := map Int l.
Lemma yields_ints : forall A (f : A -> nat) l, yields (flat_map (fun x => [Int (f x); Sp]) l) (ints (map f l)).
Proof. intros A f l. unfold ints. rewrite map_map, <- flat_map_single. apply yields_flat. intros. apply yields_atom; reflexivity. Qed.
Lemma yields_cells : forall A (write : A -> list item) (ids : A -> list nat) l,
  (forall x, yields (write x) (ints (ids x))) -> yields (flat_map write l) (ints (List.concat (map ids l))).
Proof.
  intros A write ids l H. unfold ints. rewrite concat_map, map_map, <- flat_map_concat_map. apply yields_flat. intros; apply H.
Qed.
Definition edgeIds (e : nat * nat) := [fst e; snd e].
Definition triangleIds (t : nat * nat * nat) := let '(a, b, c) := t in [a; b; c].
Definition tetraIds (t : nat * nat * nat * nat) := let '(a, b, c, d) := t in [a; b; c; d].
Lemma yields_line : forall e, yields (writeLine e) (ints (edgeIds e)).
Proof. intros [a b]. cbn. repeat (apply yields_cons; [reflexivity|reflexivity|]). apply yields_nil. Qed.
Lemma yields_triangle : forall e, yields (writeTriangle e) (ints (triangleIds e)).
Proof. intros [[a b] c]. cbn. repeat (apply yields_cons; [reflexivity|reflexivity|]). apply yields_nil. Qed.
Lemma yields_tetra : forall e, yields (writeTetrahedron e) (ints (tetraIds e)).
Proof. intros [[[a b] c] d]. cbn. repeat (apply yields_cons; [reflexivity|reflexivity|]). apply yields_nil. Qed.
Lemma ids_edges : forall l, Forall (fun c => List.length c = 2) (map edgeIds l).
Proof. intros l. rewrite Forall_map. apply Forall_forall. reflexivity. Qed.
Lemma ids_triangles : forall l, Forall (fun c => List.length c = 3) (map triangleIds l).
Proof. intros l. rewrite Forall_map. apply Forall_forall. intros [[a b] c] _. reflexivity. Qed.
Lemma ids_tetras : forall l, Forall (fun c => List.length c = 4) (map tetraIds l).
Proof. intros l. rewrite Forall_map. apply Forall_forall. intros [[[a b] c] d] _. reflexivity. Qed.

Definition notags (l : list item) : Prop := forallb (fun i => negb (isTag i)) l = true.
Lemma notags_offsets : forall w b n, notags (offsets w b n).
Proof. intros. apply notag_flat. reflexivity. Qed.
Lemma notags_types : forall w n, notags (types w n).
Proof. intros. apply notag_flat. reflexivity. Qed.
Lemma notags_lines : forall l, notags (flat_map writeLine l).
Proof. intros. apply notag_flat. intros [a b] _. reflexivity. Qed.
Lemma notags_triangles : forall l, notags (flat_map writeTriangle l).
Proof. intros. apply notag_flat. intros [[a b] c] _. reflexivity. Qed.
Lemma notags_tetras : forall l, notags (flat_map writeTetrahedron l).
Proof. intros. apply notag_flat. intros [[[a b] c] d] _. reflexivity. Qed.
Lemma notags_app : forall a b, notags a -> notags b -> notags (a ++ b).
Proof. unfold notags. intros a b A B. rewrite forallb_app, A, B. reflexivity. Qed.
Lemma ints_app : forall a b, ints (a ++ b) = ints a ++ ints b.
Proof. intros. apply map_app. Qed.

Lemma integers_named : forall name c w l v, c = 1 -> named name l = Some (c, w) -> w = ints v -> integers name l = Some v.
Proof. intros name c w l v -> H ->. unfold integers. rewrite H. cbn [bind fst snd ensure Nat.eqb]. apply naturals_ints. Qed.

(** the arrays of the cells of an unstructured grid *)
Definition vtuQ (m : mesh (V:=V)) : list (string * string * nat * list item) :=
  let tri := List.length (m_triangles m) in
  let edg := List.length (m_edges m) in
  let tet := List.length (m_tetrahedra m) in
  [("Int32"%string, "connectivity"%string, 1, flat_map writeTriangle (m_triangles m) ++ flat_map writeLine (m_edges m) ++ flat_map writeTetrahedron (m_tetrahedra m));
   ("Int32"%string, "offsets"%string, 1, offsets 3 0 tri ++ offsets 2 (3 * tri) edg ++ offsets 4 (2 * edg + 3 * tri) tet);
   ("UInt8"%string, "types"%string, 1, types 5 tri ++ types 3 edg ++ types 10 tet)].
Definition lineQ (m : mesh (V:=V)) : list (string * string * nat * list item) :=
  [("Int32"%string, "connectivity"%string, 1, flat_map writeLine (m_edges m));
   ("Int32"%string, "offsets"%string, 1, offsets 2 0 (List.length (m_edges m)))].
Definition polyQ (m : mesh (V:=V)) : list (string * string * nat * list item) :=
  [("Int32"%string, "connectivity"%string, 1, flat_map writeTriangle (m_triangles m));
   ("Int32"%string, "offsets"%string, 1, offsets 3 0 (List.length (m_triangles m)))].

Definition cellsVTU (m : mesh (V:=V)) : list (nat * list nat) := trianglesOf m ++ linesOf m ++ tetrahedraOf m.
Lemma map_snd_lines : forall m, map snd (linesOf (V:=V) m) = map edgeIds (m_edges m).
Proof. intros. unfold linesOf. rewrite map_map. reflexivity. Qed.
Lemma map_snd_triangles : forall m, map snd (trianglesOf (V:=V) m) = map triangleIds (m_triangles m).
Proof. intros. unfold trianglesOf. rewrite map_map. apply map_ext. intros [[a b] c]. reflexivity. Qed.
Lemma map_snd_tetras : forall m, map snd (tetrahedraOf (V:=V) m) = map tetraIds (m_tetrahedra m).
Proof. intros. unfold tetrahedraOf. rewrite map_map. apply map_ext. intros [[[a b] c] d]. reflexivity. Qed.
Lemma map_fst_lines : forall m, map fst (linesOf (V:=V) m) = map (fun _ => 3) (seq 1 (List.length (m_edges m))).
Proof. intros. unfold linesOf. rewrite map_map. cbn [fst]. induction (m_edges m) as [|e l IH]; [reflexivity|]. cbn [map List.length seq]. rewrite IH, (seq_from _ 2), (seq_from _ 1), !map_map. reflexivity. Qed.
Lemma map_fst_triangles : forall m, map fst (trianglesOf (V:=V) m) = map (fun _ => 5) (seq 1 (List.length (m_triangles m))).
Proof. intros. unfold trianglesOf. rewrite map_map. induction (m_triangles m) as [|[[a b] c] l IH]; [reflexivity|]. cbn [map List.length seq fst]. rewrite IH, (seq_from _ 2), (seq_from _ 1), !map_map. reflexivity. Qed.
Lemma map_fst_tetras : forall m, map fst (tetrahedraOf (V:=V) m) = map (fun _ => 10) (seq 1 (List.length (m_tetrahedra m))).
Proof. intros. unfold tetrahedraOf. rewrite map_map. induction (m_tetrahedra m) as [|[[[a b] c] d] l IH]; [reflexivity|]. cbn [map List.length seq fst]. rewrite IH, (seq_from _ 2), (seq_from _ 1), !map_map. reflexivity. Qed.
Lemma combine_fst_snd : forall A B (l : list (A * B)), combine (map fst l) (map snd l) = l.
Proof. induction l as [|[a b] l IH]; [reflexivity|]. cbn. rewrite IH. reflexivity. Qed.

Lemma vtu_ok : forall m, Forall q_ok (vtuQ m) /\
  integers "connectivity" (map q_read (vtuQ m)) = Some (List.concat (map snd (cellsVTU m))) /\
  integers "offsets" (map q_read (vtuQ m)) = Some (ends 0 (map snd (cellsVTU m))) /\
  integers "types" (map q_read (vtuQ m)) = Some (map fst (cellsVTU m)).
Proof.
  intros m.
  set (cw := ints (List.concat (map snd (cellsVTU m)))).
  assert (Y1 : yields (flat_map writeTriangle (m_triangles m) ++ flat_map writeLine (m_edges m) ++ flat_map writeTetrahedron (m_tetrahedra m)) cw).
  { unfold cw, cellsVTU. rewrite !map_app, !concat_app, !ints_app, map_snd_lines, map_snd_triangles, map_snd_tetras.
    repeat apply yields_app; apply yields_cells; [apply yields_triangle|apply yields_line|apply yields_tetra]. }
  set (ow := ints (ends 0 (map snd (cellsVTU m)))).
  assert (Y2 : yields (offsets 3 0 (List.length (m_triangles m)) ++ offsets 2 (3 * List.length (m_triangles m)) (List.length (m_edges m)) ++
                       offsets 4 (2 * List.length (m_edges m) + 3 * List.length (m_triangles m)) (List.length (m_tetrahedra m))) ow).
  { unfold ow, cellsVTU. rewrite !map_app, map_snd_lines, map_snd_triangles, map_snd_tetras, !ends_app.
    rewrite (ends_uniform 3 _ _ (ids_triangles _)), (ends_uniform 2 _ _ (ids_edges _)), (ends_uniform 4 _ _ (ids_tetras _)).
    rewrite (concat_length _ _ 3 (ids_triangles _)), (concat_length _ _ 2 (ids_edges _)), !map_length, !ints_app.
    replace (0 + 3 * List.length (m_triangles m)) with (3 * List.length (m_triangles m)) by lia.
    replace (3 * List.length (m_triangles m) + 2 * List.length (m_edges m)) with (2 * List.length (m_edges m) + 3 * List.length (m_triangles m)) by lia.
    repeat apply yields_app; unfold offsets; apply (yields_ints nat (fun i => _ * i + _)). }
  set (tw := ints (map fst (cellsVTU m))).
  assert (Y3 : yields (types 5 (List.length (m_triangles m)) ++ types 3 (List.length (m_edges m)) ++ types 10 (List.length (m_tetrahedra m))) tw).
  { unfold tw, cellsVTU. rewrite !map_app, !ints_app, map_fst_lines, map_fst_triangles, map_fst_tetras.
    repeat apply yields_app; unfold types; apply (yields_ints nat (fun _ => _)). }
  split; [|split; [|split]].
  - repeat constructor; cbn [snd fst q_name].
    + apply notags_app; [apply notags_triangles|apply notags_app; [apply notags_lines|apply notags_tetras]].
    + eexists; exact Y1.
    + repeat apply notags_app; apply notags_offsets.
    + eexists; exact Y2.
    + repeat apply notags_app; apply notags_types.
    + eexists; exact Y3.
  - apply (integers_named _ 1 cw); [reflexivity| |reflexivity]. unfold vtuQ. unfold q_read, q_name, q_comp; cbn [map fst snd]. rewrite (wordsOf_yields _ _ Y1). reflexivity.
  - apply (integers_named _ 1 ow); [reflexivity| |reflexivity]. unfold vtuQ. unfold q_read, q_name, q_comp; cbn [map fst snd].
    rewrite (wordsOf_yields _ _ Y2). reflexivity.
  - apply (integers_named _ 1 tw); [reflexivity| |reflexivity]. unfold vtuQ. unfold q_read, q_name, q_comp; cbn [map fst snd].
    rewrite (wordsOf_yields _ _ Y3). reflexivity.
Qed.

Lemma uniform_ok : forall A (write : A -> list item) (ids : A -> list nat) w l,
  (forall x, yields (write x) (ints (ids x))) -> notags (flat_map write l) -> Forall (fun c => List.length c = w) (map ids l) ->
  let Q := [("Int32"%string, "connectivity"%string, 1, flat_map write l); ("Int32"%string, "offsets"%string, 1, offsets w 0 (List.length l))] in
  Forall q_ok Q /\ readCells (List.length l) (map q_read Q) = Some (map ids l).
Proof.
  intros A write ids w l HW NT F Q.
  assert (Y1 : yields (flat_map write l) (ints (List.concat (map ids l)))) by (apply yields_cells; auto).
  assert (Y2 : yields (offsets w 0 (List.length l)) (ints (ends 0 (map ids l)))).
  { rewrite (ends_uniform w _ _ F), map_length. apply (yields_ints nat (fun i => w * i + 0)). }
  split.
  - repeat constructor; cbn [snd fst q_name]; [exact NT|eexists; exact Y1|apply notags_offsets|eexists; exact Y2].
  - unfold readCells.
    rewrite (integers_named "connectivity" 1 (ints (List.concat (map ids l))) _ (List.concat (map ids l)));
      [|reflexivity|unfold Q; unfold q_read, q_name, q_comp; cbn [map fst snd]; rewrite (wordsOf_yields _ _ Y1); reflexivity|reflexivity].
    rewrite (integers_named "offsets" 1 (ints (ends 0 (map ids l))) _ (ends 0 (map ids l)));
      [|reflexivity|unfold Q; unfold q_read, q_name, q_comp; cbn [map fst snd]; rewrite (wordsOf_yields _ _ Y2); reflexivity|reflexivity].
    cbn [bind]. assert (LE : List.length (ends 0 (map ids l)) = List.length l).
    { rewrite (ends_uniform w _ _ F), map_length, seq_length, map_length. reflexivity. }
    rewrite LE, Nat.eqb_refl. cbn [ensure bind]. apply cut_ends.
Qed.

Lemma good_cells : forall m, wfMesh (V:=V) m ->
  forallb (goodCell (nVertices m)) (linesOf m) = true /\ forallb (goodCell (nVertices m)) (trianglesOf m) = true /\
  forallb (goodCell (nVertices m)) (tetrahedraOf m) = true.
Proof.
  intros m (_ & _ & FE & FT & FX & _). rewrite Forall_forall in FE, FT, FX.
  split; [|split]; apply forallb_forall; intros c C; apply in_map_iff in C; destruct C as (x & <- & X).
  - destruct (FE x X) as (A & B). unfold goodCell; cbn [fst snd List.length Nat.eqb forallb andb]. rewrite (proj2 (Nat.ltb_lt _ _) A), (proj2 (Nat.ltb_lt _ _) B). reflexivity.
  - destruct x as [[a b] c]. destruct (FT _ X) as (A & B & C0). unfold goodCell; cbn [fst snd List.length Nat.eqb forallb andb].
    rewrite (proj2 (Nat.ltb_lt _ _) A), (proj2 (Nat.ltb_lt _ _) B), (proj2 (Nat.ltb_lt _ _) C0). reflexivity.
  - destruct x as [[[a b] c] d]. destruct (FX _ X) as (A & B & C0 & D0). unfold goodCell; cbn [fst snd List.length Nat.eqb forallb andb].
    rewrite (proj2 (Nat.ltb_lt _ _) A), (proj2 (Nat.ltb_lt _ _) B), (proj2 (Nat.ltb_lt _ _) C0), (proj2 (Nat.ltb_lt _ _) D0). reflexivity.
Qed.
End Piece.
