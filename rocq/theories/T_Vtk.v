(** C77: the exported files contain the mesh and the data, and what gets lost. *)
From Coq Require Import String Ascii Bool Arith ZArith List Lia Permutation.
From Verif Require Import M_Vtk S_Vtk P_Vtk P_VtkXml P_VtkPiece P_VtkFile P_VtkNames P_VtkLegacy P_VtkCsv P_VtkParallel.
Import ListNotations.
Open Scope list_scope.

(** ** Examples: numbers printed with p significant digits *)
Fixpoint digitsOf (fuel : nat) (v : Z) : nat :=
  match fuel with O => 1 | S f => if Z.ltb v 10 then 1 else S (digitsOf f (v / 10)) end.
Definition printed (p : nat) (v : Z) : Z :=
  let d := digitsOf 20 (Z.abs v) in
  if d <=? p then v else let u := (10 ^ Z.of_nat (d - p))%Z in ((v + u / 2) / u * u)%Z.
Lemma printed_zero : forall p, printed p 0%Z = 0%Z.
Proof. intros [|p]; reflexivity. Qed.

Definition flow : mesh (V:=Z) :=
  MS 2 [[0; 0]; [10; 0]; [10; 10]; [0; 10]]%Z [(0, 1); (1, 2)] [(0, 1, 2); (0, 2, 3)] []
    [DT "Pressure" 1 true (Some (SP [1; 2; 3; 4]%Z [[5; 6]; [7; 8]; [9; 1]; [2; 3]]%Z));
     DT "Velocity" 2 true (Some (SP [11; 12; 21; 22; 31; 32; 41; 42]%Z [[1; 2]; [3; 4]; [1; 2]; [3; 4]; [5; 6]; [7; 8]; [5; 6]; [7; 8]]%Z));
     DT "Later" 1 false None].
Lemma wf_filled : forall dim n nm dims c (l : list Z) g, (dims = 1 \/ dims = dim) -> List.length l = n * dims ->
  List.length g = n * dims -> forallb (fun x => List.length x =? dim) g = true -> wfData dim n (DT nm dims c (Some (SP l g))).
Proof.
  intros dim n nm dims c l g D L G F. split; [exact D|]. intros s E. injection E as <-. split; [exact L|]. intros _. split; [exact G|].
  apply Forall_forall. intros x X. rewrite forallb_forall in F. apply Nat.eqb_eq, F, X.
Qed.
Lemma wf_plain : forall dim n nm dims (l : list Z), (dims = 1 \/ dims = dim) -> List.length l = n * dims -> wfData dim n (DT nm dims false (Some (SP l []))).
Proof. intros dim n nm dims l D L. split; [exact D|]. intros s E. injection E as <-. split; [exact L|]. discriminate. Qed.
Lemma wf_none : forall dim n nm dims c, (dims = 1 \/ dims = dim) -> wfData (V:=Z) dim n (DT nm dims c None).
Proof. intros. split; [auto|]. discriminate. Qed.
Ltac mesh_wf := unfold wfMesh; split; [auto|]; repeat split; try (repeat constructor; cbn; lia);
  repeat (apply Forall_cons; [first [apply wf_plain; [auto|reflexivity]|apply wf_filled; [auto|reflexivity..]|apply wf_none; auto]|]); apply Forall_nil.
Lemma flow_wf : wfMesh flow.
Proof. mesh_wf. Qed.
Lemma flow_names : namesAre isValue flow /\ namesAre isWord flow /\ namesAre isCell flow.
Proof. repeat split; repeat constructor. Qed.
(** a tetrahedron *)
Definition solid : mesh (V:=Z) :=
  MS 3 [[0; 0; 0]; [10; 0; 0]; [0; 10; 0]; [0; 0; 10]]%Z [(0, 1)] [(0, 1, 2)] [(0, 1, 2, 3)]
    [DT "Force" 3 false (Some (SP [1; 2; 3; 4; 5; 6; 7; 8; 9; 10; 11; 12]%Z []))].
Lemma solid_wf : wfMesh solid.
Proof. mesh_wf. Qed.
Lemma solid_names : namesAre isValue solid /\ namesAre isWord solid /\ namesAre isCell solid.
Proof. repeat split; repeat constructor. Qed.

(** ** Serial runs *)
(** A program that reads the VTU file gets the vertices in their order, one cell per
    triangle, edge and tetrahedron, and one array per data that has values; the
    derivative arrays hold what the user gave.  All numbers are as printed with six
    significant digits. *)
Theorem C77_vtu : forall V (zero : V) ofNat (rd : nat -> V -> V), (forall p, rd p zero = zero) ->
  forall l offs m, wfMesh m -> namesAre isValue m ->
  exists file, xmlExport zero VTU l offs 0 1 m = Some [((l_mesh l ++ "-" ++ l_part l ++ "." ++ fidx l ++ ".vtu")%string, file)] /\
    readVTU zero ofNat rd file = Some (GR (pointsOf zero rd 6 m) (trianglesOf m ++ linesOf m ++ tetrahedraOf m) (xmlArrays zero ofNat rd 6 0 m)).
Proof.
  intros V zero ofNat rd Z l offs m W N. destruct (serial_ok zero ofNat rd Z VTU l offs m W N) as (f & E & R). exists f. split; [|exact R].
  rewrite E. unfold serialName, base. rewrite !append_assoc. reflexivity.
Qed.
Print Assumptions C77_vtu.

(** The VTP file has no tetrahedra. *)
Theorem C77_vtp : forall V (zero : V) ofNat (rd : nat -> V -> V), (forall p, rd p zero = zero) ->
  forall l offs m, wfMesh m -> namesAre isValue m ->
  exists file, xmlExport zero VTP l offs 0 1 m = Some [((l_mesh l ++ "-" ++ l_part l ++ "." ++ fidx l ++ ".vtp")%string, file)] /\
    readVTP zero ofNat rd file = Some (GR (pointsOf zero rd 6 m) (linesOf m ++ trianglesOf m) (xmlArrays zero ofNat rd 6 0 m)).
Proof.
  intros V zero ofNat rd Z l offs m W N. destruct (serial_ok zero ofNat rd Z VTP l offs m W N) as (f & E & R). exists f. split; [|exact R].
  rewrite E. unfold serialName, base. rewrite !append_assoc. reflexivity.
Qed.
Print Assumptions C77_vtp.

(** The legacy file has 17 digits, and for meshes in 2D only edges. *)
Theorem C77_vtk : forall V (zero : V) ofNat (rd : nat -> V -> V), (forall p, rd p zero = zero) ->
  forall l m, wfMesh m -> namesAre isWord m ->
  exists file, vtkExport zero l 1 m = Some [((l_mesh l ++ "-" ++ l_part l ++ "." ++ fidx l ++ ".vtk")%string, file)] /\
    readVTK zero ofNat rd file = Some (GR (pointsOf zero rd 17 m)
      (if m_dim m =? 2 then linesOf m else tetrahedraOf m ++ trianglesOf m ++ linesOf m) (legacyArrays zero ofNat rd 17 m)).
Proof.
  intros V zero ofNat rd Z l m W N. destruct (read_vtk zero ofNat rd Z m W N) as (f & E & R). exists f. split; [|exact R].
  unfold vtkExport. cbn [Nat.ltb Nat.leb]. rewrite E. unfold base. cbn [option_map]. rewrite !append_assoc. reflexivity.
Qed.
Print Assumptions C77_vtk.

(** so that with numbers that survive 17 digits the file determines the mesh *)
Theorem C77_vtk_exact : forall V (zero : V) ofNat (rd : nat -> V -> V), (forall p, rd p zero = zero) -> (forall v, rd 17 v = v) ->
  forall l m, wfMesh m -> namesAre isWord m ->
  exists file g, vtkExport zero l 1 m = Some [((l_mesh l ++ "-" ++ l_part l ++ "." ++ fidx l ++ ".vtk")%string, file)] /\
    readVTK zero ofNat rd file = Some g /\ map (firstn (m_dim m)) (g_points g) = m_vertices m.
Proof.
  intros V zero ofNat rd Z X l m W N. destruct (C77_vtk V zero ofNat rd Z l m W N) as (f & E & R). eexists f, _. split; [exact E|]. split; [exact R|].
  cbn [g_points]. unfold pointsOf. rewrite map_map. rewrite <- (map_id (m_vertices m)) at 2. apply map_ext_in. intros p P.
  destruct W as (_ & F & _). rewrite Forall_forall in F. rewrite <- (F p P). unfold pad3.
  rewrite (map_ext _ (fun v => v) X), map_id, firstn_app, Nat.sub_diag, firstn_all. cbn [firstn]. apply app_nil_r.
Qed.
Print Assumptions C77_vtk_exact.

(** The table has one row per vertex: position, rank and all values. *)
Theorem C77_csv : forall V (zero : V) ofNat (rd : nat -> V -> V) l rank size m, wfMesh m -> namesAre isCell m ->
  exists file, csvExport l rank size m =
      Some [(((l_mesh l ++ "-" ++ l_part l ++ ".") ++ (if (1 <? size)%nat then dec rank ++ "_" else "") ++ fidx l ++ ".csv")%string, file)] /\
    readCSV zero ofNat rd file = Some (columnNames m, map (rowOf zero ofNat rd 6 rank m) (seq 0 (nVertices m))).
Proof.
  intros V zero ofNat rd l rank size m W N. destruct (read_csv zero ofNat rd m rank W N) as (f & E & R). exists f. split; [|exact R].
  unfold csvExport, csvName. rewrite E. cbn [option_map]. destruct (1 <? size); [rewrite (append_assoc (dec rank))|]; reflexivity.
Qed.
Print Assumptions C77_csv.

Example C77_flow : exists f, xmlExport 0%Z VTU (LB "Mesh" "Fluid" true 3) [] 0 1 flow = Some [("Mesh-Fluid.dt3.vtu"%string, f)] /\
  readVTU 0%Z Z.of_nat printed f = Some (GR [[0; 0; 0]; [10; 0; 0]; [10; 10; 0]; [0; 10; 0]]%Z
    [(5, [0; 1; 2]); (5, [0; 2; 3]); (3, [0; 1]); (3, [1; 2])]
    [("Rank"%string, [[0]; [0]; [0]; [0]]%Z); ("Pressure"%string, [[1]; [2]; [3]; [4]]%Z);
     ("Pressure_gradient"%string, [[5; 6; 0]; [7; 8; 0]; [9; 1; 0]; [2; 3; 0]]%Z);
     ("Velocity"%string, [[11; 12; 0]; [21; 22; 0]; [31; 32; 0]; [41; 42; 0]]%Z);
     ("Velocity_dx"%string, [[1; 2; 0]; [1; 2; 0]; [5; 6; 0]; [5; 6; 0]]%Z);
     ("Velocity_dy"%string, [[3; 4; 0]; [3; 4; 0]; [7; 8; 0]; [7; 8; 0]]%Z)]).
Proof.
  destruct (C77_vtu Z 0%Z Z.of_nat printed printed_zero (LB "Mesh" "Fluid" true 3) [] flow flow_wf (proj1 flow_names)) as (f & E & R).
  exists f. split; [exact E|]. rewrite R. reflexivity.
Qed.
Example C77_solid : exists f, csvExport (LB "Mesh" "Solid" false 0) 2 4 solid = Some [("Mesh-Solid.2_init.csv"%string, f)] /\
  readCSV 0%Z Z.of_nat printed f = Some (["PosX"; "PosY"; "PosZ"; "Rank"; "ForceX"; "ForceY"; "ForceZ"]%string,
    [[0; 0; 0; 2; 1; 2; 3]; [10; 0; 0; 2; 4; 5; 6]; [0; 10; 0; 2; 7; 8; 9]; [0; 0; 10; 2; 10; 11; 12]]%Z).
Proof.
  destruct (C77_csv Z 0%Z Z.of_nat printed (LB "Mesh" "Solid" false 0) 2 4 solid solid_wf (proj2 (proj2 solid_names))) as (f & E & R).
  exists f. split; [exact E|]. rewrite R. reflexivity.
Qed.

(** ** Parallel runs *)
(** Each rank with vertices writes its piece and rank 0 also writes the file that
    lists the pieces.  It lists exactly the pieces that were written, no two files
    have the same name, every piece has exactly the arrays that are declared, and
    reading it gives the part of the mesh of that rank. *)
Theorem C77_parallel : forall V (zero : V) ofNat (rd : nat -> V -> V), (forall p, rd p zero = zero) ->
  forall k l ms, 1 < List.length ms -> isValue (l_mesh l) = true -> isValue (l_part l) = true ->
  (forall m, In m ms -> wfMesh m /\ namesAre isValue m /\ forall m', In m' ms -> schema m = schema m') ->
  exists master (pieces : nat -> list (string * list item)) arrays,
    (forall r m, nth_error ms r = Some m ->
       xmlExport zero k l (offsetsOf (map nVertices ms)) r (List.length ms) m =
       Some ((if r =? 0 then [(parallelName k l, master)] else []) ++ pieces r)) /\
    readMaster ("P" ++ vtkFormat k) master = Some (arrays, map fst (flat_map pieces (seq 0 (List.length ms)))) /\
    NoDup (parallelName k l :: map fst (flat_map pieces (seq 0 (List.length ms)))) /\
    (forall r m, nth_error ms r = Some m ->
       if nVertices m =? 0 then pieces r = []
       else exists name file a, pieces r = [(name, file)] /\ declared (vtkFormat k) file = Some a /\ Permutation arrays a /\
              match k with VTU => readVTU zero ofNat rd file | VTP => readVTP zero ofNat rd file end =
              Some (GR (pointsOf zero rd 6 m)
                (match k with VTU => trianglesOf m ++ linesOf m ++ tetrahedraOf m | VTP => linesOf m ++ trianglesOf m end) (xmlArrays zero ofNat rd 6 r m))).
Proof.
  intros V zero ofNat rd Z k l ms S VM VP G.
  destruct (parallel_ok zero ofNat rd Z k l ms (conj S (conj VM (conj VP G)))) as (master & pieces & arrays & A & B & C & D).
  exists master, pieces, arrays. split; [exact A|]. split; [exact B|]. split; [exact C|].
  intros r m H. specialize (D r m H). destruct (nVertices m =? 0); [exact D|]. destruct D as (f & a & D1 & D2 & D3 & D4).
  exists (pieceName k l r), f, a. repeat split; auto. destruct k; exact D4.
Qed.
Print Assumptions C77_parallel.

(** three ranks, the second one without vertices *)
Definition left : mesh (V:=Z) := MS 2 [[0; 0]; [1; 0]]%Z [(0, 1)] [] [] [DT "P" 1 false (Some (SP [1; 2]%Z []))].
Definition none : mesh (V:=Z) := MS 2 [] [] [] [] [DT "P" 1 false (Some (SP [] []))].
Definition right : mesh (V:=Z) := MS 2 [[2; 0]]%Z [] [] [] [DT "P" 1 false (Some (SP [3]%Z []))].
Example C77_three_ranks :
  let ms := [left; none; right] in let l := LB "Mesh" "Fluid" true 12 in
  (1 < List.length ms /\ isValue (l_mesh l) = true /\ isValue (l_part l) = true /\
   forall m, In m ms -> wfMesh m /\ namesAre isValue m /\ forall m', In m' ms -> schema m = schema m') /\
  offsetsOf (map nVertices ms) = [2; 2; 3] /\
  map (fun rm => option_map (map fst) (xmlExport 0%Z VTU l [2; 2; 3] (fst rm) 3 (snd rm))) (combine [0; 1; 2] ms) =
  [Some ["Mesh-Fluid.dt12.pvtu"; "Mesh-Fluid.dt12_0.vtu"]%string; Some []; Some ["Mesh-Fluid.dt12_2.vtu"]%string].
Proof.
  cbv zeta. split; [|split; reflexivity]. split; [cbn; lia|]. split; [reflexivity|]. split; [reflexivity|].
  intros m M. split; [|split].
  - destruct M as [<-|[<-|[<-|[]]]]; mesh_wf.
  - destruct M as [<-|[<-|[<-|[]]]]; repeat constructor.
  - intros m' M'. destruct M as [<-|[<-|[<-|[]]]]; destruct M' as [<-|[<-|[<-|[]]]]; reflexivity.
Qed.

(** No export of a mesh overwrites a file of another time window, iteration or rank. *)
Theorem C77_names : forall k l l' r r', l_mesh l = l_mesh l' -> l_part l = l_part l' -> pieceName k l r = pieceName k l' r' ->
  r = r' /\ l_index l = l_index l' /\ (0 < l_index l -> l_windows l = l_windows l').
Proof. intros k l l' r r' M P E. destruct (pieceName_inj k l l' r r' M P E) as (A & B & C). auto. Qed.
Print Assumptions C77_names.
Example C77_names_used : pieceName VTU (LB "M" "P" true 1) 10 <> pieceName VTU (LB "M" "P" true 11) 0.
Proof. intros H. destruct (C77_names VTU (LB "M" "P" true 1) (LB "M" "P" true 11) 10 0 eq_refl eq_refl H) as (E & _). discriminate. Qed.

(** ** What gets lost *)
(** 2D meshes lose their triangles in legacy files. *)
Theorem C77_vtk_triangles_refuted : exists m f g, wfMesh m /\ namesAre isWord m /\ m_triangles m <> [] /\
  vtkFile 0%Z m = Some f /\ readVTK 0%Z Z.of_nat printed f = Some g /\ forall c, In c (g_cells g) -> fst c <> 5.
Proof.
  destruct (read_vtk 0%Z Z.of_nat printed printed_zero flow flow_wf (proj1 (proj2 flow_names))) as (f & E & R). eexists flow, f, _.
  split; [apply flow_wf|]. split; [apply flow_names|]. split; [discriminate|]. split; [exact E|]. split; [exact R|].
  intros c C. cbn in C. destruct C as [<-|[<-|[]]]; discriminate.
Qed.
Print Assumptions C77_vtk_triangles_refuted.
(** Tetrahedra are lost in VTP files. *)
Theorem C77_vtp_tetrahedra_refuted : exists m f g, wfMesh m /\ namesAre isValue m /\ m_tetrahedra m <> [] /\
  subFile 0%Z VTP 0 m = Some f /\ readVTP 0%Z Z.of_nat printed f = Some g /\ forall c, In c (g_cells g) -> fst c <> 10.
Proof.
  destruct (read_vtp 0%Z Z.of_nat printed printed_zero solid 0 solid_wf (proj1 solid_names)) as (f & E & R). eexists solid, f, _.
  split; [apply solid_wf|]. split; [apply solid_names|]. split; [discriminate|]. split; [exact E|]. split; [exact R|].
  intros c C. cbn in C. destruct C as [<-|[<-|[]]]; discriminate.
Qed.
Print Assumptions C77_vtp_tetrahedra_refuted.

(** Different vertices can be at the same place in the file: six digits are not
    enough when positions are far from the origin, compared to the mesh width. *)
Theorem C77_digits_refuted : exists m f g, wfMesh m /\ namesAre isValue m /\ NoDup (m_vertices m) /\
  subFile 0%Z VTU 0 m = Some f /\ readVTU 0%Z Z.of_nat printed f = Some g /\ nth_error (g_points g) 0 = nth_error (g_points g) 1 /\ List.length (g_points g) = 2.
Proof.
  set (m := MS 2 [[1000001; 0]; [1000002; 0]]%Z [(0, 1)] [] [] [] : mesh (V:=Z)).
  assert (W : wfMesh m) by (unfold m; mesh_wf). assert (N : namesAre isValue m) by constructor.
  destruct (read_vtu 0%Z Z.of_nat printed printed_zero m 0 W N) as (f & E & R). eexists m, f, _.
  split; [exact W|]. split; [exact N|]. split; [repeat constructor; cbn; intros H; [destruct H as [H|[]]; discriminate|destruct H]|].
  split; [exact E|]. split; [exact R|]. split; reflexivity.
Qed.
Print Assumptions C77_digits_refuted.

(** Two arrays of a file can have the same name although the data have different names. *)
Theorem C77_array_names_refuted : exists m f g, wfMesh m /\ namesAre isValue m /\ NoDup (map (fun d => d_name d) (m_data m)) /\
  subFile 0%Z VTU 0 m = Some f /\ readVTU 0%Z Z.of_nat printed f = Some g /\ ~ NoDup (map fst (g_arrays g)).
Proof.
  set (m := MS 2 [[0; 0]]%Z [] [] [] [DT "A" 1 true (Some (SP [1]%Z [[2; 3]]%Z)); DT "A_gradient" 2 false (Some (SP [4; 5]%Z []))] : mesh (V:=Z)).
  assert (W : wfMesh m) by (unfold m; mesh_wf). assert (N : namesAre isValue m) by (repeat constructor).
  destruct (read_vtu 0%Z Z.of_nat printed printed_zero m 0 W N) as (f & E & R). eexists m, f, _.
  split; [exact W|]. split; [exact N|]. split; [repeat constructor; cbn; intros H; [destruct H as [H|[]]; discriminate|destruct H]|].
  split; [exact E|]. split; [exact R|]. cbn. intros H. inversion H as [|? ? _ H1]; subst. inversion H1 as [|? ? _ H2]; subst. inversion H2 as [|? ? H3 _]; subst.
  apply H3. left. reflexivity.
Qed.
Print Assumptions C77_array_names_refuted.

(** Names are written as they are: a blank makes a legacy file unreadable, a
    semicolon a table, and a quote an XML file. *)
Definition one (name : string) : mesh (V:=Z) := MS 2 [[0; 0]]%Z [] [] [] [DT name 1 false (Some (SP [1]%Z []))].
Theorem C77_text_refuted :
  (exists f, vtkFile 0%Z (one "my data") = Some f /\ readVTK 0%Z Z.of_nat printed f = None) /\
  (exists f, csvFile 0 (one "a;b") = Some f /\ readCSV 0%Z Z.of_nat printed f = None) /\
  (exists f, subFile 0%Z VTU 0 (one "a&b") = Some f /\ readVTU 0%Z Z.of_nat printed f = None).
Proof.
  split; [|split]; eexists; (split; [reflexivity|reflexivity]).
Qed.
Print Assumptions C77_text_refuted.

(** Files of different meshes can have the same name. *)
Theorem C77_file_names_refuted : exists l l', l_mesh l <> l_mesh l' /\ l_part l <> l_part l' /\
  forall k r, pieceName k l r = pieceName k l' r.
Proof. exists (LB "A-B" "C" true 1), (LB "A" "B-C" true 1). split; [discriminate|]. split; [discriminate|]. intros k r. reflexivity. Qed.
Print Assumptions C77_file_names_refuted.

(** The rank is declared as a signed number in the file that lists the pieces and
    as an unsigned one in each piece. *)
Theorem C77_rank_type_refuted : forall V (zero : V) k l offs size m r master file,
  parallelFile k l offs size m = Some master -> subFile zero k r m = Some file ->
  In (Empty "PDataArray" (arrayTag "Int32" "Rank" 1)) master /\ In (Open "DataArray" (arrayTag "UInt32" "Rank" 1)) file.
Proof.
  intros V zero k l offs size m r master file EM EF. split.
  - unfold parallelFile in EM. destruct (concatOk _) as [p|]; [|discriminate]. cbn [option_map] in EM. injection EM as <-.
    do 5 apply in_cons. rewrite !in_app_iff. right. right. left. reflexivity.
  - unfold subFile in EF. destruct (exportData r m) as [d|] eqn:ED; [|discriminate]. cbn [option_map] in EF.
    assert (H : forall a b : list (item (V:=V)), Some a = Some b -> b = a) by congruence. apply H in EF. rewrite EF. clear H EF.
    assert (X : In (Open "DataArray" (arrayTag "UInt32" "Rank" 1)) d).
    { unfold exportData in ED. destruct (concatOk _) as [p|]; [|discriminate]. cbn [option_map] in ED. injection ED as <-. right. left. reflexivity. }
    do 3 apply in_cons. rewrite !in_app_iff. right. right. left. exact X.
Qed.
Print Assumptions C77_rank_type_refuted.
(** both files exist *)
Example C77_rank_type_used : exists master file, parallelFile VTU (LB "M" "P" true 1) [4; 8] 2 flow = Some master /\ subFile 0%Z VTU 0 flow = Some file.
Proof. eexists. eexists. split; reflexivity. Qed.

(** Tables contain no connectivity and no gradients. *)
Theorem C77_csv_connectivity_refuted : forall V rank (m : mesh (V:=V)) edges triangles tetrahedra,
  csvFile rank (MS (m_dim m) (m_vertices m) edges triangles tetrahedra (m_data m)) = csvFile rank m.
Proof. intros. reflexivity. Qed.
Print Assumptions C77_csv_connectivity_refuted.
