(** The files the exporters write (io/Export, ExportXML, ExportVTU, ExportVTP,
    ExportVTK, ExportCSV), as the sequence of what is sent to the stream. *)
From Coq Require Import String Bool Arith List.
From Coq Require Import DecimalString.
Import ListNotations.
Open Scope list_scope.

Section Files.
Context {V : Type}.
Variable (zero : V).

(** What one [<<] writes.  [Sp] is a blank, [Nl] a line break, [Semi] a semicolon,
    [Wd] text, [Num p v] a double printed with p significant digits, [Int] an
    integer.  [Open], [Close] and [Empty] are XML tags with their attributes.
    Simplification: blanks between tags (indentation), the XML declaration and the
    attributes version and byte_order are left out; text without blanks that is
    written by several [<<] is one [Wd]. *)
Inductive item :=
| Sp | Nl | Semi
| Wd (s : string)
| Num (digits : nat) (v : V)
| Int (n : nat)
| Open (name : string) (attrs : list (string * list item))
| Close (name : string)
| Empty (name : string) (attrs : list (string * list item)).

(** the precision of a fresh stream, C++ std::ios_base *)
Definition streamDigits : nat := 6.
(** ExportVTK.cpp 256-266 initializeWriting: max_digits10 *)
Definition vtkDigits : nat := 17.

(** mesh/Data.hpp: name, dimensions, hasGradient; [d_last] is
    waveform().last().sample, None if the waveform is empty.
    time/Sample.hpp 60-67: the values and the columns of the gradients *)
Record sample := SP { sp_values : list V; sp_gradients : list (list V) }.
Record data := DT { d_name : string; d_dims : nat; d_grad : bool; d_last : option sample }.

(** mesh/Mesh.hpp: dimensions, vertices, connectivity and data.  The ID of a vertex
    is its position (Mesh.cpp createVertex) *)
Record mesh := MS { m_dim : nat; m_vertices : list (list V); m_edges : list (nat * nat);
                    m_triangles : list (nat * nat * nat); m_tetrahedra : list (nat * nat * nat * nat);
                    m_data : list data }.
Definition nVertices (m : mesh) : nat := List.length (m_vertices m).

(** all of a list, or none if one access is out of bounds *)
Fixpoint allOk {A} (l : list (option A)) : option (list A) :=
  match l with
  | [] => Some []
  | None :: _ => None
  | Some a :: r => match allOk r with Some t => Some (a :: t) | None => None end
  end.
Definition concatOk {A} (l : list (option (list A))) : option (list A) := option_map (@List.concat A) (allOk l).

(** the loop [for (int i = start; i < cols; i += step)] *)
Fixpoint strided (fuel i step cols : nat) : list nat :=
  match fuel with
  | O => []
  | S f => if i <? cols then i :: strided f (i + step) step cols else []
  end.

(** ** ExportXML *)

(** ExportXML.cpp 67-96 *)
Definition scalarNames (m : mesh) : list string :=
  flat_map (fun d => match d_last d with
                     | None => []
                     | Some _ => if d_dims d =? 1 then [d_name d] else []
                     end) (m_data m).
Definition vectorNames (m : mesh) : list string :=
  flat_map (fun d => match d_last d with
                     | None => []
                     | Some _ =>
                         if d_dims d =? 1 then if d_grad d then [d_name d ++ "_gradient"]%string else []
                         else [d_name d] ++
                              if d_grad d
                              then [d_name d ++ "_dx"; d_name d ++ "_dy"]%string ++
                                   (if m_dim m =? 3 then [d_name d ++ "_dz"]%string else [])
                              else []
                     end) (m_data m).

(** a list of names within an attribute, each followed by a blank *)
Definition nameList (l : list string) : list item := flat_map (fun s => [Wd s; Sp]) l.

(** ExportXML.cpp 292-304 *)
Definition writeVertex (position : list V) : list item :=
  flat_map (fun c => [Num streamDigits c; Sp]) position ++
  (if List.length position =? 2 then [Num streamDigits zero; Sp] else []) ++ [Nl].
(** ExportXML.cpp 306-331 *)
Definition writeTriangle (t : nat * nat * nat) : list item :=
  let '(a, b, c) := t in [Int a; Sp; Int b; Sp; Int c; Sp].
Definition writeTetrahedron (t : nat * nat * nat * nat) : list item :=
  let '(a, b, c, d) := t in [Int a; Sp; Int b; Sp; Int c; Sp; Int d; Sp].
Definition writeLine (e : nat * nat) : list item :=
  let '(a, b) := e in [Int a; Sp; Int b; Sp].

(** the tag of a DataArray: type, Name, NumberOfComponents *)
Definition arrayTag (type name : string) (components : nat) : list (string * list item) :=
  [("type"%string, [Wd type]); ("Name"%string, [Wd name]); ("NumberOfComponents"%string, [Int components])].
Definition dataArray (type name : string) (components : nat) (body : list item) : list item :=
  Open "DataArray" (arrayTag type name components) :: Sp :: body ++ [Nl; Close "DataArray"].

(** ExportXML.cpp 333-344 *)
Definition exportPoints (m : mesh) : list item :=
  Open "Points" [] :: Open "DataArray" (arrayTag "Float64" "Position" 3) ::
  flat_map writeVertex (m_vertices m) ++ [Close "DataArray"; Close "Points"].

(** ExportXML.cpp 194-226; [spaceDim] is what exportData gives, the dimensions of
    the data *)
Definition suffices (dims spaceDim : nat) : list string :=
  if dims =? 1 then ["_gradient"%string]
  else if spaceDim =? 2 then ["_dx"; "_dy"]%string
  else if spaceDim =? 3 then ["_dx"; "_dy"; "_dz"]%string
  else [].
Definition exportGradient (d : data) (gradients : list (list V)) (spaceDim : nat) : option (list item) :=
  concatOk (map (fun cs =>
    let cols := strided (List.length gradients) (fst cs) spaceDim (List.length gradients) in
    option_map (dataArray "Float64" (d_name d ++ snd cs) 3)
      (concatOk (map (fun i =>
         option_map (fun col => flat_map (fun v => [Num streamDigits v; Sp]) col ++
                                (if List.length col <? 3 then [Wd "0.0"; Sp] else []))
                    (nth_error gradients i)) cols)))
    (combine (seq 0 (List.length (suffices (d_dims d) spaceDim))) (suffices (d_dims d) spaceDim))).

(** ExportXML.cpp 250-288, one data *)
Definition exportValues (n : nat) (d : data) (s : sample) : option (list item) :=
  let dims := d_dims d in
  match
    (if 1 <? dims then
       concatOk (map (fun count =>
         option_map (fun vs => flat_map (fun v => [Num streamDigits v; Sp]) vs ++
                               (if dims =? 2 then [Wd "0.0"; Sp] else []) ++ [Sp])
                    (allOk (map (fun i => nth_error (sp_values s) (count * dims + i)) (seq 0 dims)))) (seq 0 n))
     else if dims =? 1 then
       concatOk (map (fun count => option_map (fun v => [Num streamDigits v; Sp]) (nth_error (sp_values s) count)) (seq 0 n))
     else Some []),
    (if d_grad d then exportGradient d (sp_gradients s) dims else Some [])
  with
  | Some body, Some grads =>
      Some (dataArray "Float64" (d_name d) (if dims =? 2 then 3 else dims) body ++ grads)
  | _, _ => None
  end.

(** ExportXML.cpp 228-290 *)
Definition exportData (rank : nat) (m : mesh) : option (list item) :=
  option_map (fun arrays =>
    Open "PointData" [("Scalars"%string, Wd "Rank" :: Sp :: nameList (scalarNames m));
                      ("Vectors"%string, nameList (vectorNames m))] ::
    dataArray "UInt32" "Rank" 1 (flat_map (fun _ => [Int rank; Sp]) (seq 0 (nVertices m))) ++
    arrays ++ [Close "PointData"])
  (concatOk (map (fun d => match d_last d with None => Some [] | Some s => exportValues (nVertices m) d s end) (m_data m))).

Inductive kind := VTU | VTP.
(** ExportVTU.cpp 33-46, ExportVTP.cpp 21-34 *)
Definition vtkFormat (k : kind) : string := match k with VTU => "UnstructuredGrid" | VTP => "PolyData" end.
Definition parallelExtension (k : kind) : string := match k with VTU => "pvtu" | VTP => "pvtp" end.
Definition pieceExtension (k : kind) : string := match k with VTU => "vtu" | VTP => "vtp" end.

(** ExportVTU.cpp 48-54, ExportVTP.cpp 36-43 *)
Definition pieceAttributes (k : kind) (m : mesh) : list (string * list item) :=
  match k with
  | VTU => [("NumberOfPoints"%string, [Int (nVertices m)]);
            ("NumberOfCells"%string,
             [Int (List.length (m_edges m) + List.length (m_triangles m) + List.length (m_tetrahedra m))])]
  | VTP => [("NumberOfPoints"%string, [Int (nVertices m)]);
            ("NumberOfLines"%string, [Int (List.length (m_edges m))]);
            ("NumberOfPolys"%string, [Int (List.length (m_triangles m))])]
  end.

(** the numbers 1 .. n of the loops over cells *)
Definition offsets (width base n : nat) : list item :=
  flat_map (fun i => [Int (width * i + base); Sp]) (seq 1 n).
Definition types (t n : nat) : list item := flat_map (fun _ => [Int t; Sp]) (seq 1 n).

(** ExportVTU.cpp 65-112, ExportVTP.cpp 57-93 *)
Definition exportConnectivity (k : kind) (m : mesh) : list item :=
  let tri := List.length (m_triangles m) in
  let edg := List.length (m_edges m) in
  let tet := List.length (m_tetrahedra m) in
  match k with
  | VTU =>
      Open "Cells" [] ::
      dataArray "Int32" "connectivity" 1
        (flat_map writeTriangle (m_triangles m) ++ flat_map writeLine (m_edges m) ++
         flat_map writeTetrahedron (m_tetrahedra m)) ++
      dataArray "Int32" "offsets" 1
        (offsets 3 0 tri ++ offsets 2 (3 * tri) edg ++ offsets 4 (2 * edg + 3 * tri) tet) ++
      dataArray "UInt8" "types" 1 (types 5 tri ++ types 3 edg ++ types 10 tet) ++
      [Close "Cells"]
  | VTP =>
      Open "Lines" [] ::
      dataArray "Int32" "connectivity" 1 (flat_map writeLine (m_edges m)) ++
      dataArray "Int32" "offsets" 1 (offsets 2 0 edg) ++
      [Close "Lines"; Open "Polys" []] ++
      dataArray "Int32" "connectivity" 1 (flat_map writeTriangle (m_triangles m)) ++
      dataArray "Int32" "offsets" 1 (offsets 3 0 tri) ++
      [Close "Polys"]
  end.

(** ExportXML.cpp 154-192, the content *)
Definition subFile (k : kind) (rank : nat) (m : mesh) : option (list item) :=
  option_map (fun dat =>
    Open "VTKFile" [("type"%string, [Wd (vtkFormat k)])] :: Open (vtkFormat k) [] ::
    Open "Piece" (pieceAttributes k m) ::
    exportPoints m ++ exportConnectivity k m ++ dat ++
    [Close "Piece"; Close (vtkFormat k); Close "VTKFile"])
  (exportData rank m).

(** ExportVTU.cpp 56-63, ExportVTP.cpp 45-55 *)
Definition parallelCells (k : kind) : list item :=
  match k with
  | VTU => [Open "PCells" []; Empty "PDataArray" (arrayTag "Int32" "connectivity" 1);
            Empty "PDataArray" (arrayTag "Int32" "offsets" 1);
            Empty "PDataArray" (arrayTag "UInt8" "types" 1); Close "PCells"]
  | VTP => [Open "PLines" []; Empty "PDataArray" (arrayTag "Int32" "connectivity" 1);
            Empty "PDataArray" (arrayTag "Int32" "offsets" 1); Close "PLines";
            Open "PPolys" []; Empty "PDataArray" (arrayTag "Int32" "connectivity" 1);
            Empty "PDataArray" (arrayTag "Int32" "offsets" 1); Close "PPolys"]
  end.

(** ExportXML.cpp 346-370 *)
Definition parallelData (m : mesh) : list item :=
  Open "PPointData" [("Scalars"%string, Wd "Rank" :: Sp :: nameList (scalarNames m));
                     ("Vectors"%string, nameList (vectorNames m))] ::
  Empty "PDataArray" (arrayTag "Int32" "Rank" 1) ::
  map (fun s => Empty "PDataArray" (arrayTag "Float64" s 1)) (scalarNames m) ++
  map (fun s => Empty "PDataArray" (arrayTag "Float64" s 3)) (vectorNames m) ++
  [Close "PPointData"].

(** {fmt} of an int *)
Definition dec (n : nat) : string := NilZero.string_of_uint (Nat.to_uint n).
(** Export.cpp 12-19; [windows] is kind TimeWindows *)
Definition formatIndex (windows : bool) (index : nat) : string :=
  if index =? 0 then "init"%string else ((if windows then "dt" else "it") ++ dec index)%string.

(** mesh name, participant name, kind of index, index: what all file names have *)
Record label := LB { l_mesh : string; l_part : string; l_windows : bool; l_index : nat }.
Definition base (l : label) : string := (l_mesh l ++ "-" ++ l_part l ++ ".")%string.
Definition fidx (l : label) : string := formatIndex (l_windows l) (l_index l).
(** ExportXML.cpp 98-108 and 116 *)
Definition pieceName (k : kind) (l : label) (rank : nat) : string :=
  (base l ++ fidx l ++ "_" ++ dec rank ++ "." ++ pieceExtension k)%string.
Definition serialName (k : kind) (l : label) : string := (base l ++ fidx l ++ "." ++ pieceExtension k)%string.
Definition parallelName (k : kind) (l : label) : string := (base l ++ fidx l ++ "." ++ parallelExtension k)%string.

(** mesh/Mesh.cpp 311-322; None is the failed assertion / access behind the end *)
Definition isPartitionEmpty (vertexOffsets : list nat) (rank : nat) : option bool :=
  match vertexOffsets with
  | [] => Some false
  | o :: _ =>
      match rank with
      | O => Some (o =? 0)
      | S r => match nth_error vertexOffsets rank, nth_error vertexOffsets r with
               | Some a, Some b => Some (a - b =? 0)
               | _, _ => None
               end
      end
  end.

(** ExportXML.cpp 110-152, the content *)
Definition parallelFile (k : kind) (l : label) (vertexOffsets : list nat) (size : nat) (m : mesh) : option (list item) :=
  option_map (fun pieces =>
    Open "VTKFile" [("type"%string, [Wd ("P" ++ vtkFormat k)])] ::
    Open ("P" ++ vtkFormat k) [] ::
    Open "PPoints" [] :: Empty "PDataArray" (arrayTag "Float64" "Position" 3) :: Close "PPoints" ::
    parallelCells k ++ parallelData m ++ pieces ++
    [Close ("P" ++ vtkFormat k); Close "VTKFile"])
  (concatOk (map (fun rank => option_map (fun e : bool =>
     if e then [] else [Empty "Piece" [("Source"%string, [Wd (pieceName k l rank)])]])
     (isPartitionEmpty vertexOffsets rank)) (seq 0 size))).

(** ExportXML.cpp 33-56 after keepExport: the files written by one rank *)
Definition xmlExport (k : kind) (l : label) (vertexOffsets : list nat) (rank size : nat) (m : mesh)
  : option (list (string * list item)) :=
  let named n := option_map (fun c => [(n, c)]) in
  if 1 <? size then
    match
      (if rank =? 0 then named (parallelName k l) (parallelFile k l vertexOffsets size m) else Some []),
      isPartitionEmpty vertexOffsets rank
    with
    | Some p, Some e =>
        if e then Some p
        else option_map (app p) (named (pieceName k l rank) (subFile k rank m))
    | _, _ => None
    end
  else named (serialName k l) (subFile k rank m).

(** ** ExportVTK *)

(** ExportVTK.cpp 268-274 *)
Definition vtkHeader : list item :=
  [Wd "#"; Sp; Wd "vtk"; Sp; Wd "DataFile"; Sp; Wd "Version"; Sp; Wd "2.0"; Nl; Nl; Wd "ASCII"; Nl; Nl;
   Wd "DATASET"; Sp; Wd "UNSTRUCTURED_GRID"; Nl; Nl].
(** ExportVTK.cpp 276-286; None is the failed assertion *)
Definition vtkVertex (position : list V) : option (list item) :=
  match position with
  | [x; y] => Some [Num vtkDigits x; Sp; Num vtkDigits y; Sp; Num vtkDigits zero; Nl]
  | [x; y; z] => Some [Num vtkDigits x; Sp; Num vtkDigits y; Sp; Num vtkDigits z; Nl]
  | _ => None
  end.
(** ExportVTK.cpp 288-319 *)
Definition vtkTriangle (t : nat * nat * nat) : list item :=
  let '(a, b, c) := t in [Int 3; Sp; Int a; Sp; Int b; Sp; Int c; Sp; Nl].
Definition vtkTetrahedron (t : nat * nat * nat * nat) : list item :=
  let '(a, b, c, d) := t in [Int 4; Sp; Int a; Sp; Int b; Sp; Int c; Sp; Int d; Sp; Nl].
Definition vtkLine (e : nat * nat) : list item :=
  let '(a, b) := e in [Int 2; Sp; Int a; Sp; Int b; Sp; Nl].

(** ExportVTK.cpp 80-139, the cells *)
Definition vtkCells (m : mesh) : list item :=
  let tri := List.length (m_triangles m) in
  let edg := List.length (m_edges m) in
  let tet := List.length (m_tetrahedra m) in
  (if m_dim m =? 2 then
     [Wd "CELLS"; Sp; Int edg; Sp; Int (edg * 3); Nl; Nl] ++
     flat_map vtkLine (m_edges m) ++
     [Nl; Wd "CELL_TYPES"; Sp; Int edg; Nl; Nl] ++
     flat_map (fun _ => [Int 3; Nl]) (seq 0 edg)
   else []) ++
  (if m_dim m =? 3 then
     [Wd "CELLS"; Sp; Int (tri + edg + tet); Sp; Int (tet * 5 + tri * 4 + edg * 3); Nl; Nl] ++
     flat_map vtkTetrahedron (m_tetrahedra m) ++ flat_map vtkTriangle (m_triangles m) ++
     flat_map vtkLine (m_edges m) ++
     [Nl; Wd "CELL_TYPES"; Sp; Int (tri + edg + tet); Nl; Nl] ++
     flat_map (fun _ => [Int 10; Nl]) (seq 0 tet) ++
     flat_map (fun _ => [Int 5; Nl]) (seq 0 tri) ++
     flat_map (fun _ => [Int 3; Nl]) (seq 0 edg)
   else []) ++ [Nl].
(** ExportVTK.cpp 67-140 *)
Definition vtkMesh (m : mesh) : option (list item) :=
  option_map (fun points =>
    [Wd "POINTS"; Sp; Int (nVertices m); Sp; Wd "double"; Sp; Nl; Nl] ++ points ++ [Nl] ++ vtkCells m)
  (concatOk (map vtkVertex (m_vertices m))).

(** a line of numbers, filled up by '0' (ExportVTK.cpp 164-175, 197-206) *)
Definition vtkRow (vs : list V) : list item :=
  flat_map (fun v => [Num vtkDigits v; Sp]) vs ++ (if List.length vs <? 3 then [Wd "0"] else []) ++ [Nl].
(** ExportVTK.cpp 153-184, one data *)
Definition vtkValues (n : nat) (d : data) (s : sample) : option (list item) :=
  let dims := d_dims d in
  if 1 <? dims then
    option_map (fun rows => [Wd "VECTORS"; Sp; Wd (d_name d); Sp; Wd "double"; Nl] ++ rows ++ [Nl])
      (concatOk (map (fun id => option_map vtkRow
         (allOk (map (fun i => nth_error (sp_values s) (id * dims + i)) (seq 0 dims)))) (seq 0 n)))
  else if dims =? 1 then
    option_map (fun rows => [Wd "SCALARS"; Sp; Wd (d_name d); Sp; Wd "double"; Nl; Wd "LOOKUP_TABLE"; Sp; Wd "default"; Nl] ++ rows ++ [Nl])
      (concatOk (map (fun id => option_map (fun v => [Num vtkDigits v; Nl]) (nth_error (sp_values s) id)) (seq 0 n)))
  else Some [].
(** ExportVTK.cpp 142-185 *)
Definition vtkData (m : mesh) : option (list item) :=
  option_map (fun rows =>
    [Wd "POINT_DATA"; Sp; Int (nVertices m); Nl; Nl; Wd "SCALARS"; Sp; Wd "Rank"; Sp; Wd "unsigned_int"; Nl;
     Wd "LOOKUP_TABLE"; Sp; Wd "default"; Nl] ++
    flat_map (fun _ => [Int 0; Sp]) (seq 0 (nVertices m)) ++ [Nl; Nl] ++ rows)
  (concatOk (map (fun d => match d_last d with None => Some [] | Some s => vtkValues (nVertices m) d s end) (m_data m))).

(** one VECTORS block of exportGradient: the columns from [start] in steps *)
Definition vtkGradientBlock (name : string) (start step : nat) (gradients : list (list V)) : option (list item) :=
  option_map (fun rows => [Wd "VECTORS"; Sp; Wd name; Sp; Wd "double"; Nl] ++ rows)
    (concatOk (map (fun i => option_map vtkRow (nth_error gradients i))
       (strided (List.length gradients) start step (List.length gradients)))).
(** ExportVTK.cpp 187-254 *)
Definition vtkGradient (m : mesh) (d : data) (s : sample) : option (list item) :=
  let g := sp_gradients s in
  let name := d_name d in
  if negb (d_grad d) then Some [] else
  option_map (fun l => l ++ [Nl])
  (if d_dims d =? 1 then vtkGradientBlock (name ++ "_gradient") 0 1 g
   else
     concatOk ([vtkGradientBlock (name ++ "_dx") 0 (m_dim m) g; Some [Nl];
                vtkGradientBlock (name ++ "_dy") 1 (m_dim m) g; Some [Nl]] ++
               (if m_dim m =? 3 then [vtkGradientBlock (name ++ "_dz") 2 (m_dim m) g] else []))).
Definition vtkGradients (m : mesh) : option (list item) :=
  concatOk (map (fun d => match d_last d with None => Some [] | Some s => vtkGradient m d s end) (m_data m)).

(** ExportVTK.cpp 30-57 after keepExport; None also if the participant is parallel *)
Definition vtkFile (m : mesh) : option (list item) :=
  match vtkMesh m, vtkData m, vtkGradients m with
  | Some a, Some b, Some c => Some (vtkHeader ++ a ++ b ++ c)
  | _, _, _ => None
  end.
Definition vtkExport (l : label) (size : nat) (m : mesh) : option (list (string * list item)) :=
  if 1 <? size then None
  else option_map (fun c => [((base l ++ fidx l ++ ".vtk")%string, c)]) (vtkFile m).

(** ** ExportCSV *)

(** ExportCSV.cpp 79-98 *)
Definition csvHeader (m : mesh) : list item :=
  [Wd "PosX"; Semi; Wd "PosY"] ++ (if m_dim m =? 3 then [Semi; Wd "PosZ"] else []) ++ [Semi; Wd "Rank"] ++
  flat_map (fun d => match d_last d with
                     | None => []
                     | Some _ =>
                         if d_dims d =? 2 then [Semi; Wd (d_name d ++ "X"); Semi; Wd (d_name d ++ "Y")]
                         else if d_dims d =? 3 then [Semi; Wd (d_name d ++ "X"); Semi; Wd (d_name d ++ "Y"); Semi; Wd (d_name d ++ "Z")]
                         else [Semi; Wd (d_name d)]
                     end) (m_data m) ++ [Nl].
(** ExportCSV.cpp 100-111: a column is the values, where it starts and its stride *)
Definition csvColumns (m : mesh) : list (list V * nat * nat) :=
  flat_map (fun d => match d_last d with
                     | None => []
                     | Some s => map (fun i => (sp_values s, i, d_dims d)) (seq 0 (d_dims d))
                     end) (m_data m).
(** ExportCSV.cpp 113-128: after [vid] calls of next *)
Definition csvRow (m : mesh) (rank vid : nat) : option (list item) :=
  match nth_error (m_vertices m) vid with
  | None => None
  | Some p =>
      match
        match nth_error p 0, nth_error p 1, (if m_dim m =? 3 then option_map (fun z => [Semi; Num streamDigits z]) (nth_error p 2) else Some []) with
        | Some x, Some y, Some z => Some ([Num streamDigits x; Semi; Num streamDigits y] ++ z)
        | _, _, _ => None
        end,
        concatOk (map (fun c : list V * nat * nat =>
          let '(values, start, stride) := c in
          option_map (fun v => [Semi; Num streamDigits v]) (nth_error values (start + vid * stride))) (csvColumns m))
      with
      | Some pos, Some vals => Some (pos ++ [Semi; Int rank] ++ vals ++ [Nl])
      | _, _ => None
      end
  end.
(** ExportCSV.cpp 48-129 after keepExport *)
Definition csvFile (rank : nat) (m : mesh) : option (list item) :=
  option_map (app (csvHeader m)) (concatOk (map (csvRow m rank) (seq 0 (nVertices m)))).
Definition csvName (l : label) (rank size : nat) : string :=
  if 1 <? size then (base l ++ dec rank ++ "_" ++ fidx l ++ ".csv")%string
  else (base l ++ fidx l ++ ".csv")%string.
Definition csvExport (l : label) (rank size : nat) (m : mesh) : option (list (string * list item)) :=
  option_map (fun c => [(csvName l rank size, c)]) (csvFile rank m).
End Files.
