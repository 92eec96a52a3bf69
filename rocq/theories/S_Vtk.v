(** What a program that opens the exported files sees: small readers of the VTK
    XML formats, the legacy VTK format and CSV, written from the descriptions of
    the formats, and the contents a mesh should have. *)
From Coq Require Import String Ascii Bool Arith List.
From Verif Require Import M_Vtk.
Import ListNotations.
Open Scope list_scope.

Section Readers.
Context {V : Type}.
(** [rd p v]: the number one gets when v is printed with p significant digits and
    read again *)
Variables (zero : V) (ofNat : nat -> V) (rd : nat -> V -> V).
Notation item := (@item V).

(** ** Words *)
(** the character occurs in the text *)
Fixpoint has (c : ascii) (s : string) : bool :=
  match s with
  | EmptyString => false
  | String a r => (Ascii.eqb a c || has c r)%bool
  end.
(** a single word of a text; a text that is one cell of a table; a text that can be
    the value of an attribute: no quote, ampersand or opening bracket *)
Definition isWord (s : string) : bool := negb (has " " s) && negb (String.eqb s "").
Definition isCell (s : string) : bool := negb (has ";" s).
Definition isValue (s : string) : bool := negb (has "034" s) && negb (has "&" s) && negb (has "<" s).
Definition isSpace (i : item) : bool := match i with Sp | Nl => true | _ => false end.
Definition isAtom (i : item) : bool :=
  match i with Num _ _ | Int _ => true | Wd s => isWord s | _ => false end.
(** the words of a text; two words need something between them *)
Fixpoint words (l : list item) : option (list item) :=
  match l with
  | [] => Some []
  | a :: r =>
      if isSpace a then words r
      else if isAtom a && match r with [] => true | b :: _ => isSpace b end
      then option_map (cons a) (words r)
      else None
  end.

Definition number (i : item) : option V :=
  match i with
  | Num p v => Some (rd p v)
  | Int n => Some (ofNat n)
  | Wd s => if (String.eqb s "0" || String.eqb s "0.0")%bool then Some zero else None
  | _ => None
  end.
Definition natural (i : item) : option nat := match i with Int n => Some n | _ => None end.
Definition numbers (l : list item) : option (list V) := allOk (map number l).
Definition naturals (l : list item) : option (list nat) := allOk (map natural l).

(** a list in rows of [n] *)
Fixpoint rows {A} (count n : nat) (l : list A) : option (list (list A)) :=
  match count with
  | O => match l with [] => Some [] | _ => None end
  | S c => if n <=? List.length l then option_map (cons (firstn n l)) (rows c n (skipn n l)) else None
  end.

(** ** XML *)
Inductive node := El (name : string) (attrs : list (string * list item)) (kids : list node) | Tx (i : item).
Definition frame : Type := string * list (string * list item) * list node.
Definition feed (st : option (list frame)) (i : item) : option (list frame) :=
  match st with
  | Some ((n, a, k) :: st') =>
      match i with
      | Open n' a' => Some ((n', a', []) :: (n, a, k) :: st')
      | Empty n' a' => Some ((n, a, El n' a' [] :: k) :: st')
      | Close n' =>
          match st' with
          | (n2, a2, k2) :: st'' => if String.eqb n n' then Some ((n2, a2, El n a (rev k) :: k2) :: st'') else None
          | [] => None
          end
      | _ => Some ((n, a, Tx i :: k) :: st')
      end
  | _ => None
  end.
(** the trees of a document, if the tags match *)
Definition parse (l : list item) : option (list node) :=
  match fold_left feed l (Some [(EmptyString, [], [])]) with
  | Some [(_, _, k)] => Some (rev k)
  | _ => None
  end.

Definition bind {A B} (o : option A) (f : A -> option B) : option B := match o with Some a => f a | None => None end.
Definition ensure (b : bool) : option unit := if b then Some tt else None.
Notation "x <- e ; f" := (bind e (fun x => f)) (at level 60, right associativity).

Fixpoint attr (name : string) (l : list (string * list item)) : option (list item) :=
  match l with [] => None | (n, v) :: r => if String.eqb n name then Some v else attr name r end.
Definition attrNat (name : string) (l : list (string * list item)) : option nat :=
  v <- attr name l; match v with [Int n] => Some n | _ => None end.
Definition attrName (name : string) (l : list (string * list item)) : option string :=
  v <- attr name l; match v with [Wd s] => if isValue s then Some s else None | _ => None end.
(** the first element of that name *)
Fixpoint kid (name : string) (l : list node) : option (list (string * list item) * list node) :=
  match l with
  | [] => None
  | El n a k :: r => if String.eqb n name then Some (a, k) else kid name r
  | Tx _ :: r => kid name r
  end.
Definition textOf (l : list node) : option (list item) :=
  t <- allOk (map (fun n => match n with Tx i => Some i | El _ _ _ => None end) l); words t.

(** all elements of that name *)
Definition kids (name : string) (l : list node) : list (list (string * list item) * list node) :=
  flat_map (fun n => match n with El m a k => if String.eqb m name then [(a, k)] else [] | Tx _ => [] end) l.

(** a DataArray: its name, its number of components, its words *)
Definition array (e : list (string * list item) * list node) : option (string * nat * list item) :=
  n <- attrName "Name" (fst e); c <- attrNat "NumberOfComponents" (fst e); w <- textOf (snd e); Some (n, c, w).
Definition arrays (l : list node) : option (list (string * nat * list item)) := allOk (map array (kids "DataArray" l)).
Fixpoint named (name : string) (l : list (string * nat * list item)) : option (nat * list item) :=
  match l with [] => None | (n, c, w) :: r => if String.eqb n name then Some (c, w) else named name r end.
(** the integers of the array of that name *)
Definition integers (name : string) (l : list (string * nat * list item)) : option (list nat) :=
  a <- named name l; _ <- ensure (fst a =? 1); naturals (snd a).
(** the array as [n] rows *)
Definition table (n : nat) (a : string * nat * list item) : option (string * list (list V)) :=
  let '(name, c, w) := a in v <- numbers w; r <- rows n c v; Some (name, r).

(** what a visualisation shows: points, cells with their type, named point data *)
Record grid := GR { g_points : list (list V); g_cells : list (nat * list nat); g_arrays : list (string * list (list V)) }.

(** the cells: [offsets] are the ends of the cells within [conn] *)
Fixpoint cut (prev : nat) (offs conn : list nat) : option (list (list nat)) :=
  match offs with
  | [] => match conn with [] => Some [] | _ => None end
  | o :: r =>
      _ <- ensure ((prev <=? o) && (o - prev <=? List.length conn));
      t <- cut o r (skipn (o - prev) conn); Some (firstn (o - prev) conn :: t)
  end.
(** VTK_LINE 3, VTK_TRIANGLE 5, VTK_TETRA 10, with existing points *)
Definition goodCell (n : nat) (c : nat * list nat) : bool :=
  (match fst c with
   | 3 => List.length (snd c) =? 2
   | 5 => List.length (snd c) =? 3
   | 10 => List.length (snd c) =? 4
   | _ => false
   end && forallb (fun v => v <? n) (snd c))%bool.

Definition readPoints (n : nat) (piece : list node) : option (list (list V)) :=
  p <- kid "Points" piece; a <- kid "DataArray" (snd p); t <- array a; r <- table n t; 
  _ <- ensure (snd (fst t) =? 3); Some (snd r).
Definition readArrays (n : nat) (piece : list node) : option (list (string * list (list V))) :=
  p <- kid "PointData" piece; l <- arrays (snd p); allOk (map (table n) l).
(** the cells of an element with connectivity and offsets *)
Definition readCells (count : nat) (l : list (string * nat * list item)) : option (list (list nat)) :=
  conn <- integers "connectivity" l; offs <- integers "offsets" l;
  _ <- ensure (List.length offs =? count); cut 0 offs conn.

(** the attributes and children of the Piece of a file of the given type *)
Definition piece (type : string) (l : list item) : option (list (string * list item) * list node) :=
  t <- parse l; f <- kid "VTKFile" t; ty <- attrName "type" (fst f); _ <- ensure (String.eqb ty type);
  g <- kid type (snd f); kid "Piece" (snd g).

(** a .vtu file *)
Definition readVTU (l : list item) : option grid :=
  p <- piece "UnstructuredGrid" l;
  n <- attrNat "NumberOfPoints" (fst p); c <- attrNat "NumberOfCells" (fst p);
  pts <- readPoints n (snd p);
  cs <- kid "Cells" (snd p); l <- arrays (snd cs);
  cells <- readCells c l; ty <- integers "types" l; _ <- ensure (List.length ty =? c);
  _ <- ensure (forallb (goodCell n) (combine ty cells));
  a <- readArrays n (snd p);
  Some (GR pts (combine ty cells) a).

(** a .vtp file: lines and polygons; a polygon of three points is a triangle *)
Definition readVTP (l : list item) : option grid :=
  p <- piece "PolyData" l;
  n <- attrNat "NumberOfPoints" (fst p); nl <- attrNat "NumberOfLines" (fst p); np <- attrNat "NumberOfPolys" (fst p);
  pts <- readPoints n (snd p);
  ls <- kid "Lines" (snd p); la <- arrays (snd ls); lines <- readCells nl la;
  ps <- kid "Polys" (snd p); pa <- arrays (snd ps); polys <- readCells np pa;
  let cells := map (pair 3) lines ++ map (pair 5) polys in
  _ <- ensure (forallb (goodCell n) cells);
  a <- readArrays n (snd p);
  Some (GR pts cells a).

(** a .pvtu / .pvtp file: the declared arrays and the files of the pieces *)
Definition readMaster (type : string) (l : list item) : option (list (string * nat) * list string) :=
  t <- parse l; f <- kid "VTKFile" t; ty <- attrName "type" (fst f); _ <- ensure (String.eqb ty type);
  g <- kid type (snd f); d <- kid "PPointData" (snd g);
  decl <- allOk (map (fun e => n <- attrName "Name" (fst e); c <- attrNat "NumberOfComponents" (fst e); Some (n, c))
                     (kids "PDataArray" (snd d)));
  src <- allOk (map (fun e => attrName "Source" (fst e)) (kids "Piece" (snd g)));
  Some (decl, src).
(** the arrays a piece declares *)
Definition declared (type : string) (l : list item) : option (list (string * nat)) :=
  p <- piece type l; d <- kid "PointData" (snd p);
  allOk (map (fun e => n <- attrName "Name" (fst e); c <- attrNat "NumberOfComponents" (fst e); Some (n, c))
             (kids "DataArray" (snd d))).

(** ** Legacy VTK *)
(** n lists, each a length and that many numbers *)
Fixpoint cellLists (count : nat) (l : list nat) : option (list (list nat)) :=
  match count, l with
  | O, [] => Some []
  | S c, k :: r => _ <- ensure (k <=? List.length r); t <- cellLists c (skipn k r); Some (firstn k r :: t)
  | _, _ => None
  end.
(** the first [n] words and the rest *)
Definition split {A} (n : nat) (l : list A) : option (list A * list A) :=
  _ <- ensure (n <=? List.length l); Some (firstn n l, skipn n l).
(** the attributes after POINT_DATA n *)
Fixpoint attributes (fuel n : nat) (l : list item) : option (list (string * list (list V))) :=
  match fuel, l with
  | _, [] => Some []
  | S f, Wd k :: Wd name :: Wd type :: r =>
      if String.eqb k "SCALARS" then
        match r with
        | Wd lt :: Wd df :: r' =>
            _ <- ensure (String.eqb lt "LOOKUP_TABLE" && String.eqb df "default");
            s <- split n r'; v <- numbers (fst s); t <- rows n 1 v;
            rest <- attributes f n (snd s); Some ((name, t) :: rest)
        | _ => None
        end
      else
        _ <- ensure (String.eqb k "VECTORS");
        s <- split (n * 3) r; v <- numbers (fst s); t <- rows n 3 v;
        rest <- attributes f n (snd s); Some ((name, t) :: rest)
  | _, _ => None
  end.
(** the text after the first three lines: signature, title, format *)
Definition magic : list item := [Wd "#"; Sp; Wd "vtk"; Sp; Wd "DataFile"; Sp; Wd "Version"; Sp; Wd "2.0"].
Definition expect (s : string) (l : list item) : option (list item) :=
  match l with Wd k :: r => _ <- ensure (String.eqb k s); Some r | _ => None end.
Definition expectNat (l : list item) : option (nat * list item) :=
  match l with Int n :: r => Some (n, r) | _ => None end.
Definition afterMagic (l : list item) : option (list item) :=
  match l with
  | Wd a :: Sp :: Wd b :: Sp :: Wd c :: Sp :: Wd d :: Sp :: Wd e :: Nl :: Nl :: Wd f :: Nl :: r =>
      _ <- ensure (String.eqb a "#" && String.eqb b "vtk" && String.eqb c "DataFile" && String.eqb d "Version" &&
                   String.eqb e "2.0" && String.eqb f "ASCII"); Some r
  | _ => None
  end.
Definition readVTK (l : list item) : option grid :=
  body <- afterMagic l; w <- words body;
  w <- expect "DATASET" w; w <- expect "UNSTRUCTURED_GRID" w;
  w <- expect "POINTS" w; nw <- expectNat w; w <- expect "double" (snd nw);
  s <- split (fst nw * 3) w; v <- numbers (fst s); pts <- rows (fst nw) 3 v;
  w <- expect "CELLS" (snd s); cw <- expectNat w; sw <- expectNat (snd cw);
  s <- split (fst sw) (snd sw); v <- naturals (fst s); cells <- cellLists (fst cw) v;
  w <- expect "CELL_TYPES" (snd s); tw <- expectNat w; _ <- ensure (fst tw =? fst cw);
  s <- split (fst tw) (snd tw); ty <- naturals (fst s);
  _ <- ensure (forallb (goodCell (fst nw)) (combine ty cells));
  w <- expect "POINT_DATA" (snd s); dw <- expectNat w; _ <- ensure (fst dw =? fst nw);
  a <- attributes (List.length (snd dw)) (fst nw) (snd dw);
  Some (GR pts (combine ty cells) a).

(** ** CSV *)
(** the lines, each ended by a line break *)
Fixpoint lines (cur l : list item) : option (list (list item)) :=
  match l with
  | [] => match cur with [] => Some [] | _ => None end
  | Nl :: r => option_map (cons (rev cur)) (lines [] r)
  | a :: r => lines (a :: cur) r
  end.
(** the cells of a line: single items with semicolons between them *)
Fixpoint cellsOf (l : list item) : option (list item) :=
  match l with
  | [a] => match a with Semi => None | _ => Some [a] end
  | a :: Semi :: r => match a with Semi => None | _ => option_map (cons a) (cellsOf r) end
  | _ => None
  end.
Definition text (i : item) : option string := match i with Wd s => if isCell s then Some s else None | _ => None end.
(** column names and rows; every row has one number per column *)
Definition readCSV (l : list item) : option (list string * list (list V)) :=
  ls <- lines [] l;
  match ls with
  | [] => None
  | h :: rs =>
      hc <- cellsOf h; names <- allOk (map text hc);
      body <- allOk (map (fun r => c <- cellsOf r; numbers c) rs);
      _ <- ensure (forallb (fun r => List.length r =? List.length names) body);
      Some (names, body)
  end.

(** ** What should be in the files *)
Definition pad3 (l : list V) : list V := l ++ repeat zero (3 - List.length l).

(** a mesh as the user defined it: coordinates of the dimension of the mesh,
    connectivity between existing vertices, data with one value per vertex and
    component, vector data with the dimension of the mesh; the gradients hold one
    number per vertex, component and direction *)
Definition wfData (dim n : nat) (d : data (V:=V)) : Prop :=
  (d_dims d = 1 \/ d_dims d = dim) /\
  forall s, d_last d = Some s ->
    List.length (sp_values s) = n * d_dims d /\
    (d_grad d = true -> List.length (sp_gradients s) = n * d_dims d /\ Forall (fun c => List.length c = dim) (sp_gradients s)).
Definition wfMesh (m : mesh (V:=V)) : Prop :=
  (m_dim m = 2 \/ m_dim m = 3) /\
  Forall (fun p => List.length p = m_dim m) (m_vertices m) /\
  Forall (fun e : nat * nat => fst e < nVertices m /\ snd e < nVertices m) (m_edges m) /\
  Forall (fun t : nat * nat * nat => let '(a, b, c) := t in a < nVertices m /\ b < nVertices m /\ c < nVertices m) (m_triangles m) /\
  Forall (fun t : nat * nat * nat * nat => let '(a, b, c, d) := t in
            a < nVertices m /\ b < nVertices m /\ c < nVertices m /\ d < nVertices m) (m_tetrahedra m) /\
  Forall (wfData (m_dim m) (nVertices m)) (m_data m).

(** all data names are of a kind *)
Definition namesAre (P : string -> bool) (m : mesh (V:=V)) : Prop := Forall (fun d => P (d_name d) = true) (m_data m).

Definition linesOf (m : mesh (V:=V)) : list (nat * list nat) := map (fun e => (3, [fst e; snd e])) (m_edges m).
Definition trianglesOf (m : mesh (V:=V)) : list (nat * list nat) :=
  map (fun t : nat * nat * nat => let '(a, b, c) := t in (5, [a; b; c])) (m_triangles m).
Definition tetrahedraOf (m : mesh (V:=V)) : list (nat * list nat) :=
  map (fun t : nat * nat * nat * nat => let '(a, b, c, d) := t in (10, [a; b; c; d])) (m_tetrahedra m).

(** the points, with [digits] significant digits *)
Definition pointsOf (digits : nat) (m : mesh (V:=V)) : list (list V) :=
  map (fun p => pad3 (map (rd digits) p)) (m_vertices m).
(** value i of data with [dims] components *)
Definition valueAt (dims : nat) (values : list V) (i : nat) : list V := map (fun c => nth (i * dims + c) values zero) (seq 0 dims).
(** Participant.hpp 1132-1146: the order in which gradients are given to preCICE:
    per vertex, first the derivatives of all components in x, then in y, then in z *)
Definition derivative (dim dims : nat) (flat : list V) (i direction component : nat) : V :=
  nth (i * (dim * dims) + direction * dims + component) flat zero.
(** the derivatives of all components in one direction *)
Definition derivatives (dim dims : nat) (flat : list V) (direction i : nat) : list V :=
  map (derivative dim dims flat i direction) (seq 0 dims).
(** the gradient of scalar data *)
Definition gradientOf (dim : nat) (flat : list V) (i : nat) : list V :=
  map (fun k => derivative dim 1 flat i k 0) (seq 0 dim).

Definition valuesArray (digits n : nat) (d : data (V:=V)) (s : sample) : string * list (list V) :=
  (d_name d, map (fun i => let v := map (rd digits) (valueAt (d_dims d) (sp_values s) i) in
                           if d_dims d =? 1 then v else pad3 v) (seq 0 n)).
Definition gradientArrays (digits dim n : nat) (d : data (V:=V)) (s : sample) : list (string * list (list V)) :=
  let flat := List.concat (sp_gradients s) in
  if d_grad d then
    if d_dims d =? 1 then [((d_name d ++ "_gradient")%string, map (fun i => pad3 (map (rd digits) (gradientOf dim flat i))) (seq 0 n))]
    else map (fun ks : nat * string => ((d_name d ++ snd ks)%string,
                map (fun i => pad3 (map (rd digits) (derivatives dim (d_dims d) flat (fst ks) i))) (seq 0 n)))
             (firstn dim [(0, "_dx"%string); (1, "_dy"%string); (2, "_dz"%string)])
  else [].
(** the data that has values *)
Definition filled (m : mesh (V:=V)) : list (data * sample) :=
  flat_map (fun d => match d_last d with Some s => [(d, s)] | None => [] end) (m_data m).
Definition rankArray (rank : nat) (m : mesh (V:=V)) : string * list (list V) :=
  ("Rank"%string, map (fun _ => [ofNat rank]) (seq 0 (nVertices m))).

(** columns and rows of the table *)
Definition columnNames (m : mesh (V:=V)) : list string :=
  firstn (m_dim m) ["PosX"; "PosY"; "PosZ"]%string ++ ["Rank"%string] ++
  flat_map (fun ds : data * sample =>
    if d_dims (fst ds) =? 1 then [d_name (fst ds)]
    else map (fun x => (d_name (fst ds) ++ x)%string) (firstn (d_dims (fst ds)) ["X"; "Y"; "Z"]%string)) (filled m).
Definition rowOf (digits rank : nat) (m : mesh (V:=V)) (i : nat) : list V :=
  map (rd digits) (nth i (m_vertices m) []) ++ [ofNat rank] ++
  flat_map (fun ds : data * sample => map (rd digits) (valueAt (d_dims (fst ds)) (sp_values (snd ds)) i)) (filled m).

(** all arrays of a piece: the rank, then every data with its gradients *)
Definition xmlArrays (digits rank : nat) (m : mesh (V:=V)) : list (string * list (list V)) :=
  rankArray rank m :: flat_map (fun ds : data * sample =>
    valuesArray digits (nVertices m) (fst ds) (snd ds) :: gradientArrays digits (m_dim m) (nVertices m) (fst ds) (snd ds)) (filled m).
(** all arrays of a legacy file: the rank, then all data, then all gradients *)
Definition legacyArrays (digits : nat) (m : mesh (V:=V)) : list (string * list (list V)) :=
  rankArray 0 m :: map (fun ds : data * sample => valuesArray digits (nVertices m) (fst ds) (snd ds)) (filled m) ++
  flat_map (fun ds : data * sample => gradientArrays digits (m_dim m) (nVertices m) (fst ds) (snd ds)) (filled m).
(** what all ranks have in common: the dimension, and name, components and
    gradient flag of each data and whether it has values *)
Definition schema (m : mesh (V:=V)) : nat * list (string * nat * bool * bool) :=
  (m_dim m, map (fun d => (d_name d, d_dims d, d_grad d, match d_last d with Some _ => true | None => false end)) (m_data m)).
(** the vertices of all ranks up to a rank *)
Definition offsetsOf (counts : list nat) : list nat := map (fun r => list_sum (firstn (S r) counts)) (seq 0 (List.length counts)).
End Readers.
