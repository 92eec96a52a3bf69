(** Watch points, watch integrals and mesh exports: when they are written, what
    is written, and the table files. *)
From Coq Require Import ZArith QArith Bool List String.
From Verif Require Import M_Net M_Time M_Cpl.
Import ListNotations.
Open Scope list_scope.
Open Scope Z_scope.

(** ** When something is exported *)

(** precice/impl/ParticipantState.hpp, struct IntermediateExport *)
Record iexport := IE { ie_window : Z; ie_iteration : Z; ie_complete : bool; ie_final : bool; ie_time : Z }.

(** ParticipantImpl.cpp 1755-1760, from the state of the coupling scheme after
    advance; [calls] is _numberAdvanceCalls *)
Definition handleExports {V} (c : conf) (calls : Z) (s : st (V:=V)) : iexport :=
  IE (s_windows s - 1) calls (s_compl s) (negb (isCouplingOngoing c s)) (th_time (s_time s)).

(** ParticipantImpl.cpp 418, 439 (addComputedTime tells whether the end of the
    window is reached), 497-501 and 542: nothing is exported within a window *)
Definition exportAfterAdvance {V} (c : conf) (dt calls : Z) (s s' : st (V:=V)) : option iexport :=
  if reachedEndOfTimeWindow c (set_s_time (th_progressBy dt (s_time s)) s)
  then Some (handleExports c calls s') else None.

(** io/ExportContext.hpp together with the part of io/Export.hpp that says which
    files exist: [x_records] are the (index, time) of the files written, index 0
    being named "init"; [x_series] is the content of the series file, if there is
    one.  Simplification: ExportCSV and the per-rank files of a parallel run are
    not told apart; an exporter of kind Iterations is one with every-iteration
    (ParticipantConfiguration.cpp 661) *)
Record xctx := XC { x_everyN : Z; x_everyIt : bool; x_update : bool;
                    x_records : list (Z * Z); x_series : option (list (Z * Z)) }.

(** io/Export.hpp 57-60 *)
Definition keepExport (x : xctx) (index : Z) : bool :=
  x_everyIt x || ((0 <? x_everyN x) && (index mod x_everyN x =? 0)).
(** ExportVTK.cpp / ExportXML.cpp doExport: keepExport, the file, recordExport *)
Definition doExport (index time : Z) (x : xctx) : xctx :=
  if keepExport x index
  then XC (x_everyN x) (x_everyIt x) (x_update x) (x_records x ++ [(index, time)]) (x_series x)
  else x.
(** Export.cpp 23-45 writeSeriesFile *)
Definition exportSeries (x : xctx) : xctx :=
  match x_records x with
  | [] => x
  | r => XC (x_everyN x) (x_everyIt x) (x_update x) r (Some r)
  end.

(** the exporters of a participant and the times for which the watch points and
    watch integrals were asked for a row *)
Record pexports := PE { pe_ctx : list xctx; pe_rows : list Z }.

(** ParticipantState.cpp 375-389, the loop body *)
Definition exportInitial1 (x : xctx) : xctx :=
  if x_everyN x <? 1 then x
  else let x1 := doExport 0 0 x in if x_update x1 then exportSeries x1 else x1.
(** ParticipantState.cpp 374-398 *)
Definition exportInitial (p : pexports) : pexports :=
  PE (map exportInitial1 (pe_ctx p)) (pe_rows p ++ [0]).

(** ParticipantState.cpp 407-422, the loop body *)
Definition exportIntermediate1 (e : iexport) (x : xctx) : xctx :=
  if x_everyIt x then doExport (ie_iteration e) (ie_time e) x
  else
    let x1 := if ie_complete e then doExport (ie_window e) (ie_time e) x else x in
    if ie_final e || (ie_complete e && x_update x1) then exportSeries x1 else x1.
(** ParticipantState.cpp 405-433 *)
Definition exportIntermediate (e : iexport) (p : pexports) : pexports :=
  PE (map (exportIntermediate1 e) (pe_ctx p))
     (if ie_complete e then pe_rows p ++ [ie_time e] else pe_rows p).

(** ** Table files *)

(** io/TXTTableWriter.hpp, enum DataType *)
Inductive dtype := DOUBLE | VECTOR2D | VECTOR3D.
Definition width (t : dtype) : nat := match t with DOUBLE => 1 | VECTOR2D => 2 | VECTOR3D => 3 end.
Definition dtype_eqb (a b : dtype) : bool :=
  match a, b with DOUBLE, DOUBLE | VECTOR2D, VECTOR2D | VECTOR3D, VECTOR3D => true | _, _ => false end.
(** what is written to the file: the header of a column, a line break, the value
    of a cell (the digits and the spaces are left out) *)
Inductive token := Head (name : string) (t : dtype) | Newline | Cell (v : list Q).
(** [tb_at]: the position of _writeIterator in _data *)
Record table := TB { tb_cols : list (string * dtype); tb_at : nat; tb_out : list token }.
(** TXTTableWriter.cpp 10-23 *)
Definition newTable : table := TB [] 0 [].
(** TXTTableWriter.cpp 25-56 *)
Definition addData (name : string) (t : dtype) (b : table) : table :=
  TB (tb_cols b ++ [(name, t)]) (S (List.length (tb_cols b))) (tb_out b ++ [Head name t]).
(** TXTTableWriter.cpp 58-150; [None]: an assertion fails *)
Definition writeData (name : string) (t : dtype) (v : list Q) (b : table) : option table :=
  match tb_cols b with
  | [] => None
  | _ =>
    let fresh := (tb_at b =? List.length (tb_cols b))%nat in
    let at_ := if fresh then O else tb_at b in
    let out := if fresh then tb_out b ++ [Newline] else tb_out b in
    match nth_error (tb_cols b) at_ with
    | Some (n, u) =>
        if (String.eqb n name && dtype_eqb u t)%bool
        then Some (TB (tb_cols b) (S at_) (out ++ [Cell v])) else None
    | None => None
    end
  end.
Definition bindT {A B} (o : option A) (f : A -> option B) : option B :=
  match o with Some a => f a | None => None end.

(** ** Meshes and data of a rank *)

(** the vertices 0 .. n-1 with coordinates (flattened), the edges with their
    lengths and the triangles with their areas; lengths and areas are given
    (mesh/Edge.cpp getLength, mesh/Triangle.cpp getArea) *)
Record rmesh := RM { rm_dim : nat; rm_n : nat; rm_coords : list Q;
                     rm_edges : list (nat * nat * Q); rm_tris : list (nat * nat * nat * Q) }.
Definition at_ (v : list Q) (i : nat) : Q := nth i v 0%Q.
Definition qsum (l : list Q) : Q := fold_right Qplus 0%Q l.

(** ** WatchIntegral *)

Definition hasEdges (m : rmesh) : bool := match rm_edges m with [] => false | _ => true end.
(** mesh/Utils.cpp 11-42 integrateSurface, component [i] of [d]-dimensional data *)
Definition integrateSurface (m : rmesh) (d : nat) (v : list Q) (i : nat) : Q :=
  if (rm_dim m =? 2)%nat
  then qsum (map (fun e => let '(a, b, len) := e in
                           ((1 # 2) * len * (at_ v (a * d + i) + at_ v (b * d + i)))%Q) (rm_edges m))
  else qsum (map (fun e => let '(a, b, c, ar) := e in
                           ((ar / 3) * (at_ v (a * d + i) + at_ v (b * d + i) + at_ v (c * d + i)))%Q) (rm_tris m)).
(** WatchIntegral.cpp 104-121 *)
Definition calculateIntegral (scaling : bool) (m : rmesh) (d : nat) (v : list Q) (i : nat) : Q :=
  if (negb (hasEdges m) || negb scaling)%bool
  then qsum (map (fun id => at_ v (id * d + i)) (seq 0 (rm_n m)))
  else integrateSurface m d v i.
(** WatchIntegral.cpp 123-137 *)
Definition calculateSurfaceArea (m : rmesh) : Q :=
  if (rm_dim m =? 3)%nat then qsum (map (fun e => snd e) (rm_tris m)) else qsum (map (fun e => snd e) (rm_edges m)).

Definition vectorType (d : nat) : dtype := if (d =? 2)%nat then VECTOR2D else VECTOR3D.
Definition dataType (d : nat) : dtype := if (1 <? d)%nat then vectorType d else DOUBLE.

(** WatchIntegral.cpp 15-45: the table of the primary rank (or of the only one);
    [datas]: names and dimensions *)
Definition newIntegral (datas : list (string * nat)) : table :=
  fold_left (fun b nd => addData (fst nd) (dataType (snd nd)) b) datas (addData "Time" DOUBLE newTable).
(** WatchIntegral.cpp 47-58; [m] is the local mesh of the primary rank *)
Definition initIntegral (m : rmesh) (b : table) : table :=
  if hasEdges m then addData "SurfaceArea" DOUBLE b else b.

(** a rank: its part of the mesh and, per data, the sampled values *)
Definition rank := (rmesh * list (list Q))%type.
(** WatchIntegral.cpp 70-78: what the ranks contribute to the sum of data [j] *)
Definition reducedIntegral (scaling : bool) (rs : list rank) (j d i : nat) : Q :=
  qsum (map (fun r => calculateIntegral scaling (fst r) d (nth j (snd r) []) i) rs).
(** WatchIntegral.cpp 89-107: a rank without edges contributes nothing *)
Definition reducedArea (rs : list rank) : Q :=
  qsum (map (fun r => if hasEdges (fst r) then calculateSurfaceArea (fst r) else 0%Q) rs).
Fixpoint writeIntegrals (scaling : bool) (rs : list rank) (j : nat) (datas : list (string * nat)) (b : table) : option table :=
  match datas with
  | [] => Some b
  | (n, d) :: r =>
      bindT (writeData n (dataType d) (map (reducedIntegral scaling rs j d) (seq 0 d)) b)
            (writeIntegrals scaling rs (S j) r)
  end.
(** WatchIntegral.cpp 60-108; the primary rank is the first one *)
Definition exportIntegralData (scaling : bool) (datas : list (string * nat)) (rs : list rank) (time : Q) (b : table) : option table :=
  bindT (writeData "Time" DOUBLE [time] b) (fun b1 =>
  bindT (writeIntegrals scaling rs 0 datas b1) (fun b2 =>
  match rs with
  | r0 :: _ => if hasEdges (fst r0) then writeData "SurfaceArea" DOUBLE [reducedArea rs] b2 else Some b2
  | [] => None
  end)).
(** the sizes of the reductions rank [m] takes part in, in order; lines 70-78
    and 89-107 *)
Definition reductions (datas : list (string * nat)) (m : rmesh) : list nat :=
  map snd datas ++ (if hasEdges m then [1%nat] else [1%nat]).

(** ** WatchPoint *)

(** WatchPoint.hpp 52-74: _shortestDistance ([None]: the largest double),
    _interpolation (weighted vertices; [None]: the null pointer), _isClosest *)
Record wrank := WR { w_dist : option Q; w_pol : option (list (nat * Q)); w_closest : bool }.
Definition newRank : wrank := WR None None true.
(** WatchPoint.cpp 22-50 *)
Definition newPoint (dim : nat) (datas : list (string * nat)) : table :=
  fold_left (fun b nd => addData (fst nd) (if (1 <? snd nd)%nat then vectorType dim else DOUBLE) b) datas
            (addData "Coordinate" (vectorType dim) (addData "Time" DOUBLE newTable)).
(** WatchPoint.cpp 61-65; [found]: distance and weights of the nearest cell or
    projection, [None] when the rank has no vertices *)
Definition searchLocal (found : option (Q * list (nat * Q))) (w : wrank) : wrank :=
  match found with
  | Some (d, p) => WR (Some d) (Some p) (w_closest w)
  | None => w
  end.
Definition lessDist (a b : option Q) : bool :=
  match a, b with
  | Some x, Some y => negb (Qle_bool y x)
  | Some _, None => true
  | None, _ => false
  end.
(** WatchPoint.cpp 73-82: [best] so far with its rank, [k] the next rank *)
Fixpoint closestRank (best : option Q) (at_ k : nat) (ds : list (option Q)) : nat :=
  match ds with
  | [] => at_
  | d :: r => if lessDist d best then closestRank d k (S k) r else closestRank best at_ (S k) r
  end.
(** WatchPoint.cpp 56-90 on all ranks; a single rank keeps its flag *)
Definition initPoint (found : list (option (Q * list (nat * Q)))) (ws : list wrank) : list wrank :=
  let ls := map (fun fw => searchLocal (fst fw) (snd fw)) (combine found ws) in
  match ls with
  | [] => []
  | [w] => [w]
  | w0 :: r =>
      let k := closestRank (w_dist w0) 0 1 (map w_dist r) in
      map (fun iw => WR (w_dist (snd iw)) (w_pol (snd iw)) (fst iw =? k)%nat) (combine (seq 0 (List.length ls)) ls)
  end.

(** WatchPoint.cpp 121-148: the weighted sum of component [i] of [d] *)
Definition weighted (p : list (nat * Q)) (d : nat) (v : list Q) (i : nat) : Q :=
  qsum (map (fun e => (snd e * at_ v (fst e * d + i))%Q) p).
Fixpoint writePointData (dim : nat) (p : list (nat * Q)) (vs : list (list Q)) (datas : list (string * nat)) (b : table) : option table :=
  match datas, vs with
  | (n, d) :: r, v :: vr =>
      bindT (if (1 <? d)%nat then writeData n (vectorType dim) (map (weighted p dim v) (seq 0 dim)) b
             else writeData n DOUBLE [weighted p 1 v 0] b)
            (writePointData dim p vr r)
  | [], _ => Some b
  | _ :: _, [] => None
  end.
(** WatchPoint.cpp 92-119 on one rank; [None]: the null pointer is dereferenced,
    a vertex does not exist, or an assertion of the table fails *)
Definition exportPointData (datas : list (string * nat)) (r : rank) (w : wrank) (time : Q) (b : table) : option table :=
  if w_closest w then
    match w_pol w with
    | None => None
    | Some p =>
        if forallb (fun e => (fst e <? rm_n (fst r))%nat) p then
          let dim := rm_dim (fst r) in
          bindT (writeData "Time" DOUBLE [time] b) (fun b1 =>
          bindT (writeData "Coordinate" (vectorType dim) (map (weighted p dim (rm_coords (fst r))) (seq 0 dim)) b1)
                (writePointData dim p (snd r) datas))
        else None
    end
  else Some b.
