(** What users expect of watch files and exports. *)
From Coq Require Import ZArith QArith Bool List String.
From Verif Require Import M_Net M_Time M_Cpl S_Prog S_Cpl M_Watch.
Import ListNotations.
Open Scope list_scope.
Open Scope Z_scope.

Section Log.
Context {V : Type}.
Variables (gnone vzero : V).

(** the API histories of [run] (see S_Cpl), together with the number of calls of
    advance and the exports they triggered, oldest first *)
Inductive logged (k : kind) (c : conf) : history -> st (V:=V) -> Z -> list iexport -> Prop :=
| lg_init E s' :
    returns (p_initialize gnone vzero k E c (st0 c)) s' ->
    logged k c [Initialized (observe c s')] s' 0 []
| lg_init_asked E s' :
    returns (p_initialize gnone vzero k E c (answerInit (st0 c))) s' ->
    logged k c [Initialized (observe c s')] s' 0 []
| lg_ask_read h s n l : logged k c h s n l -> logged k c (AskedRead :: h) (answerRead s) n l
| lg_ask_write h s n l : logged k c h s n l -> logged k c (AskedWrite :: h) (answerWrite s) n l
| lg_adv h s n l E dt s' :
    logged k c h s n l ->
    returns (p_advance gnone k E c dt s) s' ->
    logged k c (Advanced dt (observe c s') :: h) s' (n + 1)
      (l ++ match exportAfterAdvance c dt (n + 1) s s' with Some e => [e] | None => [] end).
End Log.

(** the exports of a participant after initialize and the given exports *)
Definition exported (p : pexports) (l : list iexport) : pexports :=
  fold_left (fun q e => exportIntermediate e q) l (exportInitial p).

(** the numbers 0 .. n *)
Definition upto (n : Z) : list Z := map Z.of_nat (seq 0 (S (Z.to_nat n))).
(** of these, the multiples of [m] *)
Definition multiples (m n : Z) : list Z := filter (fun j => j mod m =? 0) (upto n).

(** how often advance was called *)
Fixpoint advances (h : history) : Z :=
  match h with [] => 0 | Advanced _ _ :: r => 1 + advances r | _ :: r => advances r end.
(** the calls of advance (numbered from 1) after which a window was completed or
    has to be repeated *)
Fixpoint end_calls (h : history) : list Z :=
  match h with
  | [] => []
  | Advanced _ o :: r => end_calls r ++ (if o_complete o || o_read o then [1 + advances r] else [])
  | _ :: r => end_calls r
  end.

(** an exporter as configured: nothing written yet *)
Definition fresh_ctx (everyN : Z) (everyIt update : bool) : xctx := XC everyN everyIt update [] None.

(** a table file: the header, then rows with one cell per column *)
Definition header (cols : list (string * dtype)) : list token := map (fun c => Head (fst c) (snd c)) cols.
Definition lines (rows : list (list (list Q))) : list token := flat_map (fun r => Newline :: map Cell r) rows.
Definition fits (cols : list (string * dtype)) (r : list (list Q)) : Prop :=
  map (@List.length Q) r = map (fun c => width (snd c)) cols.
Definition well_formed (cols : list (string * dtype)) (rows : list (list (list Q))) (out : list token) : Prop :=
  out = header cols ++ lines rows /\ Forall (fits cols) rows.

(** the mesh of the whole participant: the ranks' vertices one after the other *)
Definition shiftE (n : nat) (e : nat * nat * Q) := let '(a, b, l) := e in ((n + a)%nat, (n + b)%nat, l).
Definition shiftT (n : nat) (e : nat * nat * nat * Q) := let '(a, b, c, l) := e in ((n + a)%nat, (n + b)%nat, (n + c)%nat, l).
Definition join2 (m m' : rmesh) : rmesh :=
  RM (rm_dim m) (rm_n m + rm_n m') (rm_coords m ++ rm_coords m')
     (rm_edges m ++ map (shiftE (rm_n m)) (rm_edges m')) (rm_tris m ++ map (shiftT (rm_n m)) (rm_tris m')).
Definition joined (dim : nat) (ms : list rmesh) : rmesh := fold_right join2 (RM dim 0 [] [] []) ms.
(** edges and triangles connect vertices of the rank *)
Definition proper (m : rmesh) : Prop :=
  Forall (fun e => let '(a, b, _) := e in (a < rm_n m)%nat /\ (b < rm_n m)%nat) (rm_edges m) /\
  Forall (fun e => let '(a, b, c, _) := e in (a < rm_n m)%nat /\ (b < rm_n m)%nat /\ (c < rm_n m)%nat) (rm_tris m).

(** successive exports of a watch integral: times and what the ranks hold *)
Fixpoint integral_file (scaling : bool) (datas : list (string * nat)) (es : list (Q * list rank)) (b : table) : option table :=
  match es with
  | [] => Some b
  | (t, rs) :: r => bindT (exportIntegralData scaling datas rs t b) (integral_file scaling datas r)
  end.
(** the row expected for them *)
Fixpoint integral_cells (scaling : bool) (rs : list rank) (j : nat) (datas : list (string * nat)) : list (list Q) :=
  match datas with
  | [] => []
  | (_, d) :: r => map (reducedIntegral scaling rs j d) (seq 0 d) :: integral_cells scaling rs (S j) r
  end.
Definition integral_row (scaling edges : bool) (datas : list (string * nat)) (e : Q * list rank) : list (list Q) :=
  [fst e] :: integral_cells scaling (snd e) 0 datas ++ (if edges then [[reducedArea (snd e)]] else []).
Definition integral_cols (edges : bool) (datas : list (string * nat)) : list (string * dtype) :=
  ("Time"%string, DOUBLE) :: map (fun nd => (fst nd, dataType (snd nd))) datas ++
  (if edges then [("SurfaceArea"%string, DOUBLE)] else []).
(** data are scalars or vectors of two or three components *)
Definition valid_data (datas : list (string * nat)) : Prop := Forall (fun nd => 1 <= snd nd <= 3)%nat datas.
(** the primary rank has edges, or has none *)
Definition primary_edges (edges : bool) (rs : list rank) : Prop :=
  match rs with [] => False | r :: _ => hasEdges (fst r) = edges end.

(** successive exports of a watch point by the rank in charge *)
Fixpoint point_file (datas : list (string * nat)) (w : wrank) (es : list (Q * rank)) (b : table) : option table :=
  match es with
  | [] => Some b
  | (t, r) :: q => bindT (exportPointData datas r w t b) (point_file datas w q)
  end.
Definition point_cols (dim : nat) (datas : list (string * nat)) : list (string * dtype) :=
  ("Time"%string, DOUBLE) :: ("Coordinate"%string, vectorType dim) ::
  map (fun nd => (fst nd, if (1 <? snd nd)%nat then vectorType dim else DOUBLE)) datas.
Fixpoint point_cells (dim : nat) (p : list (nat * Q)) (vs : list (list Q)) (datas : list (string * nat)) : list (list Q) :=
  match datas, vs with
  | (_, d) :: r, v :: vr =>
      (if (1 <? d)%nat then map (weighted p dim v) (seq 0 dim) else [weighted p 1 v 0]) :: point_cells dim p vr r
  | _, _ => []
  end.
Definition point_row (dim : nat) (p : list (nat * Q)) (datas : list (string * nat)) (e : Q * rank) : list (list Q) :=
  [fst e] :: map (weighted p dim (rm_coords (fst (snd e)))) (seq 0 dim) :: point_cells dim p (snd (snd e)) datas.

(** the scaled and unscaled sums are not mixed: scaling is off, or no rank has
    edges, or every rank with vertices has some *)
Definition uniform (scaling : bool) (ms : list rmesh) : Prop :=
  scaling = false \/ (forall m, In m ms -> hasEdges m = false) \/
  (forall m, In m ms -> (0 < rm_n m)%nat -> hasEdges m = true).

(** a rank with a proper mesh and values of data [j] for every vertex *)
Definition good (dim d j : nat) (r : rank) : Prop :=
  rm_dim (fst r) = dim /\ proper (fst r) /\ List.length (nth j (snd r) []) = (rm_n (fst r) * d)%nat.
