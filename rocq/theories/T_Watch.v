(** C74: watch files and exports hold exactly the completed windows. *)
From Coq Require Import String ZArith QArith Bool List Lia.
From Verif Require Import M_Net M_Time M_Cpl S_Prog S_Cpl P_CplExec T_Cpl M_Watch S_Watch P_Watch P_Table P_Integral.
Import ListNotations.
Open Scope list_scope.
Open Scope Z_scope.

Section T.
Context {V : Type}.
Variables (gnone vzero : V).
Notation logged := (logged (V:=V) gnone vzero).

(** every history of API calls has a log *)
Theorem C74_every_history_is_logged : forall k c h s, run gnone vzero k c h s -> exists n l, logged k c h s n l.
Proof. exact (run_logged gnone vzero). Qed.

(** the rows of the watch points and watch integrals: time 0, then one row per
    completed window at its end, whatever the substeps and repetitions; the last
    one is at max-time if that cut the window short *)
Theorem C74_rows : forall k c w h s n l ctx, fixed k c w -> logged k c h s n l ->
  let rows := pe_rows (exported (PE ctx []) l) in
  List.length rows = S (Z.to_nat (completed h)) /\ nth 0 rows (-1) = 0 /\
  forall j, 1 <= j <= completed h ->
    nth (Z.to_nat j) rows 0 = j * w \/
    (j = completed h /\ isCouplingOngoing c s = false /\
     exists T, c_maxTime c = Some T /\ Z.abs (T - nth (Z.to_nat j) rows 0) <= c_eps c).
Proof. exact (watch_rows gnone vzero). Qed.

(** an export every N windows: the initial state and the windows N, 2N, ... with
    the times of the watch rows; the series file lists exactly the written files
    when the coupling has ended, and always if update-series is set *)
Theorem C74_window_exports : forall k c w h s n l N u, fixed k c w -> logged k c h s n l -> 1 <= N ->
  let p := exported (PE [fresh_ctx N false u] []) l in
  exists x, pe_ctx p = [x] /\
  x_records x = map (fun j => (j, nth (Z.to_nat j) (pe_rows p) 0)) (multiples N (completed h)) /\
  (u = true -> x_series x = Some (x_records x)) /\
  (isCouplingOngoing c s = false -> 0 < advances h -> x_series x = Some (x_records x)).
Proof. exact (window_exports gnone vzero). Qed.

(** an export every iteration: one file per call of advance that ended a window
    or asked to repeat it, numbered by the calls of advance *)
Theorem C74_iteration_exports : forall k c w h s n l N u, fixed k c w -> logged k c h s n l ->
  let p := exported (PE [fresh_ctx N true u] []) l in
  exists x, pe_ctx p = [x] /\
  map fst (x_records x) = (if N <? 1 then [] else [0]) ++ end_calls h.
Proof.
  intros k c w h s n l N u F L. destruct (iteration_exports gnone vzero k c w h s n l N u F L) as (x & A & B & _). eauto.
Qed.

(** but its series file never lists them, not even when the coupling has ended *)
Theorem C74_iteration_series_refuted : forall k c w h s n l N u, fixed k c w -> logged k c h s n l ->
  end_calls h <> [] ->
  exists x, pe_ctx (exported (PE [fresh_ctx N true u] []) l) = [x] /\ x_series x <> Some (x_records x).
Proof.
  intros k c w h s n l N u F L H. destruct (iteration_exports gnone vzero k c w h s n l N u F L) as (x & A & B & C).
  exists x. split; [exact A|]. rewrite C. destruct (N <? 1); cbn [orb]; [discriminate|]. destruct u; cbn [negb]; [|discriminate].
  intros E. injection E as E. rewrite <- E in B. cbn [map fst app] in B. injection B as B. congruence.
Qed.
End T.

(** the file of a watch integral is a table: a header and one complete row per
    export, if the primary rank's part keeps having (or not having) edges *)
Theorem C74_integral_table : forall scaling datas m es,
  valid_data datas -> Forall (fun e => primary_edges (hasEdges m) (snd e)) es ->
  exists b, integral_file scaling datas es (initIntegral m (newIntegral datas)) = Some b /\
  well_formed (integral_cols (hasEdges m) datas) (map (integral_row scaling (hasEdges m) datas) es) (tb_out b).
Proof. exact integral_table. Qed.

(** so is the file of a watch point *)
Theorem C74_point_table : forall dim datas w p es, (dim = 2 \/ dim = 3)%nat ->
  w_closest w = true -> w_pol w = Some p ->
  Forall (fun e => rm_dim (fst (snd e)) = dim /\ Forall (fun v => (fst v < rm_n (fst (snd e)))%nat) p /\
                   List.length (snd (snd e)) = List.length datas) es ->
  exists b, point_file datas w es (newPoint dim datas) = Some b /\
  well_formed (point_cols dim datas) (map (point_row dim p datas) es) (tb_out b).
Proof. exact point_table. Qed.

(** after remeshing, watch integrals are initialised again: the first row after
    it is written into a table with two SurfaceArea columns, the second fails *)
Theorem C74_remeshing_refuted : forall scaling datas m m' es b1 t rs t' rs',
  hasEdges m = true -> hasEdges m' = true ->
  Forall (fun e => primary_edges true (snd e)) es ->
  integral_file scaling datas es (initIntegral m (newIntegral datas)) = Some b1 ->
  primary_edges true rs ->
  exists b2, exportIntegralData scaling datas rs t (initIntegral m' b1) = Some b2 /\
  exportIntegralData scaling datas rs' t' b2 = None.
Proof. exact integral_twice. Qed.

(** every rank takes part in the same reductions *)
Theorem C74_reductions : forall datas m m', reductions datas m = reductions datas m'.
Proof. intros datas m m'. unfold reductions. destruct (hasEdges m), (hasEdges m'); reflexivity. Qed.

(** the integral of a parallel run is the one of a serial run on the whole mesh,
    if scaled and unscaled sums are not mixed *)
Theorem C74_parallel_integral : forall scaling dim d j i (rs : list rank), Forall (good dim d j) rs -> (i < d)%nat ->
  uniform scaling (map fst rs) ->
  (reducedIntegral scaling rs j d i ==
   calculateIntegral scaling (joined dim (map fst rs)) d (concat (map (fun r => nth j (snd r) []) rs)) i)%Q.
Proof. exact parallel_integral. Qed.
Theorem C74_parallel_area : forall dim (rs : list rank), Forall (fun r => rm_dim (fst r) = dim) rs ->
  Forall (fun r => hasEdges (fst r) = false -> rm_tris (fst r) = []) rs ->
  (reducedArea rs == calculateSurfaceArea (joined dim (map fst rs)))%Q.
Proof. exact parallel_area. Qed.

(** it is a mixture otherwise: an edge on the first rank, a lonely vertex on the
    second, the same field 1 everywhere *)
Definition mesh2 : rmesh := RM 2 2 [0; 0; 4; 0]%Q [(0%nat, 1%nat, 4%Q)] [].
Definition lonely : rmesh := RM 2 1 [9; 9]%Q [] [].
Definition mixed : list rank := [(mesh2, [[1; 1]%Q]); (lonely, [[1%Q]])].
Theorem C74_mixed_refuted :
  (reducedIntegral true mixed 0 1 0 == 5)%Q /\
  (calculateIntegral true (joined 2 (map fst mixed)) 1 [1; 1; 1]%Q 0 == 4)%Q.
Proof. split; reflexivity. Qed.
(** with the ranks swapped, the area is not written at all *)
Theorem C74_area_refuted : forall datas,
  integral_cols (hasEdges (fst (nth 0 (rev mixed) (lonely, [])))) datas <> integral_cols (hasEdges (joined 2 (map fst (rev mixed)))) datas.
Proof.
  intros datas H. apply (f_equal (@List.length _)) in H. cbn in H. rewrite !app_length in H. cbn in H. lia.
Qed.
(** in three dimensions, edges without triangles make the scaled integral zero *)
Theorem C74_edges_only_refuted : forall n cs es v d i, es <> [] ->
  (calculateIntegral true (RM 3 n cs es []) d v i == 0)%Q.
Proof. intros n cs es v d i H. unfold calculateIntegral, hasEdges. cbn [rm_edges]. destruct es; [congruence|]. reflexivity. Qed.

(** exactly one rank writes the watch point, a closest one *)
Theorem C74_one_writer : forall fs : list (option (Q * list (nat * Q))), (exists f, In f fs /\ f <> None) ->
  let ws := initPoint fs (repeat newRank (List.length fs)) in
  exists k d p, nth_error fs k = Some (Some (d, p)) /\
  (forall i w, nth_error ws i = Some w -> w_closest w = (i =? k)%nat) /\
  (exists w, nth_error ws k = Some w /\ w_pol w = Some p) /\
  (forall i d' p', nth_error fs i = Some (Some (d', p')) -> (d <= d')%Q).
Proof. exact one_writer. Qed.
(** if no rank has vertices, the first one dereferences a null pointer *)
Theorem C74_nobody_refuted : forall n r datas t b, (1 <= n)%nat ->
  let ws := initPoint (repeat None n) (repeat newRank n) in
  exists w, nth_error ws 0 = Some w /\ exportPointData datas r w t b = None.
Proof. exact nobody. Qed.
(** after remeshing, a rank that lost its vertices may still be in charge, with
    the vertices of the old mesh *)
Definition twice_point :=
  initPoint [None; Some (3%Q, [(0%nat, 1%Q)])] (initPoint [Some (1%Q, [(2%nat, 1%Q)]); Some (3%Q, [(0%nat, 1%Q)])] (repeat newRank 2)).
Theorem C74_stale_point_refuted : forall coords vs datas t b,
  exists w, nth_error twice_point 0 = Some w /\ w_closest w = true /\
  exportPointData datas (RM 2 0 coords [] [], vs) w t b = None.
Proof. intros. eexists; split; [reflexivity|]. split; reflexivity. Qed.

(** the row of a watch point is consistent: a linear field has, in the row, its
    value at the coordinate in the row *)
Theorem C74_point_linear : forall dim p coords v (g : nat -> Q) (b : Q),
  (qsum (map snd p) == 1)%Q ->
  (forall e, In e p -> (at_ v (fst e) == qsum (map (fun k => g k * at_ coords (fst e * dim + k)) (seq 0 dim)) + b)%Q) ->
  (weighted p 1 v 0 == qsum (map (fun k => g k * weighted p dim coords k) (seq 0 dim)) + b)%Q.
Proof. exact point_linear. Qed.

(** ** Examples *)

(** the history of T_Cpl: two steps and a repetition, then the window completes *)
Example ex_logged : exists h s n l, logged 0 0 Serial ex_conf h s n l /\
  completed h = 1 /\ advances h = 3 /\ end_calls h = [2; 3] /\
  pe_rows (exported (PE [] []) l) = [0; 100].
Proof.
  assert (F : match exec 0 0 Serial ex_conf ex_ops with
    | Some (h, s) => completed h = 1 /\ advances h = 3 /\ end_calls h = [2; 3] /\ isCouplingOngoing ex_conf s = true
    | None => False end) by (vm_compute; repeat split).
  destruct (exec 0 0 Serial ex_conf ex_ops) as [(h, s)|] eqn:Q; [|destruct F]. destruct F as (F1 & F2 & F3 & F4).
  assert (Qr : run 0 0 Serial ex_conf h s) by (exact (exec_run _ _ _ _ _ _ _ Q)).
  destruct (run_logged 0 0 _ _ _ _ Qr) as (n & l & L).
  exists h, s, n, l. repeat (split; [assumption|]).
  destruct (watch_rows 0 0 _ _ _ _ _ _ _ [] ex_fixed L) as (A & B & C). rewrite F1 in A, C.
  specialize (C 1 (conj (Z.le_refl 1) (Z.le_refl 1))).
  destruct (pe_rows (exported (PE [] []) l)) as [|a [|b [|x r]]]; try discriminate A.
  change (Z.to_nat 1) with 1%nat in C. cbn [nth] in B, C.
  destruct C as [C|(_ & C & _)]; [rewrite B, C; reflexivity|congruence].
Qed.

(** two parts of a polygon and a part without vertices, scalar and vector data *)
Definition mesh3 : rmesh := RM 2 3 [4; 0; 7; 4; 7; 8]%Q [(0%nat, 1%nat, 5%Q); (1%nat, 2%nat, 4%Q)] [].
Definition none : rmesh := RM 2 0 [] [] [].
Definition parts : list rank :=
  [(mesh2, [[1; 3]%Q; [1; 0; 0; 1]%Q]); (none, [[]; []]); (mesh3, [[3; 5; 7]%Q; [0; 1; 0; 1; 2; 2]%Q])].
Definition dataset : list (string * nat) := [("Pressure"%string, 1%nat); ("Force"%string, 2%nat)].
Example parts_ok : valid_data dataset /\ primary_edges (hasEdges mesh2) parts /\ uniform true (map fst parts) /\
  Forall (good 2 1 0) parts /\ Forall (good 2 2 1) parts /\
  map (map Qred) (integral_row true true dataset (7%Q, parts)) = [[7]; [52]; [6; 13]; [13]]%Q.
Proof.
  split; [repeat constructor|]. split; [reflexivity|]. split.
  { right; right. intros m [<-|[<-|[<-|[]]]]; cbn; intros; try reflexivity; lia. }
  split; [|split]; [| |vm_compute; reflexivity].
  all: unfold parts; apply Forall_cons; [|apply Forall_cons; [|apply Forall_cons; [|apply Forall_nil]]].
  all: unfold good, proper; cbn [fst snd rm_dim rm_edges rm_tris rm_n mesh2 mesh3 none nth]; repeat split; auto.
  all: repeat (apply Forall_cons || apply Forall_nil); lia.
Qed.
Example ranks_ex : initPoint [None; Some (5%Q, [(0%nat, 1%Q)]); Some (2%Q, [(1%nat, 1#2); (4%nat, 1#2)]%Q); Some (2%Q, [])] (repeat newRank 4) =
  [WR None None false; WR (Some 5%Q) (Some [(0%nat, 1%Q)]) false; WR (Some 2%Q) (Some [(1%nat, 1#2); (4%nat, 1#2)]%Q) true; WR (Some 2%Q) (Some []) false].
Proof. reflexivity. Qed.
Example point_ex : exists b,
  point_file dataset (WR (Some 1%Q) (Some [(0%nat, 1#2); (2%nat, 1#2)]%Q) true) [(0%Q, (mesh3, [[3; 5; 7]%Q; [0; 1; 0; 1; 2; 2]%Q]))] (newPoint 2 dataset) = Some b /\
  List.length (tb_out b) = 9%nat /\ nth 8 (tb_out b) Newline = Cell [4#4; 6#4]%Q.
Proof. eexists; split; [vm_compute; reflexivity|]. split; vm_compute; reflexivity. Qed.

Print Assumptions C74_every_history_is_logged.
Print Assumptions C74_rows.
Print Assumptions C74_window_exports.
Print Assumptions C74_iteration_exports.
Print Assumptions C74_iteration_series_refuted.
Print Assumptions C74_integral_table.
Print Assumptions C74_point_table.
Print Assumptions C74_remeshing_refuted.
Print Assumptions C74_reductions.
Print Assumptions C74_parallel_integral.
Print Assumptions C74_parallel_area.
Print Assumptions C74_mixed_refuted.
Print Assumptions C74_area_refuted.
Print Assumptions C74_edges_only_refuted.
Print Assumptions C74_one_writer.
Print Assumptions C74_nobody_refuted.
Print Assumptions C74_stale_point_refuted.
Print Assumptions C74_point_linear.
