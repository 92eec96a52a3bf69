(** Proofs about the table files of watch points and watch integrals. *)
From Coq Require Import String ZArith QArith Qfield Bool List Lia Lqa.
From Verif Require Import M_Watch S_Watch.
Import ListNotations.
Open Scope list_scope.
Open Scope nat_scope.

(** ** Tables *)

Notation cell := (string * dtype * list Q)%type.
Fixpoint writeSeq (cs : list cell) (b : table) : option table :=
  match cs with
  | [] => Some b
  | (n, t, v) :: r => bindT (writeData n t v b) (writeSeq r)
  end.
Lemma writeSeq_app cs cs' b : writeSeq (cs ++ cs') b = bindT (writeSeq cs b) (writeSeq cs').
Proof.
  revert b. induction cs as [|[[n t] v] cs IH]; intros b; [reflexivity|].
  cbn [app writeSeq]. destruct (writeData n t v b) as [b'|]; [apply IH|reflexivity].
Qed.
Lemma dtype_refl t : dtype_eqb t t = true.
Proof. destruct t; reflexivity. Qed.

Lemma write_mid n t v pre post out :
  pre <> [] ->
  writeData n t v (TB (pre ++ (n, t) :: post) (length pre) out) =
  Some (TB (pre ++ (n, t) :: post) (S (length pre)) (out ++ [Cell v])).
Proof.
  intros P. unfold writeData. cbn [tb_cols tb_at tb_out].
  destruct (pre ++ (n, t) :: post) as [|c0 r] eqn:E; [destruct pre; discriminate|]. rewrite <- E.
  replace (length pre =? length (pre ++ (n, t) :: post)) with false
    by (symmetry; apply Nat.eqb_neq; rewrite app_length; cbn; lia).
  rewrite nth_error_app2 by lia. rewrite Nat.sub_diag. cbn [nth_error].
  rewrite String.eqb_refl, dtype_refl. reflexivity.
Qed.
Lemma write_first n t v post out :
  writeData n t v (TB ((n, t) :: post) (length ((n, t) :: post)) out) =
  Some (TB ((n, t) :: post) 1 (out ++ [Newline; Cell v])).
Proof.
  unfold writeData. cbn [tb_cols tb_at tb_out]. rewrite Nat.eqb_refl. cbn [nth_error].
  rewrite String.eqb_refl, dtype_refl, <- app_assoc. reflexivity.
Qed.
Lemma writeSeq_mid cs : forall pre post out, pre <> [] ->
  writeSeq cs (TB (pre ++ map fst cs ++ post) (length pre) out) =
  Some (TB (pre ++ map fst cs ++ post) (length pre + length cs) (out ++ map Cell (map snd cs))).
Proof.
  induction cs as [|[[n t] v] cs IH]; intros pre post out P.
  - cbn. rewrite Nat.add_0_r, app_nil_r. reflexivity.
  - cbn [map fst app writeSeq snd length].
    pose proof (write_mid n t v pre (map fst cs ++ post) out P) as W. rewrite W. cbn [bindT].
    specialize (IH (pre ++ [(n, t)]) post (out ++ [Cell v])).
    rewrite app_length in IH. cbn [length] in IH. rewrite <- !app_assoc in IH. cbn [app] in IH.
    replace (S (length pre)) with (length pre + 1) by lia. rewrite IH by (destruct pre; discriminate).
    f_equal. f_equal. lia.
Qed.
Lemma writeSeq_row c cs out :
  writeSeq (c :: cs) (TB (map fst (c :: cs)) (length (c :: cs)) out) =
  Some (TB (map fst (c :: cs)) (length (c :: cs)) (out ++ Newline :: map Cell (map snd (c :: cs)))).
Proof.
  destruct c as [[n t] v]. cbn [map fst writeSeq].
  pose proof (write_first n t v (map fst cs) out) as W. cbn [length] in W. rewrite map_length in W. cbn [length]. rewrite W. cbn [bindT].
  pose proof (writeSeq_mid cs [(n, t)] [] (out ++ [Newline; Cell v]) ltac:(discriminate)) as M.
  rewrite app_nil_r in M. cbn [length app] in M. rewrite M. cbn [Nat.add snd].
  rewrite <- app_assoc. reflexivity.
Qed.
(** the same row with a further column behind *)
Lemma writeSeq_short c cs x out :
  writeSeq (c :: cs) (TB (map fst (c :: cs) ++ [x]) (S (length (c :: cs))) out) =
  Some (TB (map fst (c :: cs) ++ [x]) (length (c :: cs)) (out ++ Newline :: map Cell (map snd (c :: cs)))).
Proof.
  destruct c as [[n t] v]. cbn [map fst writeSeq app].
  pose proof (write_first n t v (map fst cs ++ [x]) out) as W. cbn [length] in W. rewrite app_length, map_length in W. cbn [length] in W.
  cbn [length]. replace (S (length cs + 1)) with (S (S (length cs))) in W by lia. rewrite W. cbn [bindT].
  pose proof (writeSeq_mid cs [(n, t)] [x] (out ++ [Newline; Cell v]) ltac:(discriminate)) as M.
  cbn [length app] in M. rewrite M. cbn [Nat.add snd]. rewrite <- app_assoc. reflexivity.
Qed.

(** ** Watch integrals *)

Fixpoint icells (scaling : bool) (rs : list rank) (j : nat) (datas : list (string * nat)) : list cell :=
  match datas with
  | [] => []
  | (n, d) :: r => (n, dataType d, map (reducedIntegral scaling rs j d) (seq 0 d)) :: icells scaling rs (S j) r
  end.
Lemma writeIntegrals_seq scaling rs datas : forall j b, writeIntegrals scaling rs j datas b = writeSeq (icells scaling rs j datas) b.
Proof.
  induction datas as [|[n d] r IH]; intros j b; [reflexivity|]. cbn [writeIntegrals icells writeSeq].
  destruct (writeData n (dataType d) (map (reducedIntegral scaling rs j d) (seq 0 d)) b) as [b'|]; [apply IH|reflexivity].
Qed.
Definition areaCell (edges : bool) (rs : list rank) : list cell :=
  if edges then [("SurfaceArea"%string, DOUBLE, [reducedArea rs])] else [].
Lemma export_seq scaling edges datas rs t b : primary_edges edges rs ->
  exportIntegralData scaling datas rs t b =
  writeSeq (("Time"%string, DOUBLE, [t]) :: icells scaling rs 0 datas ++ areaCell edges rs) b.
Proof.
  intros P. unfold exportIntegralData. cbn [writeSeq].
  destruct (writeData "Time" DOUBLE [t] b) as [b1|]; cbn [bindT]; [|reflexivity].
  rewrite writeIntegrals_seq, writeSeq_app.
  destruct (writeSeq (icells scaling rs 0 datas) b1) as [b2|]; cbn [bindT]; [|reflexivity].
  destruct rs as [|r0 rs]; [destruct P|]. cbn [primary_edges] in P. rewrite P. unfold areaCell.
  destruct edges; cbn [writeSeq]; [|reflexivity].
  destruct (writeData "SurfaceArea" DOUBLE [reducedArea (r0 :: rs)] b2); reflexivity.
Qed.
Lemma icells_cols scaling rs datas : forall j, map fst (icells scaling rs j datas) = map (fun nd => (fst nd, dataType (snd nd))) datas.
Proof. induction datas as [|[n d] r IH]; intros j; [reflexivity|]. cbn [icells map fst snd]. rewrite IH. reflexivity. Qed.
Lemma icells_vals scaling rs datas : forall j, map snd (icells scaling rs j datas) = integral_cells scaling rs j datas.
Proof. induction datas as [|[n d] r IH]; intros j; [reflexivity|]. cbn [icells map fst snd integral_cells]. rewrite IH. reflexivity. Qed.
Lemma width_data d : 1 <= d <= 3 -> width (dataType d) = d.
Proof. intros H. assert (d = 1 \/ d = 2 \/ d = 3) as [-> | [-> | ->]] by lia; reflexivity. Qed.
Lemma integral_fits scaling edges datas e : valid_data datas -> fits (integral_cols edges datas) (integral_row scaling edges datas e).
Proof.
  intros H. unfold fits, integral_cols, integral_row. cbn [map length snd width]. f_equal. rewrite !map_app. f_equal; [|destruct edges; reflexivity].
  generalize 0. induction H as [|[n d] r Hd Hr IH]; intros j; [reflexivity|].
  cbn [integral_cells map snd fst length]. rewrite map_length, seq_length. cbn [snd] in Hd. rewrite width_data by exact Hd. f_equal. apply IH.
Qed.

Lemma fold_add (f : string * nat -> dtype) datas : forall b, tb_at b = length (tb_cols b) -> tb_out b = header (tb_cols b) ->
  fold_left (fun b nd => addData (fst nd) (f nd) b) datas b =
  let cols := tb_cols b ++ map (fun nd => (fst nd, f nd)) datas in TB cols (length cols) (header cols).
Proof.
  induction datas as [|nd r IH]; intros b A O; cbn [fold_left map].
  - cbv zeta. rewrite app_nil_r. destruct b as [cs a o]. cbn in *. subst. reflexivity.
  - rewrite IH.
    + cbv zeta. unfold addData. cbn [tb_cols]. rewrite <- app_assoc. reflexivity.
    + unfold addData. cbn [tb_cols tb_at]. rewrite app_length. cbn. lia.
    + unfold addData, header. cbn [tb_cols tb_out]. rewrite O, map_app. reflexivity.
Qed.
Definition settled (cols : list (string * dtype)) (out : list token) : table := TB cols (length cols) out.
Lemma add_settled n t cols out : addData n t (settled cols out) = settled (cols ++ [(n, t)]) (out ++ [Head n t]).
Proof. unfold addData, settled. cbn [tb_cols tb_out]. f_equal. rewrite app_length. cbn. lia. Qed.

Lemma init_table m datas : initIntegral m (newIntegral datas) = settled (integral_cols (hasEdges m) datas) (header (integral_cols (hasEdges m) datas)).
Proof.
  unfold newIntegral. rewrite (fold_add (fun nd => dataType (snd nd))) by reflexivity. cbv zeta.
  fold (settled (tb_cols (addData "Time" DOUBLE newTable) ++ map (fun nd => (fst nd, dataType (snd nd))) datas)
                (header (tb_cols (addData "Time" DOUBLE newTable) ++ map (fun nd => (fst nd, dataType (snd nd))) datas))).
  unfold initIntegral, integral_cols. destruct (hasEdges m).
  - rewrite add_settled. cbn [addData newTable tb_cols app]. unfold header. rewrite !map_cons, !map_app. cbn [map fst snd app]. reflexivity.
  - rewrite app_nil_r. reflexivity.
Qed.

Lemma export_settled scaling edges datas rs t out : primary_edges edges rs ->
  exportIntegralData scaling datas rs t (settled (integral_cols edges datas) out) =
  Some (settled (integral_cols edges datas) (out ++ lines [integral_row scaling edges datas (t, rs)])).
Proof.
  intros P. rewrite (export_seq _ edges) by exact P.
  set (cs := icells scaling rs 0 datas ++ areaCell edges rs).
  assert (C : integral_cols edges datas = map fst (("Time"%string, DOUBLE, [t]) :: cs)).
  { unfold cs, integral_cols, areaCell. cbn [map fst]. rewrite map_app, icells_cols. destruct edges; reflexivity. }
  rewrite C. unfold settled. rewrite map_length. rewrite writeSeq_row. f_equal. f_equal. f_equal.
  unfold lines, integral_row. cbn [flat_map map snd fst]. rewrite app_nil_r. f_equal. f_equal.
  unfold cs, areaCell. rewrite map_app, icells_vals. destruct edges; reflexivity.
Qed.
Lemma lines_app a b : lines (a ++ b) = lines a ++ lines b.
Proof. unfold lines. apply flat_map_app. Qed.
Lemma integral_file_settled scaling edges datas es : Forall (fun e => primary_edges edges (snd e)) es -> forall out,
  integral_file scaling datas es (settled (integral_cols edges datas) out) =
  Some (settled (integral_cols edges datas) (out ++ lines (map (integral_row scaling edges datas) es))).
Proof.
  induction 1 as [|[t rs] es He Hes IH]; intros out; cbn [integral_file map].
  - rewrite app_nil_r. reflexivity.
  - cbn [snd] in He. rewrite export_settled by exact He. cbn [bindT]. rewrite IH, <- app_assoc, <- lines_app. reflexivity.
Qed.

Theorem integral_table scaling datas m es : valid_data datas -> Forall (fun e => primary_edges (hasEdges m) (snd e)) es ->
  exists b, integral_file scaling datas es (initIntegral m (newIntegral datas)) = Some b /\
  well_formed (integral_cols (hasEdges m) datas) (map (integral_row scaling (hasEdges m) datas) es) (tb_out b).
Proof.
  intros Hd Hp. rewrite init_table, integral_file_settled by exact Hp. eexists; split; [reflexivity|].
  split; [reflexivity|]. apply Forall_map, Forall_forall. intros e _. apply integral_fits, Hd.
Qed.

(** initialising twice *)
Theorem integral_twice scaling datas m m' es b1 t rs t' rs' :
  hasEdges m = true -> hasEdges m' = true ->
  Forall (fun e => primary_edges true (snd e)) es ->
  integral_file scaling datas es (initIntegral m (newIntegral datas)) = Some b1 ->
  primary_edges true rs ->
  exists b2, exportIntegralData scaling datas rs t (initIntegral m' b1) = Some b2 /\
  exportIntegralData scaling datas rs' t' b2 = None.
Proof.
  intros Hm Hm' Hes. rewrite init_table, Hm, integral_file_settled by exact Hes.
  intros E Hp. injection E as <-. unfold initIntegral. rewrite Hm', add_settled.
  rewrite (export_seq _ true) by exact Hp.
  set (cs := icells scaling rs 0 datas ++ areaCell true rs).
  assert (C : integral_cols true datas = map fst (("Time"%string, DOUBLE, [t]) :: cs)).
  { unfold cs, integral_cols, areaCell. cbn [map fst]. rewrite map_app, icells_cols. reflexivity. }
  rewrite C. unfold settled. rewrite app_length, map_length. cbn [length].
  replace (S (length cs) + 1) with (S (S (length cs))) by lia.
  pose proof (writeSeq_short ("Time"%string, DOUBLE, [t]) cs ("SurfaceArea"%string, DOUBLE)) as W. cbn [length] in W.
  rewrite W. eexists; split; [reflexivity|].
  unfold exportIntegralData.
  assert (X : forall out, writeData "Time" DOUBLE [t']
     (TB (map fst (("Time"%string, DOUBLE, [t]) :: cs) ++ [("SurfaceArea"%string, DOUBLE)]) (S (length cs)) out) = None).
  { intros out. unfold writeData. cbn [tb_cols tb_at tb_out map fst app].
    replace (S (length cs) =? length (("Time"%string, DOUBLE) :: map fst cs ++ [("SurfaceArea"%string, DOUBLE)])) with false
      by (symmetry; apply Nat.eqb_neq; cbn [length]; rewrite app_length, map_length; cbn; lia).
    cbn [nth_error]. rewrite nth_error_app2 by (rewrite map_length; lia). rewrite map_length, Nat.sub_diag. reflexivity. }
  rewrite X. reflexivity.
Qed.

(** ** Watch points *)

Fixpoint pcells (dim : nat) (p : list (nat * Q)) (vs : list (list Q)) (datas : list (string * nat)) : list cell :=
  match datas, vs with
  | (n, d) :: r, v :: vr =>
      (n, if 1 <? d then vectorType dim else DOUBLE,
       if 1 <? d then map (weighted p dim v) (seq 0 dim) else [weighted p 1 v 0]) :: pcells dim p vr r
  | _, _ => []
  end.
Lemma writePoint_seq dim p : forall datas vs b, length vs = length datas ->
  writePointData dim p vs datas b = writeSeq (pcells dim p vs datas) b.
Proof.
  induction datas as [|[n d] r IH]; intros [|v vs] b H; try discriminate; [reflexivity|].
  cbn [writePointData pcells writeSeq]. injection H as H.
  destruct (1 <? d).
  - destruct (writeData n (vectorType dim) (map (weighted p dim v) (seq 0 dim)) b) as [b'|]; [apply IH; exact H|reflexivity].
  - destruct (writeData n DOUBLE [weighted p 1 v 0] b) as [b'|]; [apply IH; exact H|reflexivity].
Qed.
Lemma pcells_cols dim p : forall datas vs, length vs = length datas ->
  map fst (pcells dim p vs datas) = map (fun nd => (fst nd, if 1 <? snd nd then vectorType dim else DOUBLE)) datas.
Proof.
  induction datas as [|[n d] r IH]; intros [|v vs] H; try discriminate; [reflexivity|].
  cbn [pcells map fst snd]. injection H as H. rewrite IH by exact H. reflexivity.
Qed.
Lemma pcells_vals dim p : forall datas vs, map snd (pcells dim p vs datas) = point_cells dim p vs datas.
Proof.
  induction datas as [|[n d] r IH]; intros [|v vs]; try reflexivity.
  cbn [pcells map fst snd point_cells]. rewrite IH. reflexivity.
Qed.
Lemma width_vec dim : dim = 2 \/ dim = 3 -> width (vectorType dim) = dim.
Proof. intros [-> | ->]; reflexivity. Qed.
Lemma point_fits dim p datas e : dim = 2 \/ dim = 3 -> length (snd (snd e)) = length datas ->
  fits (point_cols dim datas) (point_row dim p datas e).
Proof.
  intros Hd Hl. unfold fits, point_cols, point_row. cbn [map length snd width]. f_equal.
  rewrite map_length, seq_length, width_vec by exact Hd. f_equal.
  destruct e as [t [m vs]]. cbn [fst snd] in *. clear m t. revert vs Hl. induction datas as [|[n d] r IH]; intros [|v vs] Hl; try discriminate; [reflexivity|].
  cbn [point_cells map snd fst]. injection Hl as Hl. rewrite IH by exact Hl. f_equal.
  destruct (1 <? d); [rewrite map_length, seq_length, width_vec by exact Hd; reflexivity|reflexivity].
Qed.

Lemma point_settled dim datas w p r t out :
  w_closest w = true -> w_pol w = Some p -> rm_dim (fst r) = dim ->
  Forall (fun e => fst e < rm_n (fst r)) p -> length (snd r) = length datas ->
  exportPointData datas r w t (settled (point_cols dim datas) out) =
  Some (settled (point_cols dim datas) (out ++ lines [point_row dim p datas (t, r)])).
Proof.
  intros Hc Hp Hd Hv Hl. unfold exportPointData. rewrite Hc, Hp, Hd.
  replace (forallb (fun e => fst e <? rm_n (fst r)) p) with true.
  2:{ symmetry. apply forallb_forall. intros e He. rewrite Forall_forall in Hv. apply Nat.ltb_lt, Hv, He. }
  set (co := map (weighted p dim (rm_coords (fst r))) (seq 0 dim)).
  set (cs := ("Coordinate"%string, vectorType dim, co) :: pcells dim p (snd r) datas).
  assert (C : point_cols dim datas = map fst (("Time"%string, DOUBLE, [t]) :: cs)).
  { unfold cs, point_cols. cbn [map fst]. rewrite pcells_cols by exact Hl. reflexivity. }
  assert (W : forall b, bindT (writeData "Time" DOUBLE [t] b) (fun b1 =>
          bindT (writeData "Coordinate" (vectorType dim) co b1) (writePointData dim p (snd r) datas)) =
          writeSeq (("Time"%string, DOUBLE, [t]) :: cs) b).
  { intros b. unfold cs. cbn [writeSeq]. destruct (writeData "Time" DOUBLE [t] b) as [b1|]; [|reflexivity]. cbn [bindT].
    destruct (writeData "Coordinate" (vectorType dim) co b1) as [b2|]; [|reflexivity]. cbn [bindT]. apply writePoint_seq, Hl. }
  rewrite W, C. unfold settled. rewrite map_length, writeSeq_row. f_equal. f_equal. f_equal.
  unfold lines, point_row. cbn [flat_map map snd fst]. rewrite app_nil_r. f_equal. f_equal. unfold cs. cbn [map snd]. rewrite pcells_vals. reflexivity.
Qed.

Lemma new_point dim datas : newPoint dim datas = settled (point_cols dim datas) (header (point_cols dim datas)).
Proof. unfold newPoint. rewrite (fold_add (fun nd => if 1 <? snd nd then vectorType dim else DOUBLE)) by reflexivity. reflexivity. Qed.

Theorem point_table dim datas w p es : dim = 2 \/ dim = 3 ->
  w_closest w = true -> w_pol w = Some p ->
  Forall (fun e => rm_dim (fst (snd e)) = dim /\ Forall (fun v => fst v < rm_n (fst (snd e))) p /\
                   length (snd (snd e)) = length datas) es ->
  exists b, point_file datas w es (newPoint dim datas) = Some b /\
  well_formed (point_cols dim datas) (map (point_row dim p datas) es) (tb_out b).
Proof.
  intros Hd Hc Hp Hes. rewrite new_point.
  assert (G : forall out, point_file datas w es (settled (point_cols dim datas) out) =
     Some (settled (point_cols dim datas) (out ++ lines (map (point_row dim p datas) es)))).
  { induction Hes as [|[t r] es (He1 & He2 & He3) Hes IH]; intros out; cbn [point_file map].
    - rewrite app_nil_r. reflexivity.
    - cbn [fst snd] in *. rewrite (point_settled dim datas w p) by assumption. cbn [bindT].
      rewrite IH, <- app_assoc, <- lines_app. reflexivity. }
  rewrite G. eexists; split; [reflexivity|]. split; [reflexivity|].
  apply Forall_map. eapply Forall_impl; [|exact Hes]. intros e (_ & _ & H). apply point_fits; assumption.
Qed.

(** ** Which rank writes *)

Definition le_dist (a b : option Q) : Prop :=
  match a, b with
  | Some x, Some y => (x <= y)%Q
  | _, None => True
  | None, Some _ => False
  end.
Lemma le_dist_refl a : le_dist a a.
Proof. destruct a; cbn; [apply Qle_refl|exact I]. Qed.
Lemma le_dist_trans a b c : le_dist a b -> le_dist b c -> le_dist a c.
Proof. destruct a, b, c; cbn; try tauto. apply Qle_trans. Qed.
Lemma less_le a b : lessDist a b = true -> le_dist a b.
Proof.
  destruct a, b; cbn; try tauto; try discriminate. intros H. apply negb_true_iff in H.
  apply Qlt_le_weak, Qnot_le_lt. intros X. apply Qle_bool_iff in X. congruence.
Qed.
Lemma not_less_le a b : lessDist a b = false -> le_dist b a.
Proof. destruct a, b; cbn; try tauto; try discriminate. intros H. apply negb_false_iff in H. apply Qle_bool_iff, H. Qed.

(** [all]: the distances of all ranks; [at_] the best rank below [k] *)
Lemma closest_spec : forall ds pre best a, length pre >= 1 -> nth_error pre a = Some best ->
  (forall d, In d pre -> le_dist best d) ->
  exists d, nth_error (pre ++ ds) (closestRank best a (length pre) ds) = Some d /\
  (forall d', In d' (pre ++ ds) -> le_dist d d').
Proof.
  induction ds as [|d ds IH]; intros pre best a Hl Ha Hm; cbn [closestRank].
  - rewrite app_nil_r. exists best. auto.
  - assert (L : S (length pre) = length (pre ++ [d])) by (rewrite app_length; cbn; lia).
    destruct (lessDist d best) eqn:E; rewrite L.
    + replace (pre ++ d :: ds) with ((pre ++ [d]) ++ ds) by (rewrite <- app_assoc; reflexivity).
      apply IH; [lia|rewrite nth_error_app2, Nat.sub_diag by lia; reflexivity|].
      intros d' H. apply in_app_iff in H as [H|[->|[]]]; [|apply le_dist_refl].
      eapply le_dist_trans; [apply less_le, E|apply Hm, H].
    + replace (pre ++ d :: ds) with ((pre ++ [d]) ++ ds) by (rewrite <- app_assoc; reflexivity).
      apply IH; [lia|rewrite nth_error_app1 by (apply nth_error_Some; congruence); exact Ha|].
      intros d' H. apply in_app_iff in H as [H|[<-|[]]]; [apply Hm, H|apply not_less_le, E].
Qed.

Notation found := (option (Q * list (nat * Q))).
Definition first_search (f : found) : wrank := searchLocal f newRank.

Lemma combine_repeat (fs : list found) : map (fun fw => searchLocal (fst fw) (snd fw)) (combine fs (repeat newRank (length fs))) = map first_search fs.
Proof. induction fs as [|f fs IH]; [reflexivity|]. cbn [length repeat combine map fst snd]. rewrite IH. reflexivity. Qed.

Lemma mark_nth k : forall ls a i, nth_error (map (fun iw => WR (w_dist (snd iw)) (w_pol (snd iw)) (fst iw =? k)) (combine (seq a (length ls)) ls)) i =
  option_map (fun w => WR (w_dist w) (w_pol w) (a + i =? k)) (nth_error ls i).
Proof.
  induction ls as [|w ls IH]; intros a i; [destruct i; reflexivity|].
  cbn [length seq combine map]. destruct i as [|i]; cbn [nth_error option_map fst snd].
  - rewrite Nat.add_0_r. reflexivity.
  - rewrite IH. replace (S a + i) with (a + S i) by lia. reflexivity.
Qed.

Theorem one_writer (fs : list found) : (exists f, In f fs /\ f <> None) ->
  let ws := initPoint fs (repeat newRank (length fs)) in
  exists k d p, nth_error fs k = Some (Some (d, p)) /\
  (forall i w, nth_error ws i = Some w -> w_closest w = (i =? k)) /\
  (exists w, nth_error ws k = Some w /\ w_pol w = Some p) /\
  (forall i d' p', nth_error fs i = Some (Some (d', p')) -> (d <= d')%Q).
Proof.
  intros (f0 & Hf & Hn). cbv zeta. unfold initPoint. rewrite combine_repeat.
  destruct fs as [|f [|f1 fs]]; [destruct Hf| |].
  - cbn [map]. destruct Hf as [-> | []]. destruct f0 as [[d p]|]; [|congruence].
    exists 0, d, p. split; [reflexivity|]. split; [|split].
    + intros [|[|i]] w H; cbn in H; try discriminate. injection H as <-. reflexivity.
    + eexists; split; reflexivity.
    + intros [|[|i]] d' p' H; cbn in H; try discriminate. injection H as <- _. apply Qle_refl.
  - cbn [map].
    set (ls := first_search f :: first_search f1 :: map first_search fs).
    change (map w_dist (first_search f1 :: map first_search fs)) with (map w_dist (tl ls)).
    set (k := closestRank (w_dist (first_search f)) 0 1 (map w_dist (tl ls))).
    destruct (closest_spec (map w_dist (tl ls)) [w_dist (first_search f)] (w_dist (first_search f)) 0) as (d & Hd & Hmin);
      [cbn; lia|reflexivity|intros d [<-|[]]; apply le_dist_refl|].
    change (length [w_dist (first_search f)]) with 1 in Hd. fold k in Hd.
    assert (Ls : ls = map first_search (f :: f1 :: fs)) by reflexivity.
    assert (Al : [w_dist (first_search f)] ++ map w_dist (tl ls) = map w_dist ls) by reflexivity.
    rewrite Al in Hd, Hmin. rewrite Ls, map_map in Hd, Hmin.
    rewrite nth_error_map in Hd. destruct (nth_error (f :: f1 :: fs) k) as [fk|] eqn:Ek; [|discriminate].
    injection Hd as Hd.
    assert (Hk : exists d0 p, fk = Some (d0, p) /\ d = Some d0).
    { destruct fk as [[d0 p]|]; [exists d0, p; split; [reflexivity|]; rewrite <- Hd; reflexivity|].
      exfalso. cbn in Hd. subst d. destruct f0 as [[d0 p0]|]; [|congruence].
      apply (Hmin (Some d0)). apply in_map_iff. exists (Some (d0, p0)). split; [reflexivity|exact Hf]. }
    destruct Hk as (d0 & p & -> & ->). exists k, d0, p. split; [exact Ek|]. split; [|split].
    + intros i w H. rewrite mark_nth in H. destruct (nth_error ls i) as [w0|]; [|discriminate]. injection H as <-. reflexivity.
    + rewrite mark_nth, Ls, nth_error_map, Ek. eexists; split; reflexivity.
    + intros i d' p' H. apply nth_error_In in H.
      assert (X : le_dist (Some d0) (Some d')); [|exact X].
      apply Hmin. apply in_map_iff. exists (Some (d', p')). split; [reflexivity|exact H].
Qed.

Theorem nobody (n : nat) r datas t b : 1 <= n ->
  let ws := initPoint (repeat None n) (repeat newRank n) in
  exists w, nth_error ws 0 = Some w /\ exportPointData datas r w t b = None.
Proof.
  intros Hn. cbv zeta. unfold initPoint. pose proof (combine_repeat (repeat None n)) as E. rewrite repeat_length in E. rewrite E. clear E.
  destruct n as [|[|n]]; [lia| |].
  - eexists; split; reflexivity.
  - assert (K : forall n a, closestRank None 0 a (map w_dist (map first_search (repeat None n))) = 0).
    { clear. induction n as [|n IH]; intros a; [reflexivity|]. cbn [repeat map closestRank first_search searchLocal newRank w_dist lessDist]. apply IH. }
    specialize (K (S n) 1). cbn [repeat map]. cbn [repeat map] in K.
    change (w_dist (first_search None)) with (@None Q) at 1. rewrite K. eexists; split; reflexivity.
Qed.
