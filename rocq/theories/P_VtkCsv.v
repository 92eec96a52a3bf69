(** The CSV files. *)
From Coq Require Import String Ascii Bool Arith List Lia.
From Verif Require Import M_Vtk S_Vtk P_Vtk P_VtkXml.
Import ListNotations.
Open Scope list_scope.

Section Csv.
Context {V : Type}.
Variables (zero : V) (ofNat : nat -> V) (rd : nat -> V -> V).
Notation item := (@item V).
Notation numbers := (numbers zero ofNat rd).

Definition isMark (i : item) : bool := match i with Semi | Nl => true | _ => false end.
Definition semis (l : list item) : list item := flat_map (fun a => [Semi; a]) l.
Definition lineOf (l : list item) : list item := match l with [] => [] | a :: r => a :: semis r end.

Lemma cellsOf_line : forall l, l <> [] -> Forall (fun i => isMark i = false) l -> cellsOf (lineOf l) = Some l.
Proof.
  intros [|a r] H F; [congruence|]. clear H. revert a F. induction r as [|b r IH]; intros a F; inversion F as [|? ? A F']; subst.
  - destruct a; cbn in *; congruence.
  - cbn [lineOf semis flat_map app]. cbn [lineOf] in IH. specialize (IH b F'). unfold semis in IH.
    assert (E : cellsOf (a :: Semi :: b :: flat_map (fun a => [Semi; a]) r) = option_map (cons a) (cellsOf (b :: flat_map (fun a => [Semi; a]) r))).
    { destruct a; cbn [isMark] in A; try discriminate; reflexivity. }
    rewrite E, IH. reflexivity.
Qed.
Lemma semis_app : forall a b, semis (a ++ b) = semis a ++ semis b.
Proof. intros. unfold semis. apply flat_map_app. Qed.
Lemma semis_marks : forall l, Forall (fun i => isMark i = false) l -> forallb (fun i => match i with Nl => false | _ => true end) (semis l) = true.
Proof. induction 1 as [|a l A F IH]; [reflexivity|]. cbn. destruct a; cbn in *; try discriminate; exact IH. Qed.
Lemma lineOf_marks : forall l, Forall (fun i => isMark i = false) l -> forallb (fun i => match i with Nl => false | _ => true end) (lineOf l) = true.
Proof. intros l F. destruct F as [|a l A F]; [reflexivity|]. cbn [lineOf forallb]. rewrite (semis_marks l F). destruct a; cbn in *; congruence. Qed.

Lemma lines_one : forall body cur rest, forallb (fun i : item => match i with Nl => false | _ => true end) body = true ->
  lines cur (body ++ Nl :: rest) = option_map (cons (rev cur ++ body)) (lines [] rest).
Proof.
  induction body as [|a body IH]; intros cur rest F.
  - cbn. rewrite app_nil_r. reflexivity.
  - cbn [forallb] in F. apply andb_true_iff in F. destruct F as (A & F).
    assert (E : lines cur ((a :: body) ++ Nl :: rest) = lines (a :: cur) (body ++ Nl :: rest)) by (destruct a; try discriminate; reflexivity).
    rewrite E, IH by exact F. cbn [rev]. rewrite <- app_assoc. reflexivity.
Qed.
Lemma lines_all : forall bodies, Forall (fun b => forallb (fun i : item => match i with Nl => false | _ => true end) b = true) bodies ->
  lines [] (flat_map (fun b => b ++ [Nl]) bodies) = Some bodies.
Proof.
  induction 1 as [|b l B F IH]; [reflexivity|]. cbn [flat_map]. rewrite <- app_assoc. cbn [app]. rewrite (lines_one b [] _ B), IH. reflexivity.
Qed.

Definition rowCells (rank : nat) (m : mesh (V:=V)) (i : nat) : list item :=
  map (Num streamDigits) (nth i (m_vertices m) []) ++ [Int rank] ++
  flat_map (fun ds : data * sample => map (Num streamDigits) (valueAt zero (d_dims (fst ds)) (sp_values (snd ds)) i)) (filled m).

Lemma header_line : forall m, wfMesh m -> csvHeader m = lineOf (map (Wd (V:=V)) (columnNames m)) ++ [Nl].
Proof.
  intros m (D & _ & _ & _ & _ & W). unfold csvHeader, columnNames.
  assert (X : flat_map (fun d => match d_last d with
       | None => []
       | Some _ => if d_dims d =? 2 then [Semi; Wd (V:=V) (d_name d ++ "X"); Semi; Wd (d_name d ++ "Y")]
                   else if d_dims d =? 3 then [Semi; Wd (d_name d ++ "X"); Semi; Wd (d_name d ++ "Y"); Semi; Wd (d_name d ++ "Z")]
                   else [Semi; Wd (d_name d)] end) (m_data m) =
     semis (map (Wd (V:=V)) (flat_map (fun ds : data * sample =>
        if d_dims (fst ds) =? 1 then [d_name (fst ds)]
        else map (fun x => (d_name (fst ds) ++ x)%string) (firstn (d_dims (fst ds)) ["X"; "Y"; "Z"]%string)) (filled m)))).
  { unfold filled. induction W as [|d l (DD & _) F IH]; [reflexivity|]. cbn [flat_map]. rewrite IH. rewrite !flat_map_app, map_app, semis_app. f_equal.
    destruct (d_last d) as [s|]; [|reflexivity]. cbn [flat_map fst app]. rewrite app_nil_r.
    assert (DD' : d_dims d = 1 \/ d_dims d = 2 \/ d_dims d = 3) by lia. destruct DD' as [-> |[-> | ->]]; reflexivity. }
  rewrite X. destruct D as [-> | ->]; cbn [Nat.eqb firstn app map lineOf]; unfold semis at 2; cbn [flat_map app]; reflexivity.
Qed.

Lemma row_line : forall rank m i, wfMesh m -> i < nVertices m -> csvRow m rank i = Some (lineOf (rowCells rank m i) ++ [Nl]).
Proof.
  intros rank m i (D & FV & _ & _ & _ & W) I. unfold csvRow, rowCells. unfold nVertices in *. rewrite (nth_error_nth' _ (m_vertices m) i []) by exact I.
  rewrite Forall_forall in FV. assert (LP := FV (nth i (m_vertices m) []) (nth_In _ _ I)).
  assert (C : concatOk (map (fun c : list V * nat * nat => let '(values, start, stride) := c in
          option_map (fun v => [Semi; Num streamDigits v]) (nth_error values (start + i * stride))) (csvColumns m)) =
     Some (semis (flat_map (fun ds : data * sample => map (Num streamDigits) (valueAt zero (d_dims (fst ds)) (sp_values (snd ds)) i)) (filled m)))).
  { rewrite (concatOk_map _ _ _ (fun c : list V * nat * nat => let '(values, start, stride) := c in [Semi; Num streamDigits (nth (start + i * stride) values zero)])).
    - f_equal. unfold csvColumns, filled. clear. induction (m_data m) as [|d l IH]; [reflexivity|]. cbn [flat_map]. rewrite !flat_map_app, semis_app, IH. f_equal.
      destruct (d_last d) as [s|]; [|reflexivity]. cbn [flat_map fst snd]. rewrite app_nil_r. unfold semis, valueAt.
      rewrite !flat_map_concat_map, !map_map. f_equal. apply map_ext. intros c. replace (i * d_dims d + c) with (c + i * d_dims d) by lia. reflexivity.
    - intros ((values, start), stride) X. unfold csvColumns in X. apply in_flat_map in X. destruct X as (d & Xd & X).
      rewrite Forall_forall in W. destruct (W d Xd) as (DD & WS). destruct (d_last d) as [s|] eqn:LS; [|destruct X].
      destruct (WS s eq_refl) as (LV & _). apply in_map_iff in X. destruct X as (c & E & Cc). injection E as <- <- <-. apply in_seq in Cc.
      rewrite (nth_error_nth' _ (sp_values s) _ zero) by nia. reflexivity. }
  rewrite C. clear C. set (p := nth i (m_vertices m) []) in *.
  set (r := flat_map (fun ds : data * sample => map (Num streamDigits) (valueAt zero (d_dims (fst ds)) (sp_values (snd ds)) i)) (filled m)).
  destruct D as [D|D]; rewrite D in *; cbn [Nat.eqb].
  - destruct p as [|x [|y [|z p]]]; cbn in LP; try lia. reflexivity.
  - destruct p as [|x [|y [|z [|u p]]]]; cbn in LP; try lia. reflexivity.
Qed.

Lemma rowCells_marks : forall rank m i, Forall (fun a => isMark a = false) (rowCells rank m i).
Proof.
  intros. unfold rowCells. apply Forall_app. split; [apply Forall_forall; intros x X; apply in_map_iff in X; destruct X as (v & <- & _); reflexivity|].
  constructor; [reflexivity|]. apply Forall_forall. intros x X. apply in_flat_map in X. destruct X as (ds & _ & X). apply in_map_iff in X. destruct X as (v & <- & _). reflexivity.
Qed.
Lemma rowCells_numbers : forall rank m i, numbers (rowCells rank m i) = Some (rowOf zero ofNat rd streamDigits rank m i).
Proof.
  intros. unfold rowCells, rowOf. apply numbers_app; [apply numbers_nums|]. apply numbers_app; [reflexivity|].
  rewrite flat_map_concat_map with (l := filled m) (f := fun ds : data * sample => map (rd streamDigits) _). apply numbers_flat. intros. apply numbers_nums.
Qed.
Lemma row_length : forall digits rank m i, wfMesh m -> i < nVertices m ->
  List.length (rowOf zero ofNat rd digits rank m i) = List.length (columnNames m).
Proof.
  intros digits rank m i (D & FV & _ & _ & _ & W) I. unfold rowOf, columnNames. rewrite !app_length, map_length. unfold nVertices in I.
  rewrite Forall_forall in FV. rewrite (FV (nth i (m_vertices m) []) (nth_In _ _ I)). rewrite firstn_length_le by (cbn; lia). f_equal. f_equal.
  unfold filled. clear - W D. induction W as [|d l (DD & _) F IH]; [reflexivity|]. cbn [flat_map]. rewrite !flat_map_app, !app_length, IH. f_equal.
  destruct (d_last d); [|reflexivity]. cbn [flat_map fst snd]. rewrite !app_nil_r, map_length, valueAt_length.
  assert (DD' : d_dims d = 1 \/ d_dims d = 2 \/ d_dims d = 3) by lia. destruct DD' as [-> |[-> | ->]]; reflexivity.
Qed.
Lemma names_cells : forall m, namesAre isCell m -> Forall (fun s => isCell s = true) (columnNames (V:=V) m).
Proof.
  intros m N. unfold columnNames. apply Forall_app. split.
  - apply Forall_forall. intros s S. assert (X : In s ["PosX"; "PosY"; "PosZ"]%string) by (revert S; generalize (m_dim m); intros k S; rewrite <- (firstn_skipn k); apply in_or_app; auto).
    repeat (destruct X as [<-|X]; [reflexivity|]). destruct X.
  - constructor; [reflexivity|]. apply Forall_forall. intros s S. apply in_flat_map in S. destruct S as ((d, sm) & X & S). unfold filled in X.
    apply in_flat_map in X. destruct X as (d' & X & Y). assert (d' = d) by (destruct (d_last d'); [destruct Y as [Y|[]]; congruence|destruct Y]). subst d'.
    unfold namesAre in N. rewrite Forall_forall in N. specialize (N d X). cbn [fst] in S. destruct (d_dims d =? 1).
    + destruct S as [<-|[]]. exact N.
    + apply in_map_iff in S. destruct S as (x & <- & S). apply isCell_app; [exact N|].
      assert (Z : In x ["X"; "Y"; "Z"]%string) by (rewrite <- (firstn_skipn (d_dims d)); apply in_or_app; auto).
      repeat (destruct Z as [<-|Z]; [reflexivity|]). destruct Z.
Qed.

Lemma read_csv : forall m rank, wfMesh m -> namesAre isCell m ->
  exists file, csvFile rank m = Some file /\
    readCSV zero ofNat rd file = Some (columnNames m, map (rowOf zero ofNat rd streamDigits rank m) (seq 0 (nVertices m))).
Proof.
  intros m rank W N. unfold csvFile.
  rewrite (concatOk_map _ _ _ (fun i => lineOf (rowCells rank m i) ++ [Nl])) by (intros i I; apply in_seq in I; apply row_line; [exact W|lia]).
  cbn [option_map]. eexists. split; [reflexivity|]. rewrite (header_line m W).
  set (h := map (Wd (V:=V)) (columnNames m)).
  assert (HN : h <> []) by (unfold h, columnNames; destruct W as ([-> | ->] & _); discriminate).
  assert (HM : Forall (fun a => isMark a = false) h) by (apply Forall_forall; intros x X; apply in_map_iff in X; destruct X as (y & <- & _); reflexivity).
  assert (RN : forall i, rowCells rank m i <> []).
  { intros i E. unfold rowCells in E. apply app_eq_nil in E. destruct E as (_ & E). discriminate. }
  replace ((lineOf h ++ [Nl]) ++ flat_map (fun i => lineOf (rowCells rank m i) ++ [Nl]) (seq 0 (nVertices m)))
    with (flat_map (fun b => b ++ [Nl]) (lineOf h :: map (fun i => lineOf (rowCells rank m i)) (seq 0 (nVertices m)))).
  2:{ cbn [flat_map]. rewrite flat_map_concat_map, map_map, <- flat_map_concat_map. reflexivity. }
  unfold readCSV. rewrite lines_all.
  2:{ constructor; [apply lineOf_marks, HM|]. apply Forall_forall. intros b B. apply in_map_iff in B. destruct B as (i & <- & _). apply lineOf_marks, rowCells_marks. }
  cbn [bind]. rewrite (cellsOf_line h HN HM). cbn [bind].
  assert (TX : allOk (map (text (V:=V)) h) = Some (columnNames m)).
  { unfold h. rewrite map_map. rewrite (allOk_map _ _ _ (fun x => x)); [rewrite map_id; reflexivity|]. intros s S.
    assert (F := names_cells m N). rewrite Forall_forall in F. specialize (F s S). cbn. rewrite F. reflexivity. }
  rewrite TX. cbn [bind]. rewrite map_map.
  rewrite (allOk_map _ _ _ (rowOf zero ofNat rd streamDigits rank m)).
  2:{ intros i _. rewrite cellsOf_line by (auto using rowCells_marks). cbn [bind]. apply rowCells_numbers. }
  cbn [bind].
  assert (FB : forallb (fun r => List.length r =? List.length (columnNames m)) (map (rowOf zero ofNat rd streamDigits rank m) (seq 0 (nVertices m))) = true).
  { apply forallb_forall. intros r R. apply in_map_iff in R. destruct R as (i & <- & I). apply in_seq in I. apply Nat.eqb_eq, row_length; [exact W|lia]. }
  rewrite FB. reflexivity.
Qed.
End Csv.
