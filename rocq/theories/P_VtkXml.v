(** Reading the XML files of the exporters. *)
From Coq Require Import String Ascii Bool Arith List Lia.
From Verif Require Import M_Vtk S_Vtk P_Vtk.
Import ListNotations.
Open Scope list_scope.

Section Xml.
Context {V : Type}.
Variables (zero : V) (ofNat : nat -> V) (rd : nat -> V -> V).
Hypothesis rd_zero : forall p, rd p zero = zero.
Notation item := (@item V).
Notation node := (@node V).
Notation numbers := (numbers zero ofNat rd).
Notation table := (table zero ofNat rd).

(** ** Lists of arrays *)
Notation qa := (string * string * nat * list item)%type.
Definition q_name (q : qa) : string := snd (fst (fst q)).
Definition q_comp (q : qa) : nat := snd (fst q).
Definition q_write (q : qa) : list item := let '(ty, nm, c, b) := q in dataArray ty nm c b.
Definition q_node (q : qa) : node := let '(ty, nm, c, b) := q in arrayNode ty nm c (Sp :: b ++ [Nl]).
Definition wordsOf (b : list item) : list item := match words b with Some w => w | None => [] end.
Definition q_ok (q : qa) : Prop :=
  isValue (q_name q) = true /\ forallb (fun i => negb (isTag i)) (snd q) = true /\ exists w, yields (snd q) w.
Definition q_read (q : qa) : string * nat * list item := (q_name q, q_comp q, wordsOf (snd q)).

Lemma wordsOf_yields : forall b w, yields b w -> wordsOf b = w.
Proof. intros b w H. unfold wordsOf. rewrite (yields_words _ _ H). reflexivity. Qed.
Lemma grows_all : forall L, Forall q_ok L -> grows (flat_map q_write L) (map q_node L).
Proof.
  intros L F. rewrite <- flat_map_single. apply grows_flat. intros q Q. rewrite Forall_forall in F. destruct (F q Q) as (_ & T & _).
  destruct q as [[[ty nm] c] b]. apply grows_dataArray. exact T.
Qed.
Lemma kids_all : forall L, kids "DataArray" (map q_node L) = map (fun q : qa => let '(ty, nm, c, b) := q in (arrayTag ty nm c, map Tx (Sp :: b ++ [Nl]))) L.
Proof. induction L as [|[[[ty nm] c] b] L IH]; [reflexivity|]. unfold kids in *. cbn [map flat_map]. rewrite IH. reflexivity. Qed.
Lemma arrays_all : forall L, Forall q_ok L -> arrays (map q_node L) = Some (map q_read L).
Proof.
  intros L F. unfold arrays. rewrite kids_all, map_map. apply allOk_map. intros q Q. rewrite Forall_forall in F.
  destruct (F q Q) as (N & _ & w & Y). destruct q as [[[ty nm] c] b]. cbn [q_name q_comp fst snd] in *.
  rewrite (array_read ty nm c b w N Y). unfold q_read. cbn [q_name q_comp fst snd]. rewrite (wordsOf_yields _ _ Y). reflexivity.
Qed.
Lemma kid_array : forall L, match L with [] => True | q :: r => kid "DataArray" (map q_node L) = Some (arrayTag (fst (fst (fst q))) (q_name q) (q_comp q), map Tx (Sp :: snd q ++ [Nl])) end.
Proof. destruct L as [|[[[ty nm] c] b] L]; [exact I|]. reflexivity. Qed.

(** a table of rows written as blocks *)
Lemma table_rows : forall ty nm c n b w (g : nat -> list V),
  yields b w -> numbers w = Some (List.concat (map g (seq 0 n))) -> (forall i, i < n -> List.length (g i) = c) ->
  table n (q_read (ty, nm, c, b)) = Some (nm, map g (seq 0 n)).
Proof.
  intros ty nm c n b w g Y N L. unfold q_read, S_Vtk.table. cbn [q_name q_comp fst snd]. rewrite (wordsOf_yields _ _ Y), N.
  cbn [bind]. rewrite (rows_seq _ g n c L). reflexivity.
Qed.

Lemma notag_flat : forall A (f : A -> list item) l, (forall x, In x l -> forallb (fun i => negb (isTag i)) (f x) = true) ->
  forallb (fun i => negb (isTag i)) (flat_map f l) = true.
Proof.
  induction l as [|a l IH]; intros H; [reflexivity|]. cbn [flat_map]. rewrite forallb_app, (H a) by (left; auto).
  apply IH. intros x X. apply H. right; auto.
Qed.
Lemma notag_nums : forall p (l : list V), forallb (fun i : item => negb (isTag i)) (flat_map (fun v => [Num p v; Sp]) l) = true.
Proof. intros p l. apply notag_flat. reflexivity. Qed.

(** ** Values and gradients *)
Notation pad3 := (pad3 zero).
Lemma pad_row : forall p (l : list V), List.length l = 2 \/ List.length l = 3 ->
  numbers (map (Num p) l ++ (if List.length l <? 3 then [Wd "0.0"] else [])) = Some (pad3 (map (rd p) l)).
Proof.
  intros p l L. unfold S_Vtk.pad3. rewrite map_length. apply numbers_app; [apply numbers_nums|].
  destruct L as [-> | ->]; reflexivity.
Qed.
Lemma valueAt_length : forall dims (vs : list V) i, List.length (valueAt zero dims vs i) = dims.
Proof. intros. unfold valueAt. rewrite map_length, seq_length. reflexivity. Qed.
Lemma derivatives_length : forall dim dims (f : list V) k i, List.length (derivatives zero dim dims f k i) = dims.
Proof. intros. unfold derivatives. rewrite map_length, seq_length. reflexivity. Qed.
Lemma gradientOf_length : forall dim (f : list V) i, List.length (gradientOf zero dim f i) = dim.
Proof. intros. unfold gradientOf. rewrite map_length, seq_length. reflexivity. Qed.

(** a column of the matrix of gradients *)
Lemma column_vector : forall dim n (g : list (list V)) i k, List.length g = n * dim -> Forall (fun c => List.length c = dim) g ->
  i < n -> k < dim -> nth (k + i * dim) g [] = derivatives zero dim dim (List.concat g) k i.
Proof.
  intros dim n g i k L F I K. assert (LC : List.length (nth (k + i * dim) g []) = dim).
  { rewrite Forall_forall in F. apply F, nth_In. nia. }
  rewrite (list_as_map _ (nth (k + i * dim) g []) zero), LC. unfold derivatives. apply map_ext_in. intros j J. apply in_seq in J.
  unfold derivative. rewrite <- (nth_concat _ g dim (k + i * dim) j zero F) by lia. f_equal. nia.
Qed.
Lemma column_scalar : forall dim n (g : list (list V)) i, List.length g = n -> Forall (fun c => List.length c = dim) g ->
  i < n -> nth i g [] = gradientOf zero dim (List.concat g) i.
Proof.
  intros dim n g i L F I. assert (LC : List.length (nth i g []) = dim).
  { rewrite Forall_forall in F. apply F, nth_In. lia. }
  rewrite (list_as_map _ (nth i g []) zero), LC. unfold gradientOf. apply map_ext_in. intros j J. apply in_seq in J.
  unfold derivative. rewrite <- (nth_concat _ g dim i j zero F) by lia. f_equal. nia.
Qed.
Lemma nth_error_nth' : forall A (l : list A) i x, i < List.length l -> nth_error l i = Some (nth i l x).
Proof. intros. apply nth_error_nth'. auto. Qed.
Lemma block_ok : forall dims n (vs : list V) i, List.length vs = n * dims -> i < n ->
  allOk (map (fun c => nth_error vs (i * dims + c)) (seq 0 dims)) = Some (valueAt zero dims vs i).
Proof.
  intros dims n vs i L I. unfold valueAt. apply allOk_map. intros c C. apply in_seq in C. apply nth_error_nth'. nia.
Qed.

(** the gradient arrays *)
Lemma gradient_arrays : forall dim n (d : data) s, (dim = 2 \/ dim = 3) -> (d_dims d = 1 \/ d_dims d = dim) -> isValue (d_name d) = true ->
  d_grad d = true -> List.length (sp_gradients s) = n * d_dims d -> Forall (fun c => List.length c = dim) (sp_gradients s) ->
  exists L, exportGradient d (sp_gradients s) (d_dims d) = Some (flat_map q_write L) /\ Forall q_ok L /\
    allOk (map (fun q => table n (q_read q)) L) = Some (gradientArrays zero rd streamDigits dim n d s) /\
    map (fun q => (q_name q, q_comp q)) L = map (fun a => (fst a, 3)) (gradientArrays zero rd streamDigits dim n d s).
Proof.
  intros dim n d s D DD NV G LG FG. set (g := sp_gradients s) in *.
  set (row := fun col : list V => flat_map (fun v => [Num streamDigits v; Sp]) col ++ (if List.length col <? 3 then [Wd "0.0"; Sp] else [])).
  assert (YR : forall col, yields (row col) (map (Num streamDigits) col ++ (if List.length col <? 3 then [Wd "0.0"] else []))).
  { intros col. unfold row. apply yields_app; [apply yields_nums|]. destruct (_ <? _); [apply yields_atom; reflexivity|apply yields_nil]. }
  assert (TR : forall col, forallb (fun i : item => negb (isTag i)) (row col) = true).
  { intros col. unfold row. rewrite forallb_app, notag_nums. destruct (_ <? _); reflexivity. }
  set (suf := if d_dims d =? 1 then [(0, "_gradient"%string)] else firstn dim [(0, "_dx"%string); (1, "_dy"%string); (2, "_dz"%string)]).
  assert (SUF : combine (seq 0 (List.length (suffices (d_dims d) (d_dims d)))) (suffices (d_dims d) (d_dims d)) = suf).
  { unfold suf. destruct DD as [-> | ->]; [reflexivity|]. destruct D as [-> | ->]; reflexivity. }
  assert (D0 : 0 < d_dims d) by lia.
  assert (SK : forall cs, In cs suf -> fst cs < d_dims d).
  { intros cs CS. unfold suf in CS. destruct (Nat.eqb_spec (d_dims d) 1) as [E|E].
    - destruct CS as [<-|[]]. cbn. lia.
    - assert (DE : d_dims d = dim) by tauto. rewrite DE. destruct D as [-> | ->]; cbn in CS; repeat (destruct CS as [<-|CS]; [cbn; lia|]); destruct CS. }
  set (col := fun (k i : nat) => nth (k + i * d_dims d) g []).
  set (body := fun k => flat_map (fun i => row (col k i)) (seq 0 n)).
  set (L := map (fun cs : nat * string => ("Float64"%string, (d_name d ++ snd cs)%string, 3, body (fst cs))) suf).
  assert (SV : forall cs, In cs suf -> isValue (d_name d ++ snd cs) = true).
  { intros cs CS. apply isValue_app; auto. unfold suf in CS. destruct (d_dims d =? 1).
    - destruct CS as [<-|[]]. reflexivity.
    - destruct D as [-> | ->]; cbn in CS; repeat (destruct CS as [<-|CS]; [reflexivity|]); destruct CS. }
  assert (LC : forall k i, k < d_dims d -> i < n -> List.length (col k i) = dim).
  { intros k i K I. rewrite Forall_forall in FG. apply FG, nth_In. rewrite LG. nia. }
  assert (YB : forall k, yields (body k) (flat_map (fun i => map (Num streamDigits) (col k i) ++ (if List.length (col k i) <? 3 then [Wd "0.0"] else [])) (seq 0 n))).
  { intros k. apply yields_flat. intros i _. apply YR. }
  assert (NB : forall k, k < d_dims d ->
     numbers (flat_map (fun i => map (Num streamDigits) (col k i) ++ (if List.length (col k i) <? 3 then [Wd "0.0"] else [])) (seq 0 n))
     = Some (List.concat (map (fun i => pad3 (map (rd streamDigits) (col k i))) (seq 0 n)))).
  { intros k K. apply numbers_flat. intros i I. apply in_seq in I. apply pad_row. rewrite LC by lia. exact D. }
  exists L. split; [|split; [|split]].
  - unfold exportGradient. rewrite SUF. unfold L. rewrite flat_map_map. apply concatOk_map. intros cs CS. specialize (SK cs CS).
    replace (List.length g) with (n * d_dims d) by lia. rewrite strided_0 by nia. rewrite map_map.
    rewrite (concatOk_map _ _ _ (fun i => row (col (fst cs) i))).
    + reflexivity.
    + intros i I. apply in_seq in I. rewrite (nth_error_nth' _ g _ []) by (rewrite LG; nia). reflexivity.
  - unfold L. rewrite Forall_map. apply Forall_forall. intros cs CS. split; [exact (SV cs CS)|]. split.
    + apply notag_flat. intros; apply TR.
    + eexists. apply YB.
  - unfold L. rewrite map_map. unfold gradientArrays. rewrite G. fold g.
    rewrite (allOk_map _ _ _ (fun cs : nat * string => ((d_name d ++ snd cs)%string, map (fun i => pad3 (map (rd streamDigits) (col (fst cs) i))) (seq 0 n)))).
    + unfold suf, col. destruct (Nat.eqb_spec (d_dims d) 1) as [E|E].
      * cbn [map fst snd]. do 3 f_equal. apply map_ext_in. intros i I. apply in_seq in I. do 2 f_equal.
        rewrite E. replace (0 + i * 1) with i by lia. apply (column_scalar dim n); auto; rewrite ?LG, ?E; lia.
      * f_equal. apply map_ext_in. intros cs CS. f_equal. apply map_ext_in. intros i I. apply in_seq in I. do 2 f_equal.
        assert (DE : d_dims d = dim) by tauto. rewrite DE. apply (column_vector dim n); auto; [rewrite LG, DE; reflexivity|lia|].
        rewrite <- DE. apply SK. exact CS.
    + intros cs CS. specialize (SK cs CS). eapply table_rows; [apply YB|apply NB; exact SK|].
      intros i I. apply pad3_length. rewrite map_length, LC by auto. lia.
  - unfold L. rewrite map_map. unfold gradientArrays. rewrite G. unfold suf. destruct (d_dims d =? 1); [reflexivity|].
    rewrite map_map. reflexivity.
Qed.

(** the arrays of one data *)
Definition dataArrays (digits dim n : nat) (d : data (V:=V)) (s : sample) : list (string * list (list V)) :=
  valuesArray zero rd digits n d s :: gradientArrays zero rd digits dim n d s.
(** and the number of components of each *)
Definition dataDeclared (dim n : nat) (d : data (V:=V)) (s : sample) : list (string * nat) :=
  (d_name d, if d_dims d =? 1 then 1 else 3) :: map (fun a => (fst a, 3)) (gradientArrays zero rd streamDigits dim n d s).

Lemma values_arrays : forall dim n (d : data) s, (dim = 2 \/ dim = 3) -> wfData dim n d -> isValue (d_name d) = true -> d_last d = Some s ->
  exists L, exportValues n d s = Some (flat_map q_write L) /\ Forall q_ok L /\
    allOk (map (fun q => table n (q_read q)) L) = Some (dataArrays streamDigits dim n d s) /\
    map (fun q => (q_name q, q_comp q)) L = dataDeclared dim n d s.
Proof.
  intros dim n d s D (DD & W) NV LS. destruct (W s LS) as (LV & WG). clear W.
  set (dims := d_dims d) in *. set (vs := sp_values s) in *.
  set (row := fun i => if 1 <? dims then flat_map (fun v => [Num streamDigits v; Sp]) (valueAt zero dims vs i) ++ (if dims =? 2 then [Wd "0.0"; Sp] else []) ++ [Sp]
                       else [Num streamDigits (nth i vs zero); Sp]).
  set (rowW := fun i => if 1 <? dims then map (Num streamDigits) (valueAt zero dims vs i) ++ (if dims =? 2 then [Wd "0.0"] else [])
                       else [Num streamDigits (nth i vs zero)] : list item).
  set (body := flat_map row (seq 0 n)).
  assert (YB : yields body (flat_map rowW (seq 0 n))).
  { apply yields_flat. intros i _. unfold row, rowW. destruct (1 <? dims); [|apply yields_atom; reflexivity].
    apply yields_app; [apply yields_nums|]. destruct (dims =? 2).
    - apply yields_cons; try reflexivity. apply yields_space. reflexivity.
    - cbn [app]. apply yields_space. reflexivity. }
  assert (TB : forallb (fun i : item => negb (isTag i)) body = true).
  { apply notag_flat. intros i _. unfold row. destruct (1 <? dims); [|reflexivity].
    rewrite forallb_app, notag_nums. destruct (dims =? 2); reflexivity. }
  set (g := fun i => let v := map (rd streamDigits) (valueAt zero dims vs i) in if dims =? 1 then v else pad3 v).
  assert (NB : numbers (flat_map rowW (seq 0 n)) = Some (List.concat (map g (seq 0 n)))).
  { apply numbers_flat. intros i _. unfold rowW, g. destruct DD as [E|E].
    - rewrite E. cbn. replace (i * 1 + 0) with i by lia. reflexivity.
    - assert (T : 1 <? dims = true) by (apply Nat.ltb_lt; lia). assert (N1 : dims =? 1 = false) by (apply Nat.eqb_neq; lia).
      rewrite T, N1. unfold S_Vtk.pad3. rewrite map_length, valueAt_length. apply numbers_app; [apply numbers_nums|].
      rewrite E. destruct D as [-> | ->]; reflexivity. }
  assert (BODY : (if 1 <? dims then
       concatOk (map (fun count =>
         option_map (fun vs => flat_map (fun v => [Num streamDigits v; Sp]) vs ++
                               (if dims =? 2 then [Wd "0.0"; Sp] else []) ++ [Sp])
                    (allOk (map (fun i => nth_error vs (count * dims + i)) (seq 0 dims)))) (seq 0 n))
     else if dims =? 1 then
       concatOk (map (fun count => option_map (fun v => [Num streamDigits v; Sp]) (nth_error vs count)) (seq 0 n))
     else Some []) = Some body).
  { unfold body. destruct (1 <? dims) eqn:E1.
    - apply concatOk_map. intros i I. apply in_seq in I. rewrite (block_ok dims n vs i LV) by lia. cbn [option_map]. unfold row.
      try rewrite E1. reflexivity.
    - assert (E : dims = 1). { apply Nat.ltb_ge in E1. lia. } assert (N1 : dims =? 1 = true) by (apply Nat.eqb_eq; auto). rewrite N1.
      apply concatOk_map. intros i I. apply in_seq in I. rewrite (nth_error_nth' _ vs i zero) by lia. unfold row. try rewrite E1. reflexivity. }
  set (q0 := ("Float64"%string, d_name d, (if dims =? 2 then 3 else dims), body)).
  assert (COMP : (if dims =? 2 then 3 else dims) = if dims =? 1 then 1 else 3).
  { destruct DD as [-> | ->]; [reflexivity|]. destruct D as [-> | ->]; reflexivity. }
  assert (OK0 : q_ok q0) by (split; [exact NV|split; [exact TB|eexists; exact YB]]).
  assert (T0 : table n (q_read q0) = Some (valuesArray zero rd streamDigits n d s)).
  { unfold valuesArray. fold dims vs. eapply table_rows; [exact YB|exact NB|]. intros i I. unfold g. rewrite COMP.
    destruct (Nat.eqb_spec dims 1) as [E|E]; [rewrite map_length, valueAt_length; exact E|].
    apply pad3_length. rewrite map_length, valueAt_length. lia. }
  unfold exportValues. fold dims vs. rewrite BODY. unfold dataArrays, dataDeclared. fold dims. destruct (d_grad d) eqn:G.
  - destruct (WG eq_refl) as (LG & FG). destruct (gradient_arrays dim n d s D DD NV G LG FG) as (L & E & F & T & Q). fold dims in E. rewrite E.
    exists (q0 :: L). split; [reflexivity|]. split; [constructor; auto|]. split.
    + cbn [map allOk]. rewrite T0, T. reflexivity.
    + cbn [map]. rewrite Q. unfold q0, q_name, q_comp. cbn [fst snd]. rewrite COMP. reflexivity.
  - exists [q0]. cbn [flat_map]. split; [rewrite !app_nil_r; reflexivity|]. split; [constructor; auto|].
    unfold gradientArrays. rewrite G. split; [cbn [map allOk]; rewrite T0; reflexivity|].
    unfold q0, q_name, q_comp. cbn [map fst snd]. rewrite COMP. reflexivity.
Qed.

(** the arrays of all data *)
Definition allArrays (digits rank : nat) (m : mesh (V:=V)) : list (string * list (list V)) :=
  rankArray ofNat rank m :: flat_map (fun ds : data * sample => dataArrays digits (m_dim m) (nVertices m) (fst ds) (snd ds)) (filled m).
Definition allDeclared (m : mesh (V:=V)) : list (string * nat) :=
  ("Rank"%string, 1) :: flat_map (fun ds : data * sample => dataDeclared (m_dim m) (nVertices m) (fst ds) (snd ds)) (filled m).

Lemma mesh_arrays : forall m rank, wfMesh m -> namesAre isValue m ->
  exists L, exportData rank m = Some (Open "PointData" [("Scalars"%string, Wd "Rank" :: Sp :: nameList (scalarNames m));
                      ("Vectors"%string, nameList (vectorNames m))] :: flat_map q_write L ++ [Close "PointData"]) /\ Forall q_ok L /\
    allOk (map (fun q => table (nVertices m) (q_read q)) L) = Some (allArrays streamDigits rank m) /\
    map (fun q => (q_name q, q_comp q)) L = allDeclared m.
Proof.
  intros m rank (D & _ & _ & _ & _ & WD) NA.
  assert (H : exists L, concatOk (map (fun d => match d_last d with None => Some [] | Some s => exportValues (nVertices m) d s end) (m_data m)) = Some (flat_map q_write L) /\
    Forall q_ok L /\ allOk (map (fun q => table (nVertices m) (q_read q)) L) = Some (flat_map (fun ds : data * sample => dataArrays streamDigits (m_dim m) (nVertices m) (fst ds) (snd ds)) (filled m)) /\
    map (fun q => (q_name q, q_comp q)) L = flat_map (fun ds : data * sample => dataDeclared (m_dim m) (nVertices m) (fst ds) (snd ds)) (filled m)).
  { unfold filled, namesAre in *. induction (m_data m) as [|d l IH].
    - exists []. repeat split; auto.
    - inversion WD as [|? ? W1 W2]; subst. inversion NA as [|? ? N1 N2]; subst. destruct (IH W2 N2) as (L & E & F & T & Q).
      destruct (d_last d) as [s|] eqn:LS.
      + destruct (values_arrays (m_dim m) (nVertices m) d s D W1 N1 LS) as (L1 & E1 & F1 & T1 & Q1).
        exists (L1 ++ L). split; [|split; [|split]].
        * unfold concatOk in *. cbn [map allOk]. rewrite LS, E1. destruct (allOk (map _ l)) as [t|]; [|discriminate].
          cbn [option_map] in *. cbn [List.concat]. injection E as ->. rewrite flat_map_app. reflexivity.
        * apply Forall_app; auto.
        * rewrite map_app. cbn [flat_map]. rewrite LS. cbn [app flat_map fst snd]. apply allOk_app; auto.
        * rewrite map_app, Q1, Q. cbn [flat_map]. rewrite LS. reflexivity.
      + exists L. cbn [flat_map]. rewrite LS. cbn [app]. split; [|auto].
        unfold concatOk in *. cbn [map allOk]. rewrite LS. destruct (allOk (map _ l)) as [t|]; [|discriminate]. exact E. }
  destruct H as (L & E & F & T & Q).
  set (q0 := ("UInt32"%string, "Rank"%string, 1, flat_map (fun _ : nat => [Int rank; Sp]) (seq 0 (nVertices m)) : list item)).
  assert (YB : yields (snd q0) (map (fun _ => Int rank) (seq 0 (nVertices m)))).
  { cbn [snd]. rewrite <- flat_map_single. apply yields_flat. intros. apply yields_atom; reflexivity. }
  exists (q0 :: L). split; [|split; [|split]].
  - unfold exportData. rewrite E. cbn [option_map flat_map q_write q0]. rewrite <- app_assoc. reflexivity.
  - constructor; auto. split; [reflexivity|]. split; [apply notag_flat; reflexivity|]. eexists. exact YB.
  - cbn [map allOk]. assert (T0 : table (nVertices m) (q_read q0) = Some (rankArray ofNat rank m)).
    { apply (table_rows _ _ 1 (nVertices m) _ _ (fun _ => [ofNat rank]) YB).
      - rewrite <- flat_map_single. apply numbers_flat. reflexivity.
      - reflexivity. }
    rewrite T0, T. reflexivity.
  - cbn [map]. rewrite Q. reflexivity.
Qed.
End Xml.
