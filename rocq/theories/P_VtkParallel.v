(** All files of a parallel participant. *)
From Coq Require Import String Ascii Bool Arith List Lia Permutation.
From Verif Require Import M_Vtk S_Vtk P_Vtk P_VtkXml P_VtkPiece P_VtkFile P_VtkNames.
Import ListNotations.
Open Scope list_scope.

Lemma sums_offsets : forall counts acc, sums acc counts = map (fun r => acc + list_sum (firstn (S r) counts)) (seq 0 (List.length counts)).
Proof.
  induction counts as [|c l IH]; intros acc; [reflexivity|]. cbn [sums List.length seq map]. f_equal; [cbn; lia|].
  rewrite IH, <- seq_shift, map_map. apply map_ext. intros r. rewrite (firstn_cons (S r) c l). change (list_sum (c :: firstn (S r) l)) with (c + list_sum (firstn (S r) l)). lia.
Qed.
Lemma offsetsOf_sums : forall counts, offsetsOf counts = sums 0 counts.
Proof. intros. rewrite sums_offsets. unfold offsetsOf. apply map_ext. reflexivity. Qed.

Section Parallel.
Context {V : Type}.
Variables (zero : V) (ofNat : nat -> V) (rd : nat -> V -> V).
Hypothesis rd_zero : forall p, rd p zero = zero.
Notation item := (@item V).
Notation mesh := (@mesh V).

Definition dataSchema (dim : nat) (d : string * nat * bool * bool) : list (string * nat) :=
  let '(nm, dims, g, fl) := d in
  if fl then (nm, if dims =? 1 then 1 else 3) :: (if g then if dims =? 1 then [((nm ++ "_gradient")%string, 3)]
     else map (fun x => ((nm ++ x)%string, 3)) (firstn dim ["_dx"; "_dy"; "_dz"]%string) else []) else [].
Lemma declared_schema : forall m : mesh, allDeclared zero rd m = ("Rank"%string, 1) :: flat_map (dataSchema (fst (schema m))) (snd (schema m)).
Proof.
  intros m. unfold allDeclared, schema, filled. cbn [fst snd]. f_equal. induction (m_data m) as [|d l IH]; [reflexivity|].
  cbn [flat_map map]. rewrite flat_map_app, IH. f_equal. unfold dataSchema. destruct (d_last d) as [s|]; [|reflexivity].
  cbn [flat_map fst snd]. rewrite app_nil_r. unfold dataDeclared, gradientArrays. f_equal. destruct (d_grad d); [|reflexivity].
  destruct (d_dims d =? 1); [reflexivity|]. rewrite map_map. cbn [fst].
  destruct (m_dim m) as [|[|[|[|k]]]]; reflexivity.
Qed.

Definition read (k : kind) : list item -> option grid := match k with VTU => readVTU zero ofNat rd | VTP => readVTP zero ofNat rd end.
Definition cellsXML (k : kind) (m : mesh) : list (nat * list nat) :=
  match k with VTU => trianglesOf m ++ linesOf m ++ tetrahedraOf m | VTP => linesOf m ++ trianglesOf m end.
Lemma sub_ok : forall k m rank, wfMesh m -> namesAre isValue m ->
  exists file, subFile zero k rank m = Some file /\ declared (vtkFormat k) file = Some (allDeclared zero rd m) /\
    read k file = Some (GR (pointsOf zero rd streamDigits m) (cellsXML k m) (xmlArrays zero ofNat rd streamDigits rank m)).
Proof.
  intros k m rank W N. destruct (read_declared zero ofNat rd k m rank W N) as (f & E & D). exists f. split; [exact E|]. split; [exact D|].
  destruct k.
  - destruct (read_vtu zero ofNat rd rd_zero m rank W N) as (f' & E' & R). rewrite E' in E. injection E as <-. exact R.
  - destruct (read_vtp zero ofNat rd rd_zero m rank W N) as (f' & E' & R). rewrite E' in E. injection E as <-. exact R.
Qed.

Definition goodRanks (l : label) (ms : list mesh) : Prop :=
  1 < List.length ms /\ isValue (l_mesh l) = true /\ isValue (l_part l) = true /\
  forall m, In m ms -> wfMesh m /\ namesAre isValue m /\ forall m', In m' ms -> schema m = schema m'.

Lemma parallel_ok : forall k l ms, goodRanks l ms ->
  exists (master : list item) (written : nat -> list (string * list item)) arrays,
    (forall r m, nth_error ms r = Some m ->
       xmlExport zero k l (offsetsOf (map nVertices ms)) r (List.length ms) m = Some ((if r =? 0 then [(parallelName k l, master)] else []) ++ written r)) /\
    readMaster ("P" ++ vtkFormat k) master = Some (arrays, map fst (flat_map written (seq 0 (List.length ms)))) /\
    NoDup (parallelName k l :: map fst (flat_map written (seq 0 (List.length ms)))) /\
    (forall r m, nth_error ms r = Some m ->
       if nVertices m =? 0 then written r = []
       else exists file a, written r = [(pieceName k l r, file)] /\
              declared (vtkFormat k) file = Some a /\ Permutation arrays a /\
              read k file = Some (GR (pointsOf zero rd streamDigits m) (cellsXML k m) (xmlArrays zero ofNat rd streamDigits r m))).
Proof.
  intros k l ms (SZ & VM & VP & G). set (counts := map nVertices ms). set (m0 := nth 0 ms (MS 0 [] [] [] [] [])).
  assert (I0 : In m0 ms) by (apply nth_In; lia). destruct (G m0 I0) as (W0 & N0 & S0).
  assert (LC : List.length counts = List.length ms) by apply map_length.
  destruct (read_master k l counts m0 W0 N0 VM VP) as (master & EM & RM). rewrite LC in EM, RM.
  set (file := fun r => match subFile zero k r (nth r ms m0) with Some f => f | None => [] end).
  set (written := fun r => if nth r counts 0 =? 0 then [] else [(pieceName k l r, file r)]).
  exists master, written, (masterDeclared m0).
  assert (NC : forall r m, nth_error ms r = Some m -> r < List.length ms /\ nth r ms m0 = m /\ nth r counts 0 = nVertices m).
  { intros r m H. assert (r < List.length ms) by (apply nth_error_Some; congruence). split; [assumption|]. split; [apply nth_error_nth; exact H|].
    unfold counts. rewrite (nth_indep _ 0 (nVertices m)) by (rewrite map_length; assumption). rewrite map_nth. f_equal. apply nth_error_nth. exact H. }
  assert (FL : map fst (flat_map written (seq 0 (List.length ms))) = map (pieceName k l) (filter (fun r => negb (nth r counts 0 =? 0)) (seq 0 (List.length ms)))).
  { generalize (seq 0 (List.length ms)). intros q. induction q as [|r t IH]; [reflexivity|]. cbn [flat_map filter]. rewrite map_app, IH. unfold written. destruct (_ =? 0); reflexivity. }
  split; [|split; [|split]].
  - intros r m H. destruct (NC r m H) as (LR & NR & CR). unfold xmlExport. rewrite offsetsOf_sums. fold counts.
    assert (L1 : 1 <? List.length ms = true) by (apply Nat.ltb_lt; exact SZ). rewrite L1.
    rewrite isPartitionEmpty_sums by lia. rewrite CR.
    assert (SF : exists f, subFile zero k r m = Some f /\ file r = f).
    { destruct (G m (nth_error_In _ _ H)) as (Wm & Nm & _). destruct (sub_ok k m r Wm Nm) as (f & E & _). exists f. split; [exact E|]. unfold file. rewrite NR, E. reflexivity. }
    destruct SF as (f & SF & FF). unfold written. rewrite CR, SF, FF. cbn [option_map].
    destruct (Nat.eqb_spec r 0) as [->|R0].
    + assert (m = m0) as -> by (unfold m0; symmetry; apply nth_error_nth; exact H). rewrite EM. cbn [option_map]. destruct (nVertices m0 =? 0); reflexivity.
    + destruct (nVertices m =? 0); reflexivity.
  - rewrite FL. exact RM.
  - rewrite FL. constructor.
    + intros H. apply in_map_iff in H. destruct H as (r & E & _). exact (piece_not_master k l r E).
    + apply FinFun.Injective_map_NoDup; [intros a b E; apply (pieceName_inj k l l a b eq_refl eq_refl E)|apply NoDup_filter, seq_NoDup].
  - intros r m H. destruct (NC r m H) as (LR & NR & CR). unfold written. rewrite CR. destruct (nVertices m =? 0); [reflexivity|].
    destruct (G m (nth_error_In _ _ H)) as (W & N & S). destruct (sub_ok k m r W N) as (f & E & D & R). exists f, (allDeclared zero rd m).
    split; [unfold file; rewrite NR, E; reflexivity|]. split; [exact D|]. split; [|exact R].
    apply (Permutation_trans (declared_perm zero rd m0 W0)). rewrite !declared_schema, (S m0 I0). reflexivity.
Qed.

(** runs without partitions write one file *)
Lemma serial_ok : forall k l offs m, wfMesh m -> namesAre isValue m ->
  exists file, xmlExport zero k l offs 0 1 m = Some [(serialName k l, file)] /\
    read k file = Some (GR (pointsOf zero rd streamDigits m) (cellsXML k m) (xmlArrays zero ofNat rd streamDigits 0 m)).
Proof.
  intros k l offs m W N. destruct (sub_ok k m 0 W N) as (f & E & _ & R). exists f. split; [|exact R]. unfold xmlExport. cbn [Nat.ltb Nat.leb]. rewrite E. reflexivity.
Qed.
End Parallel.
