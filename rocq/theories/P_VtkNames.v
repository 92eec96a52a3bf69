(** The master file, the names of the files, and which rank writes what. *)
From Coq Require Import DecimalString DecimalNat.
From Coq Require Import String Ascii Bool Arith List Lia Permutation.
From Verif Require Import M_Vtk S_Vtk P_Vtk P_VtkXml P_VtkPiece P_VtkFile.
Import ListNotations.
Open Scope list_scope.

(** ** Names *)
Lemma to_uint_nonnil : forall n, Nat.to_uint n <> Decimal.Nil.
Proof.
  intros n H. assert (E := DecimalNat.Unsigned.of_to n). rewrite H in E. change (0 = n) in E. subst n. discriminate H.
Qed.
Lemma dec_inj : forall a b, dec a = dec b -> a = b.
Proof.
  intros a b H. unfold dec in H.
  assert (E : NilZero.uint_of_string (NilZero.string_of_uint (Nat.to_uint a)) = NilZero.uint_of_string (NilZero.string_of_uint (Nat.to_uint b))) by congruence.
  rewrite !NilZero.usu in E by apply to_uint_nonnil. injection E as E.
  apply (f_equal Nat.of_uint) in E. rewrite !DecimalNat.Unsigned.of_to in E. exact E.
Qed.
Lemma has_uint : forall c d, (forall n, has c (NilEmpty.string_of_uint n) = false) -> has c (NilZero.string_of_uint d) = (match d with Decimal.Nil => Ascii.eqb "0" c | _ => false end).
Proof. intros c d H. destruct d; try apply H. cbn. rewrite orb_false_r. reflexivity. Qed.
Lemma has_dec_under : forall n, has "_" (dec n) = false.
Proof.
  intros n. unfold dec. rewrite has_uint.
  - destruct (Nat.to_uint n); reflexivity.
  - intros d. induction d; cbn; auto.
Qed.
Lemma has_dec_dot : forall n, has "." (dec n) = false.
Proof.
  intros n. unfold dec. rewrite has_uint.
  - destruct (Nat.to_uint n); reflexivity.
  - intros d. induction d; cbn; auto.
Qed.
Lemma isValue_dec : forall n, isValue (dec n) = true.
Proof.
  intros n. unfold isValue, dec. rewrite !has_uint.
  - destruct (Nat.to_uint n); reflexivity.
  - intros d. induction d; cbn; auto.
  - intros d. induction d; cbn; auto.
  - intros d. induction d; cbn; auto.
Qed.
Lemma append_inv : forall p a b, (p ++ a)%string = (p ++ b)%string -> a = b.
Proof. induction p as [|c p IH]; intros a b H; [exact H|]. cbn in H. injection H as H. apply IH; exact H. Qed.
Lemma append_assoc : forall a b c, ((a ++ b) ++ c)%string = (a ++ b ++ c)%string.
Proof. induction a as [|x a IH]; intros b c; [reflexivity|]. cbn. rewrite IH. reflexivity. Qed.
(** the first occurrence of a character splits a text in one way *)
Lemma split_at : forall c a b x y, has c a = false -> has c b = false -> (a ++ String c x)%string = (b ++ String c y)%string -> a = b /\ x = y.
Proof.
  induction a as [|u a IH]; intros b x y A B H; destruct b as [|w b]; cbn in *.
  - injection H as H. auto.
  - injection H as E _. apply orb_false_iff in B. destruct B as (B & _). subst. rewrite Ascii.eqb_refl in B. discriminate.
  - injection H as E _. apply orb_false_iff in A. destruct A as (A & _). subst. rewrite Ascii.eqb_refl in A. discriminate.
  - injection H as E H. apply orb_false_iff in A, B. destruct A as (_ & A), B as (_ & B).
    destruct (IH b x y A B H) as (-> & ->). subst. auto.
Qed.
Lemma fidx_under : forall l, has "_" (fidx l) = false.
Proof. intros l. unfold fidx, formatIndex. destruct (_ =? _); [reflexivity|]. destruct (l_windows l); cbn; apply has_dec_under. Qed.
Lemma fidx_dot : forall l, has "." (fidx l) = false.
Proof. intros l. unfold fidx, formatIndex. destruct (_ =? _); [reflexivity|]. destruct (l_windows l); cbn; apply has_dec_dot. Qed.
Lemma fidx_value : forall l, isValue (fidx l) = true.
Proof.
  intros l. unfold fidx, formatIndex. destruct (_ =? _); [reflexivity|]. apply isValue_app; [destruct (l_windows l); reflexivity|apply isValue_dec].
Qed.
Lemma fidx_inj : forall l l', fidx l = fidx l' -> l_index l = l_index l' /\ (0 < l_index l -> l_windows l = l_windows l').
Proof.
  intros l l' H. unfold fidx, formatIndex in H.
  destruct (Nat.eqb_spec (l_index l) 0) as [E|E], (Nat.eqb_spec (l_index l') 0) as [E'|E'].
  - split; [congruence|lia].
  - destruct (l_windows l'); cbn in H; discriminate.
  - destruct (l_windows l); cbn in H; discriminate.
  - destruct (l_windows l), (l_windows l'); cbn in H; try discriminate; injection H as H; apply dec_inj in H; auto.
Qed.
Lemma pieceName_inj : forall k l l' r r', l_mesh l = l_mesh l' -> l_part l = l_part l' -> pieceName k l r = pieceName k l' r' ->
  l_index l = l_index l' /\ (0 < l_index l -> l_windows l = l_windows l') /\ r = r'.
Proof.
  intros k l l' r r' M P H. unfold pieceName, base in H. rewrite M, P in H. apply append_inv in H.
  destruct (split_at "_" (fidx l) (fidx l') _ _ (fidx_under l) (fidx_under l') H) as (F & R).
  destruct (fidx_inj l l' F) as (I & W). repeat split; auto.
  change (dec r ++ String "." (pieceExtension k) = dec r' ++ String "." (pieceExtension k))%string in R.
  destruct (split_at "." (dec r) (dec r') _ _ (has_dec_dot r) (has_dec_dot r') R) as (D & _). apply dec_inj. exact D.
Qed.
Lemma piece_not_master : forall k l r, pieceName k l r <> parallelName k l.
Proof. intros k l r H. unfold pieceName, parallelName in H. apply append_inv, append_inv in H. discriminate. Qed.

(** ** Empty partitions *)
Fixpoint sums (acc : nat) (l : list nat) : list nat :=
  match l with [] => [] | c :: r => (acc + c) :: sums (acc + c) r end.
Lemma sums_length : forall l acc, List.length (sums acc l) = List.length l.
Proof. induction l as [|c l IH]; intros acc; cbn; auto. Qed.
Lemma sums_step : forall l acc r, S r < List.length l ->
  exists a b, nth_error (sums acc l) (S r) = Some a /\ nth_error (sums acc l) r = Some b /\ a - b = nth (S r) l 0.
Proof.
  induction l as [|c l IH]; intros acc r H; [cbn in H; lia|]. destruct r as [|r].
  - destruct l as [|c' l]; [cbn in H; lia|]. cbn. exists (acc + c + c'), (acc + c). repeat split. lia.
  - cbn [sums nth_error nth]. apply IH. cbn in H. lia.
Qed.
Lemma isPartitionEmpty_sums : forall counts r, r < List.length counts -> isPartitionEmpty (sums 0 counts) r = Some (nth r counts 0 =? 0).
Proof.
  intros counts r H. destruct counts as [|c l]; [cbn in H; lia|]. unfold isPartitionEmpty. cbn [sums]. destruct r as [|r]; [reflexivity|].
  destruct (sums_step (c :: l) 0 r H) as (a & b & A & B & D). cbn [sums] in A, B. rewrite A, B, D. reflexivity.
Qed.

Section Master.
Context {V : Type}.
Variables (zero : V) (ofNat : nat -> V) (rd : nat -> V -> V).
Hypothesis rd_zero : forall p, rd p zero = zero.
Notation item := (@item V).
Notation node := (@node V).

Definition masterDeclared (m : mesh (V:=V)) : list (string * nat) :=
  ("Rank"%string, 1) :: map (fun s => (s, 1)) (scalarNames m) ++ map (fun s => (s, 3)) (vectorNames m).

Lemma declared_perm : forall m, wfMesh m -> Permutation (masterDeclared m) (allDeclared zero rd m).
Proof.
  intros m (D & _ & _ & _ & _ & WD). apply perm_skip. unfold scalarNames, vectorNames, filled.
  induction (m_data m) as [|d l IH]; [constructor|]. inversion WD as [|? ? (DD & W1) W2]; subst. specialize (IH W2). cbn [flat_map].
  destruct (d_last d) as [s|] eqn:LS; [|exact IH]. cbn [app flat_map fst snd].
  rewrite !map_app. eapply perm_trans; [|apply Permutation_app_head; exact IH].
  assert (H : map (fun s0 => (s0, 1)) (if d_dims d =? 1 then [d_name d] else []) ++
     map (fun s0 => (s0, 3)) (if d_dims d =? 1 then if d_grad d then [d_name d ++ "_gradient"]%string else []
       else [d_name d] ++ (if d_grad d then [d_name d ++ "_dx"; d_name d ++ "_dy"]%string ++ (if m_dim m =? 3 then [d_name d ++ "_dz"]%string else []) else []))
     = dataDeclared zero rd (m_dim m) (nVertices m) d s).
  { unfold dataDeclared, gradientArrays. destruct (Nat.eqb_spec (d_dims d) 1) as [E|E]; destruct (d_grad d); try reflexivity.
    cbn [map app fst snd]. rewrite map_map. cbn [fst]. destruct D as [-> | ->]; reflexivity. }
  rewrite <- H, <- !app_assoc. apply Permutation_app_head. rewrite !app_assoc. apply Permutation_app_tail. apply Permutation_app_comm.
Qed.

Lemma names_value : forall m, namesAre isValue m -> Forall (fun s => isValue s = true) (scalarNames m ++ vectorNames (V:=V) m).
Proof.
  intros m N. apply Forall_app. unfold namesAre in N. rewrite Forall_forall in N.
  split; apply Forall_forall; intros s S; apply in_flat_map in S; destruct S as (d & D & S); specialize (N d D);
    destruct (d_last d); try destruct S.
  - destruct (d_dims d =? 1); [|destruct S]. destruct S as [<-|[]]. exact N.
  - destruct (d_dims d =? 1).
    + destruct (d_grad d); [|destruct S]. destruct S as [<-|[]]. apply isValue_app; [exact N|reflexivity].
    + destruct S as [<-|S]; [exact N|]. destruct (d_grad d); [|destruct S].
      destruct S as [<-|[<-|S]]; [apply isValue_app; [exact N|reflexivity]..|].
      destruct (m_dim m =? 3); [|destruct S]. destruct S as [<-|[]]. apply isValue_app; [exact N|reflexivity].
Qed.

Lemma read_master : forall k l counts m, wfMesh m -> namesAre isValue m -> isValue (l_mesh l) = true -> isValue (l_part l) = true ->
  exists file, parallelFile k l (sums 0 counts) (List.length counts) m = Some file /\
    readMaster ("P" ++ vtkFormat k) file = Some (masterDeclared m, map (pieceName k l) (filter (fun r => negb (nth r counts 0 =? 0)) (seq 0 (List.length counts)))).
Proof.
  intros k l counts m W N VM VP. set (live := filter (fun r => negb (nth r counts 0 =? 0)) (seq 0 (List.length counts))).
  set (pieces := map (fun r => Empty "Piece" [("Source"%string, [Wd (pieceName k l r)])]) live : list item).
  assert (E : concatOk (map (fun rank => option_map (fun e : bool =>
     if e then [] else [Empty "Piece" [("Source"%string, [Wd (pieceName k l rank)])]])
     (isPartitionEmpty (sums 0 counts) rank)) (seq 0 (List.length counts))) = Some pieces).
  { rewrite (concatOk_map _ _ _ (fun r => if nth r counts 0 =? 0 then [] else [Empty "Piece" [("Source"%string, [Wd (pieceName k l r)])]])).
    - f_equal. unfold pieces, live. induction (seq 0 (List.length counts)) as [|r t IH]; [reflexivity|]. cbn [flat_map filter]. rewrite IH.
      destruct (_ =? 0); reflexivity.
    - intros r R. apply in_seq in R. rewrite isPartitionEmpty_sums by lia. destruct (_ =? 0); reflexivity. }
  unfold parallelFile. rewrite E. cbn [option_map]. eexists. split; [reflexivity|].
  set (at_ := [("Scalars"%string, Wd (V:=V) "Rank" :: Sp :: nameList (scalarNames m)); ("Vectors"%string, nameList (vectorNames m))]).
  set (decls := Empty "PDataArray" (arrayTag "Int32" "Rank" 1) :: map (fun s => Empty "PDataArray" (arrayTag "Float64" s 1)) (scalarNames m) ++
                map (fun s => Empty "PDataArray" (arrayTag "Float64" s 3)) (vectorNames m) : list item).
  set (declN := El "PDataArray" (arrayTag "Int32" "Rank" 1) [] :: map (fun s => El "PDataArray" (arrayTag "Float64" s 1) []) (scalarNames m) ++
                map (fun s => El "PDataArray" (arrayTag "Float64" s 3) []) (vectorNames m) : list node).
  assert (GE : forall A (f : A -> string * list (string * list item)) t, grows (map (fun x => Empty (fst (f x)) (snd (f x))) t) (map (fun x => El (fst (f x)) (snd (f x)) []) t)).
  { intros A f t. rewrite <- !flat_map_single. apply grows_flat. intros. apply grows_empty. }
  assert (GD : grows decls declN).
  { apply (grows_app [_] [_]); [apply grows_empty|]. apply grows_app; [apply (GE _ (fun s => ("PDataArray"%string, arrayTag "Float64" s 1)))|apply (GE _ (fun s => ("PDataArray"%string, arrayTag "Float64" s 3)))]. }
  set (pieceN := map (fun r => El "Piece" [("Source"%string, [Wd (pieceName k l r)])] []) live : list node).
  assert (GP : grows pieces pieceN) by (apply (GE _ (fun r => ("Piece"%string, [("Source"%string, [Wd (pieceName k l r)])])))).
  set (points := Open "PPoints" [] :: [Empty "PDataArray" (arrayTag "Float64" "Position" 3)] ++ [Close "PPoints"] : list item).
  set (cellN := match k with VTU => [El "PCells" [] [El "PDataArray" (arrayTag "Int32" "connectivity" 1) []; El "PDataArray" (arrayTag "Int32" "offsets" 1) []; El "PDataArray" (arrayTag "UInt8" "types" 1) []]]
    | VTP => [El "PLines" [] [El "PDataArray" (arrayTag "Int32" "connectivity" 1) []; El "PDataArray" (arrayTag "Int32" "offsets" 1) []]; El "PPolys" [] [El "PDataArray" (arrayTag "Int32" "connectivity" 1) []; El "PDataArray" (arrayTag "Int32" "offsets" 1) []]] end : list node).
  assert (GC : grows (parallelCells k) cellN) by (intros n' a' acc st; unfold cellN; destruct k; reflexivity).
  assert (GPD : grows (parallelData m) [El "PPointData" at_ declN]).
  { replace (parallelData m) with (Open "PPointData" at_ :: decls ++ [Close "PPointData"]).
    - apply grows_el, GD.
    - unfold parallelData, decls. cbn [app]. rewrite <- !app_assoc. reflexivity. }
  set (kidsN := El "PPoints" [] [El "PDataArray" (arrayTag "Float64" "Position" 3) []] :: cellN ++ [El "PPointData" at_ declN] ++ pieceN).
  unfold readMaster. rewrite (grows_parse _ [El "VTKFile" [("type"%string, [Wd ("P" ++ vtkFormat k)])] [El ("P" ++ vtkFormat k) [] kidsN]]).
  2:{ match goal with |- grows ?f _ => replace f with (Open "VTKFile" [("type"%string, [Wd ("P" ++ vtkFormat k)])] ::
        (Open ("P" ++ vtkFormat k) [] :: (points ++ parallelCells k ++ parallelData m ++ pieces) ++ [Close ("P" ++ vtkFormat k)]) ++ [Close "VTKFile"]) end.
      - apply grows_el, grows_el. apply (grows_app _ [_]); [apply grows_el, grows_empty|]. apply grows_app; [exact GC|]. apply grows_app; [exact GPD|exact GP].
      - unfold points. cbn [app]. rewrite <- !app_assoc. reflexivity. }
  assert (NV := names_value m N). apply Forall_app in NV. destruct NV as (NS & NVE).
  assert (KD : kid "VTKFile" [El "VTKFile" [("type"%string, [Wd ("P" ++ vtkFormat k)])] [El ("P" ++ vtkFormat k) [] kidsN]] = Some ([("type"%string, [Wd ("P" ++ vtkFormat k)])], [El ("P" ++ vtkFormat k) [] kidsN])) by reflexivity.
  cbn [bind]. rewrite KD. cbn [bind fst snd].
  assert (TY : attrName (V:=V) "type" [("type"%string, [Wd ("P" ++ vtkFormat k)])] = Some ("P" ++ vtkFormat k)%string) by (destruct k; reflexivity).
  rewrite TY. cbn [bind]. rewrite String.eqb_refl. cbn [ensure bind].
  assert (KG : kid ("P" ++ vtkFormat k) [El ("P" ++ vtkFormat k) [] kidsN] = Some ([], kidsN)) by (cbn [kid]; rewrite String.eqb_refl; reflexivity).
  rewrite KG. cbn [bind snd].
  assert (KP : kid "PPointData" kidsN = Some (at_, declN)) by (unfold kidsN, cellN; destruct k; reflexivity).
  rewrite KP. cbn [bind snd].
  set (rdD := fun e : list (string * list item) * list node => bind (attrName "Name" (fst e)) (fun n => bind (attrNat "NumberOfComponents" (fst e)) (fun c => Some (n, c)))).
  assert (KS : forall c t, kids "PDataArray" (map (fun s => El "PDataArray" (arrayTag (V:=V) "Float64" s c) []) t) = map (fun s => (arrayTag "Float64" s c, [])) t).
  { intros c t. unfold kids. rewrite flat_map_map. cbn. rewrite flat_map_single. reflexivity. }
  assert (RS : forall c t, Forall (fun s => isValue s = true) t -> allOk (map rdD (map (fun s => (arrayTag (V:=V) "Float64" s c, [])) t)) = Some (map (fun s => (s, c)) t)).
  { intros c t F. rewrite map_map. apply allOk_map. intros s S. rewrite Forall_forall in F. specialize (F s S). unfold rdD. cbn [fst].
    change (attrName "Name" (arrayTag (V:=V) "Float64" s c)) with (if isValue s then Some s else None). rewrite F. reflexivity. }
  assert (DE : allOk (map rdD (kids "PDataArray" declN)) = Some (masterDeclared m)).
  { unfold declN. change (El "PDataArray" (arrayTag "Int32" "Rank" 1) [] :: ?x) with ([El "PDataArray" (arrayTag (V:=V) "Int32" "Rank" 1) []] ++ x).
    unfold kids. rewrite !flat_map_app. fold (kids (V:=V) "PDataArray"). rewrite !map_app.
    change (masterDeclared m) with ([("Rank"%string, 1)] ++ map (fun s => (s, 1)) (scalarNames m) ++ map (fun s => (s, 3)) (vectorNames m)).
    apply allOk_app; [reflexivity|]. apply allOk_app.
    - change (flat_map _ ?x) with (kids (V:=V) "PDataArray" x). rewrite KS. apply RS. exact NS.
    - change (flat_map _ ?x) with (kids (V:=V) "PDataArray" x). rewrite KS. apply RS. exact NVE. }
  rewrite DE. cbn [bind].
  assert (SR : allOk (map (fun e : list (string * list item) * list node => attrName "Source" (fst e)) (kids "Piece" kidsN)) = Some (map (pieceName k l) live)).
  { assert (KK : kids "Piece" kidsN = map (fun r => ([("Source"%string, [Wd (pieceName k l r)])], [])) live).
    { transitivity (kids "Piece" pieceN).
      - unfold kidsN, cellN. destruct k; reflexivity.
      - unfold pieceN, kids. rewrite flat_map_map. cbn. rewrite flat_map_single. reflexivity. }
    rewrite KK, map_map. apply allOk_map. intros r _. cbn [fst].
    change (attrName "Source" [("Source"%string, [Wd (V:=V) (pieceName k l r)])]) with (if isValue (pieceName k l r) then Some (pieceName k l r) else None).
    assert (isValue (pieceName k l r) = true) as ->; [|reflexivity]. unfold pieceName, base.
    repeat apply isValue_app; auto; try reflexivity; [apply fidx_value|apply isValue_dec|destruct k; reflexivity]. }
  rewrite SR. reflexivity.
Qed.
End Master.
