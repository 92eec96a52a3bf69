(** Facts about the readers and what the exporters write. *)
From Coq Require Import String Ascii Bool Arith List Lia.
From Verif Require Import M_Vtk S_Vtk.
Import ListNotations.
Open Scope list_scope.

(** ** Lists with failures *)
Lemma allOk_map : forall A B (f : A -> option B) g l, (forall x, In x l -> f x = Some (g x)) -> allOk (map f l) = Some (map g l).
Proof.
  induction l as [|a l IH]; intros H; [reflexivity|]. cbn [map allOk]. rewrite (H a) by (left; auto).
  rewrite IH by (intros x X; apply H; right; auto). reflexivity.
Qed.
Lemma concatOk_map : forall A B (f : A -> option (list B)) g l, (forall x, In x l -> f x = Some (g x)) -> concatOk (map f l) = Some (flat_map g l).
Proof. intros A B f g l H. unfold concatOk. rewrite (allOk_map _ _ f g l H). cbn. rewrite flat_map_concat_map. reflexivity. Qed.
Lemma concatOk_in : forall A (l : list (option (list A))) r, concatOk l = Some r -> forall o, In o l -> exists t, o = Some t.
Proof.
  unfold concatOk. intros A l. induction l as [|[a|] l IH]; intros r H o O; cbn in *; [easy| |discriminate].
  destruct O as [<-|O]; [eauto|]. destruct (allOk l) eqn:E; [|discriminate]. eapply IH; [reflexivity|exact O].
Qed.
Lemma allOk_in : forall A (l : list (option A)) r, allOk l = Some r -> forall o, In o l -> exists t, o = Some t.
Proof.
  induction l as [|[a|] l IH]; intros r H o O; cbn in *; [easy| |discriminate].
  destruct O as [<-|O]; [eauto|]. destruct (allOk l) eqn:E; [|discriminate]. eapply IH; [reflexivity|exact O].
Qed.
Lemma flat_map_ext_in : forall A B (f g : A -> list B) l, (forall x, In x l -> f x = g x) -> flat_map f l = flat_map g l.
Proof. induction l as [|a l IH]; intros H; [reflexivity|]. cbn [flat_map]. rewrite (H a), IH; auto with datatypes. Qed.
Lemma map_flat_map : forall A B C (f : B -> C) (g : A -> list B) l, map f (flat_map g l) = flat_map (fun x => map f (g x)) l.
Proof. induction l as [|a l IH]; [reflexivity|]. cbn [flat_map]. rewrite map_app, IH. reflexivity. Qed.
Lemma flat_map_map : forall A B C (f : A -> B) (g : B -> list C) l, flat_map g (map f l) = flat_map (fun x => g (f x)) l.
Proof. induction l as [|a l IH]; [reflexivity|]. cbn [map flat_map]. rewrite IH. reflexivity. Qed.
Lemma flat_map_flat_map : forall A B C (f : A -> list B) (g : B -> list C) l,
  flat_map g (flat_map f l) = flat_map (fun x => flat_map g (f x)) l.
Proof. induction l as [|a l IH]; [reflexivity|]. cbn [flat_map]. rewrite flat_map_app, IH. reflexivity. Qed.
Lemma flat_map_single : forall A B (f : A -> B) l, flat_map (fun x => [f x]) l = map f l.
Proof. induction l as [|a l IH]; [reflexivity|]. cbn. rewrite IH. reflexivity. Qed.

Lemma seq_from : forall n k, seq k n = map (fun i => k + i) (seq 0 n).
Proof. intros n k. rewrite <- (map_ext (Nat.add k)) by reflexivity. induction n as [|n IH] in k |- *; [reflexivity|].
  cbn [seq map]. rewrite (IH (S k)), (IH 1), map_map. rewrite Nat.add_0_r. f_equal. apply map_ext. intros; lia. Qed.

Lemma strided_all : forall n step start k fuel, 0 < step -> start < step -> k <= n -> n - k <= fuel ->
  strided fuel (start + k * step) step (n * step) = map (fun i => start + i * step) (seq k (n - k)).
Proof.
  intros n step start k fuel P S0. revert k. induction fuel as [|f IH]; intros k K F.
  - assert (n - k = 0) as -> by lia. reflexivity.
  - cbn [strided]. destruct (start + k * step <? n * step) eqn:E.
    + apply Nat.ltb_lt in E. assert (KN : k < n). { destruct (Nat.eq_dec k n) as [->|]; lia. }
      replace (n - k) with (S (n - S k)) by lia. cbn [seq map]. f_equal.
      replace (start + k * step + step) with (start + S k * step) by (cbn; lia). apply IH; lia.
    + apply Nat.ltb_ge in E. assert (k = n) as -> by nia. replace (n - n) with 0 by lia. reflexivity.
Qed.
Lemma strided_0 : forall n step start fuel, 0 < step -> start < step -> n <= fuel ->
  strided fuel start step (n * step) = map (fun i => start + i * step) (seq 0 n).
Proof.
  intros n step start fuel P S0 F. rewrite <- (Nat.sub_0_r n) at 2. rewrite <- (strided_all n step start 0 fuel) by lia.
  cbn [Nat.mul]. rewrite Nat.add_0_r. reflexivity.
Qed.

(** the columns of a matrix, read from its memory *)
Lemma nth_concat : forall A (l : list (list A)) w i j x, Forall (fun c => List.length c = w) l -> j < w ->
  nth (i * w + j) (List.concat l) x = nth j (nth i l []) x.
Proof.
  induction l as [|c l IH]; intros w i j x F J.
  - cbn. destruct (i * w + j), i, j; reflexivity.
  - inversion F as [|? ? L F']; subst. cbn [List.concat]. destruct i as [|i].
    + rewrite app_nth1 by (cbn; lia). reflexivity.
    + rewrite app_nth2 by (cbn; lia). replace (S i * List.length c + j - List.length c) with (i * List.length c + j) by (cbn; lia).
      cbn [nth]. apply IH; auto.
Qed.
Lemma list_as_map : forall A (l : list A) x, l = map (fun j => nth j l x) (seq 0 (List.length l)).
Proof.
  intros A l x. apply (nth_ext _ _ x x). { rewrite map_length, seq_length. reflexivity. }
  intros i I. rewrite (nth_indep (map _ _) x (nth 0 l x)) by (rewrite map_length, seq_length; exact I).
  rewrite (map_nth (fun j => nth j l x) (seq 0 (List.length l)) 0 i). rewrite seq_nth by exact I. reflexivity.
Qed.

(** ** Text in names *)
Lemma has_app : forall c a b, has c (a ++ b) = (has c a || has c b)%bool.
Proof. induction a as [|x a IH]; intros b; [reflexivity|]. cbn. rewrite IH. apply orb_assoc. Qed.
Lemma isValue_app : forall a b, isValue a = true -> isValue b = true -> isValue (a ++ b) = true.
Proof.
  unfold isValue. intros a b A B. rewrite !has_app.
  apply andb_true_iff in A, B. destruct A as (A & A3), B as (B & B3). apply andb_true_iff in A, B.
  destruct A as (A1 & A2), B as (B1 & B2). apply negb_true_iff in A1, A2, A3, B1, B2, B3.
  rewrite A1, A2, A3, B1, B2, B3. reflexivity.
Qed.
Lemma isWord_app : forall a b, isWord a = true -> isWord b = true -> isWord (a ++ b) = true.
Proof.
  unfold isWord. intros a b A B. rewrite has_app. apply andb_true_iff in A, B. destruct A as (A1 & A2), B as (B1 & B2).
  apply negb_true_iff in A1, B1. rewrite A1, B1. destruct a; [discriminate|]. reflexivity.
Qed.
Lemma isCell_app : forall a b, isCell a = true -> isCell b = true -> isCell (a ++ b) = true.
Proof. unfold isCell. intros a b A B. rewrite has_app. apply negb_true_iff in A, B. rewrite A, B. reflexivity. Qed.

Section Facts.
Context {V : Type}.
Variables (zero : V) (ofNat : nat -> V) (rd : nat -> V -> V).
Hypothesis rd_zero : forall p, rd p zero = zero.
Notation item := (@item V).
Notation node := (@node V).
Notation number := (number zero ofNat rd).
Notation numbers := (numbers zero ofNat rd).

(** ** Words *)
Definition yields (a : list item) (w : list item) : Prop := forall b, words (a ++ b) = option_map (app w) (words b).
Lemma yields_words : forall a w, yields a w -> words a = Some w.
Proof. intros a w H. specialize (H []). rewrite app_nil_r in H. rewrite H. cbn. rewrite app_nil_r. reflexivity. Qed.
Lemma yields_nil : yields [] [].
Proof. intros b. cbn. destruct (words b); reflexivity. Qed.
Lemma yields_app : forall a w b v, yields a w -> yields b v -> yields (a ++ b) (w ++ v).
Proof. intros a w b v A B c. rewrite <- app_assoc, A, B. destruct (words c); cbn; [rewrite app_assoc|]; reflexivity. Qed.
Lemma yields_space : forall s, isSpace s = true -> yields [s] [].
Proof. intros s H b. cbn [app words]. rewrite H. destruct (words b); reflexivity. Qed.
Lemma yields_atom : forall a s, isAtom a = true -> isSpace s = true -> yields [a; s] [a].
Proof.
  intros a s A S b. cbn [app words]. assert (isSpace a = false) as -> by (destruct a; try reflexivity; discriminate).
  rewrite A, S. cbn [andb words]. destruct (words b); reflexivity.
Qed.
Lemma yields_cons : forall a s l w, isAtom a = true -> isSpace s = true -> yields l w -> yields (a :: s :: l) (a :: w).
Proof. intros a s l w A S L. apply (yields_app [a; s] [a] l w); [apply yields_atom; auto|exact L]. Qed.
Lemma yields_skip : forall s l w, isSpace s = true -> yields l w -> yields (s :: l) w.
Proof. intros s l w S L. apply (yields_app [s] [] l w); [apply yields_space; auto|exact L]. Qed.
Lemma yields_flat : forall A (f g : A -> list item) l, (forall x, In x l -> yields (f x) (g x)) -> yields (flat_map f l) (flat_map g l).
Proof.
  induction l as [|a l IH]; intros H; [apply yields_nil|]. cbn [flat_map].
  apply yields_app; [apply H; left; auto|apply IH; intros x X; apply H; right; auto].
Qed.
Lemma yields_nums : forall p (l : list V), yields (flat_map (fun v => [Num p v; Sp]) l) (map (Num p) l).
Proof. intros p l. rewrite <- flat_map_single. apply yields_flat. intros x _. apply yields_atom; reflexivity. Qed.

(** ** Numbers *)
Lemma allOk_app : forall A (a b : list (option A)) x y, allOk a = Some x -> allOk b = Some y -> allOk (a ++ b) = Some (x ++ y).
Proof.
  induction a as [|[u|] a IH]; intros b x y HA HB; cbn in *; [injection HA as <-; exact HB| |discriminate].
  destruct (allOk a) as [t|] eqn:E; [|discriminate]. injection HA as <-. rewrite (IH b t y eq_refl HB). reflexivity.
Qed.
Lemma numbers_app : forall a b x y, numbers a = Some x -> numbers b = Some y -> numbers (a ++ b) = Some (x ++ y).
Proof. unfold S_Vtk.numbers. intros. rewrite map_app. apply allOk_app; auto. Qed.
Lemma numbers_nums : forall p l, numbers (map (Num p) l) = Some (map (rd p) l).
Proof. intros p l. unfold S_Vtk.numbers. rewrite map_map. apply allOk_map. reflexivity. Qed.
Lemma numbers_flat : forall A (f : A -> list item) g l, (forall x, In x l -> numbers (f x) = Some (g x)) ->
  numbers (flat_map f l) = Some (List.concat (map g l)).
Proof.
  induction l as [|a l IH]; intros H; [reflexivity|]. cbn [flat_map map List.concat].
  apply numbers_app; [apply H; left; auto|apply IH; intros x X; apply H; right; auto].
Qed.
Lemma naturals_ints : forall l, naturals (map (@Int V) l) = Some l.
Proof. intros l. unfold naturals. rewrite map_map. rewrite (allOk_map _ _ _ (fun x => x)) by reflexivity. rewrite map_id. reflexivity. Qed.

Lemma rows_concat : forall A (rs : list (list A)) c, Forall (fun r => List.length r = c) rs -> rows (List.length rs) c (List.concat rs) = Some rs.
Proof.
  induction rs as [|r rs IH]; intros c F; [reflexivity|]. inversion F as [|? ? L F']; subst. cbn [List.length rows List.concat].
  rewrite app_length. assert (List.length r <=? List.length r + List.length (List.concat rs) = true) as -> by (apply Nat.leb_le; lia).
  rewrite firstn_app, Nat.sub_diag, firstn_all. cbn [firstn]. rewrite app_nil_r.
  rewrite skipn_app, Nat.sub_diag, skipn_all. cbn [skipn app]. rewrite (IH _ F'). reflexivity.
Qed.
Lemma rows_map : forall A B (g : B -> list A) (l : list B) c, (forall x, In x l -> List.length (g x) = c) ->
  rows (List.length l) c (List.concat (map g l)) = Some (map g l).
Proof.
  intros A B g l c H. rewrite <- (map_length g l) at 1. apply rows_concat. apply Forall_forall. intros x X.
  apply in_map_iff in X. destruct X as (y & <- & Y). auto.
Qed.
Lemma rows_seq : forall A (g : nat -> list A) n c, (forall i, i < n -> List.length (g i) = c) ->
  rows n c (List.concat (map g (seq 0 n))) = Some (map g (seq 0 n)).
Proof.
  intros A g n c H. rewrite <- (seq_length n 0) at 1. apply rows_map. intros i I. apply in_seq in I. apply H. lia.
Qed.

Lemma pad3_length : forall l : list V, List.length l <= 3 -> List.length (pad3 zero l) = 3.
Proof. intros l L. unfold pad3. rewrite app_length, repeat_length. lia. Qed.

(** ** Trees *)
Definition isTag (i : item) : bool := match i with Open _ _ | Close _ | Empty _ _ => true | _ => false end.
Definition grows (a : list item) (k : list node) : Prop := forall n at_ acc st,
  fold_left feed a (Some ((n, at_, acc) :: st)) = Some ((n, at_, rev k ++ acc) :: st).
Lemma grows_nil : grows [] [].
Proof. intros n a acc st. reflexivity. Qed.
Lemma grows_app : forall a k b k', grows a k -> grows b k' -> grows (a ++ b) (k ++ k').
Proof. intros a k b k' A B n at_ acc st. rewrite fold_left_app, A, B, rev_app_distr, app_assoc. reflexivity. Qed.
Lemma grows_empty : forall n a, grows [Empty n a] [El n a []].
Proof. intros n a n' a' acc st. reflexivity. Qed.
Lemma grows_text : forall l, forallb (fun i => negb (isTag i)) l = true -> grows l (map Tx l).
Proof.
  induction l as [|i l IH]; intros H; [apply grows_nil|]. cbn [forallb] in H. apply andb_true_iff in H. destruct H as (H1 & H2).
  apply (grows_app [i] [Tx i] l (map Tx l)); [|auto]. intros n a acc st. destruct i; try discriminate H1; reflexivity.
Qed.
Lemma grows_el : forall n a b k, grows b k -> grows (Open n a :: b ++ [Close n]) [El n a k].
Proof.
  intros n a b k H n' a' acc st. cbn [fold_left feed]. rewrite fold_left_app, H. cbn [fold_left feed].
  rewrite String.eqb_refl, app_nil_r, rev_involutive. reflexivity.
Qed.
Lemma grows_parse : forall a k, grows a k -> parse a = Some k.
Proof. intros a k H. unfold parse. rewrite H, app_nil_r, rev_involutive. reflexivity. Qed.
Lemma grows_flat : forall A (f : A -> list item) g l, (forall x, In x l -> grows (f x) (g x)) -> grows (flat_map f l) (flat_map g l).
Proof.
  induction l as [|a l IH]; intros H; [apply grows_nil|]. cbn [flat_map].
  apply grows_app; [apply H; left; auto|apply IH; intros x X; apply H; right; auto].
Qed.

Lemma textOf_text : forall l : list item, textOf (map Tx l) = words l.
Proof.
  intros l. unfold textOf. rewrite map_map. rewrite (allOk_map _ _ _ (fun x => x)) by reflexivity. rewrite map_id. reflexivity.
Qed.

(** a written array is read back *)
Definition arrayNode (type name : string) (c : nat) (body : list item) : node :=
  El "DataArray" (arrayTag type name c) (map Tx body).
Lemma grows_dataArray : forall type name c body, forallb (fun i => negb (isTag i)) body = true ->
  grows (dataArray type name c body) [arrayNode type name c (Sp :: body ++ [Nl])].
Proof.
  intros type name c body H. unfold dataArray, arrayNode.
  replace (Open "DataArray" (arrayTag type name c) :: Sp :: body ++ [Nl; Close "DataArray"])
    with (Open "DataArray" (arrayTag type name c) :: (Sp :: body ++ [Nl]) ++ [Close "DataArray"])
    by (cbn [app]; rewrite <- app_assoc; reflexivity).
  apply grows_el, grows_text. cbn [forallb isTag negb andb]. rewrite forallb_app, H. reflexivity.
Qed.
Lemma array_read : forall type name c body w, isValue name = true -> yields body w ->
  array (arrayTag type name c, map Tx (Sp :: body ++ [Nl])) = Some (name, c, w).
Proof.
  intros type name c body w N H. unfold array. cbn [fst snd].
  change (attrName "Name" (arrayTag type name c)) with (if isValue name then Some name else None). rewrite N.
  change (attrNat "NumberOfComponents" (arrayTag type name c)) with (Some c). cbn [bind].
  rewrite textOf_text. rewrite (yields_words _ w).
  - reflexivity.
  - apply yields_skip; [reflexivity|]. rewrite <- (app_nil_r w). apply yields_app; [exact H|]. apply yields_space. reflexivity.
Qed.

(** ** Cells *)
Fixpoint ends (p : nat) (cells : list (list nat)) : list nat :=
  match cells with [] => [] | c :: r => (p + List.length c) :: ends (p + List.length c) r end.
Lemma cut_ends : forall cells p, cut p (ends p cells) (List.concat cells) = Some cells.
Proof.
  induction cells as [|c r IH]; intros p; [reflexivity|]. cbn [ends cut List.concat].
  replace (p + List.length c - p) with (List.length c) by lia. rewrite app_length.
  assert ((p <=? p + List.length c) && (List.length c <=? List.length c + List.length (List.concat r)) = true) as ->
    by (apply andb_true_iff; split; apply Nat.leb_le; lia).
  cbn [ensure bind]. rewrite skipn_app, Nat.sub_diag, skipn_all. cbn [skipn app]. rewrite IH. cbn [bind].
  rewrite firstn_app, Nat.sub_diag, firstn_all. cbn [firstn]. rewrite app_nil_r. reflexivity.
Qed.
Lemma ends_app : forall a b p, ends p (a ++ b) = ends p a ++ ends (p + List.length (List.concat a)) b.
Proof.
  induction a as [|c a IH]; intros b p; cbn [app ends List.concat List.length]; [rewrite Nat.add_0_r; reflexivity|].
  rewrite IH, app_length. rewrite Nat.add_assoc. reflexivity.
Qed.
Lemma ends_uniform : forall w cells p, Forall (fun c => List.length c = w) cells ->
  ends p cells = map (fun i => w * i + p) (seq 1 (List.length cells)).
Proof.
  intros w. induction cells as [|c r IH]; intros p F; [reflexivity|]. inversion F as [|? ? L F']; subst.
  cbn [ends List.length seq map]. rewrite (IH _ F'). f_equal; [lia|].
  rewrite (seq_from _ 2), (seq_from _ 1), !map_map. apply map_ext. intros; lia.
Qed.
Lemma concat_length : forall A (l : list (list A)) w, Forall (fun c => List.length c = w) l -> List.length (List.concat l) = w * List.length l.
Proof. induction l as [|c l IH]; intros w F; [cbn; lia|]. inversion F; subst. cbn [List.concat List.length]. rewrite app_length, (IH _ H2). nia. Qed.
End Facts.
