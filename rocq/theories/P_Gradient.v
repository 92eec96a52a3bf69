(** Writing gradients: proofs. *)
From Coq Require Import ZArith QArith Bool List Arith Lia.
From Verif Require Import M_Mesh M_Quad M_Map S_Mesh S_Map M_Gradient S_Gradient.
Import ListNotations.
Open Scope nat_scope.

Lemma nth_skip A (l : list A) n k x : nth k (skipn n l) x = nth (n + k) l x.
Proof. revert l. induction n as [|n IH]; intros l; [reflexivity|]. destruct l as [|a l]; [destruct k; reflexivity|]. exact (IH l). Qed.
Lemma nth_first A (l : list A) n k x : k < n -> nth k (firstn n l) x = nth k l x.
Proof. revert l k. induction n as [|n IH]; intros l k H; [lia|]. destruct l as [|a l]; [reflexivity|]. destruct k as [|k]; [reflexivity|]. cbn. apply IH. lia. Qed.
Lemma nth_column w m i k : k < w -> nth k (getColumn w m i) 0%Q = nth (i * w + k) m 0%Q.
Proof. intros K. unfold getColumn. rewrite nth_first by auto. apply nth_skip. Qed.
Lemma column_length w m i n : length m = n * w -> i < n -> length (getColumn w m i) = w.
Proof. intros L I. unfold getColumn. rewrite firstn_length, skipn_length. nia. Qed.
Lemma list_ext (a b : list Q) : length a = length b -> (forall k, k < length a -> nth k a 0%Q = nth k b 0%Q) -> a = b.
Proof. intros L H. apply (nth_ext a b 0%Q 0%Q L H). Qed.
Lemma blockAt_length w m i : length (blockAt w m i) = w.
Proof. unfold blockAt. rewrite map_length, seq_length. reflexivity. Qed.
Lemma blockAt_nth w m i k : k < w -> nth k (blockAt w m i) 0%Q = nth (i * w + k) m 0%Q.
Proof.
  intros K. unfold blockAt. rewrite (nth_indep _ 0%Q (nth (i * w + 0) m 0%Q)) by (rewrite map_length, seq_length; auto).
  rewrite (map_nth (fun k => nth (i * w + k) m 0%Q)), seq_nth by auto. reflexivity.
Qed.
Lemma column_block w m i n : length m = n * w -> i < n -> getColumn w m i = blockAt w m i.
Proof.
  intros L I. apply list_ext; rewrite (column_length w m i n L I); [symmetry; apply blockAt_length|].
  intros k K. rewrite nth_column, blockAt_nth by auto. reflexivity.
Qed.

Lemma put_length w n m vc : length m = n * w -> fst vc < n -> length (snd vc) = w -> length (putColumn w m vc) = n * w.
Proof. intros L V C. unfold putColumn. rewrite !app_length, firstn_length, skipn_length. nia. Qed.
Lemma put_block w n m vc u : length m = n * w -> fst vc < n -> u < n -> length (snd vc) = w ->
  blockAt w (putColumn w m vc) u = if fst vc =? u then snd vc else blockAt w m u.
Proof.
  intros L V U C. destruct vc as (v, c). cbn [fst snd] in *. unfold putColumn. cbn [fst snd].
  assert (FL : length (firstn (v * w) m) = v * w) by (rewrite firstn_length; nia).
  apply list_ext; [destruct (v =? u); rewrite ?blockAt_length; auto|]. rewrite blockAt_length. intros k K. rewrite blockAt_nth by auto.
  destruct (Nat.eqb_spec v u) as [->|NE].
  - rewrite app_nth2 by nia. rewrite FL. rewrite app_nth1 by lia. f_equal. nia.
  - rewrite blockAt_nth by auto. destruct (Nat.lt_ge_cases u v) as [H|H].
    + rewrite app_nth1 by nia. rewrite nth_first by nia. reflexivity.
    + rewrite app_nth2 by nia. rewrite FL. rewrite app_nth2 by nia. rewrite nth_skip. f_equal. nia.
Qed.

Lemma find_last (l : list (nat * list Q)) p v : find (fun q => fst q =? v) (rev (l ++ [p])) = if fst p =? v then Some p else find (fun q => fst q =? v) (rev l).
Proof. rewrite rev_app_distr. cbn [rev app find]. reflexivity. Qed.
Lemma latest_snoc w l p v : latest w (l ++ [p]) v = if fst p =? v then snd p else latest w l v.
Proof. unfold latest. rewrite find_last. destruct (fst p =? v); reflexivity. Qed.

(** the memory [m] of [n] vertices holds what [hist] says *)
Definition holds (w n : nat) (m : list Q) (hist : list (nat * list Q)) : Prop :=
  length m = n * w /\ (forall v, v < n -> blockAt w m v = latest w hist v) /\ Forall (fun p => fst p < n) hist.
Lemma holds_fold w n : forall ps m hist, holds w n m hist -> Forall (fun p => fst p < n /\ length (snd p) = w) ps ->
  holds w n (fold_left (putColumn w) ps m) (hist ++ ps).
Proof.
  induction ps as [|p ps IH]; intros m hist (L & B & F) FP; [rewrite app_nil_r; repeat split; auto|].
  apply Forall_cons_iff in FP. destruct FP as ((P1 & P2) & FP'). cbn [fold_left]. replace (hist ++ p :: ps) with ((hist ++ [p]) ++ ps) by (rewrite <- app_assoc; reflexivity).
  apply IH; [|exact FP']. split; [apply put_length; auto|]. split.
  - intros v V. rewrite (put_block w n) by auto. rewrite latest_snoc. destruct (fst p =? v); auto.
  - apply Forall_app. split; [exact F|]. constructor; auto.
Qed.
Lemma combine_columns w (input : list Q) ids : length input = length ids * w ->
  combine ids (map (getColumn w input) (seq 0 (length ids))) = blocks w ids input.
Proof.
  intros L. unfold blocks. f_equal. apply map_ext_in. intros i I. apply in_seq in I. apply (column_block w input i (length ids) L). lia.
Qed.
Lemma blocks_ok w n (input : list Q) ids : forallb (fun v => v <? n) ids = true -> Forall (fun p => fst p < n /\ length (snd p) = w) (blocks w ids input).
Proof.
  intros F. apply Forall_forall. intros (v, c) P. assert (P' := P). unfold blocks in *. apply in_combine_l in P. apply in_combine_r in P'.
  rewrite forallb_forall in F. split; [apply Nat.ltb_lt, F, P|]. apply in_map_iff in P'. destruct P' as (i & <- & _). apply blockAt_length.
Qed.
Lemma holds_write w n m hist ids input : holds w n m hist -> forallb (fun v => v <? n) ids = true -> length ids * w = length input ->
  holds w n (writeColumns w ids input m) (hist ++ blocks w ids input).
Proof. intros H F L. unfold writeColumns. rewrite combine_columns by auto. apply holds_fold; [exact H|apply blocks_ok, F]. Qed.
Lemma holds_enlarge w n k m hist : holds w n m hist -> holds w (n + k) (enlarge ((n + k) * w) m) hist.
Proof.
  intros (L & B & F). unfold enlarge. rewrite firstn_all2 by nia. split; [rewrite app_length, repeat_length; nia|]. split.
  - intros v V. apply list_ext; [rewrite blockAt_length; unfold latest|].
    { destruct (Nat.lt_ge_cases v n) as [H|H].
      - fold (latest w hist v). rewrite <- (B v H). symmetry. apply blockAt_length.
      - destruct (find _ _) as [p|] eqn:E; [|symmetry; apply repeat_length]. apply find_some in E. destruct E as (E1 & E2).
        apply in_rev in E1. rewrite Forall_forall in F. specialize (F p E1). apply Nat.eqb_eq in E2. lia. }
    rewrite blockAt_length. intros q Q0. rewrite blockAt_nth by auto. destruct (Nat.lt_ge_cases v n) as [H|H].
    + rewrite app_nth1 by nia. rewrite <- (B v H), blockAt_nth by auto. reflexivity.
    + rewrite app_nth2 by nia. unfold latest. destruct (find _ _) as [p|] eqn:E.
      { apply find_some in E. destruct E as (E1 & E2). apply in_rev in E1. rewrite Forall_forall in F. specialize (F p E1). apply Nat.eqb_eq in E2. lia. }
      rewrite !nth_repeat. reflexivity.
  - eapply Forall_impl; [|exact F]. cbn. intros; lia.
Qed.

(** the state after calls *)
Definition tracks (dim dims : nat) (g : bool) (c : context) (calls : list call) : Prop :=
  wc_dim c = dim /\ wc_dims c = dims /\ wc_grad c = g /\ wc_count c = verticesSet calls /\
  holds dims (wc_count c) (wc_values c) (valuesWritten dims calls) /\
  (g = true -> holds (dim * dims) (wc_count c) (wc_gradients c) (gradientsWritten (dim * dims) calls)).
Lemma verticesSet_snoc l x : verticesSet (l ++ [x]) = verticesSet l + match x with SetVertices k => k | _ => 0 end.
Proof. unfold verticesSet. rewrite map_app, list_sum_app. cbn. lia. Qed.
Lemma track_call dim dims g c calls x c' : tracks dim dims g c calls -> x <> ResetMesh -> doCall c x = Some c' -> tracks dim dims g c' (calls ++ [x]).
Proof.
  intros (D1 & D2 & D3 & D4 & HV & HG) NR E. unfold tracks. rewrite verticesSet_snoc. unfold valuesWritten, gradientsWritten. rewrite !flat_map_app. cbn [flat_map]. rewrite !app_nil_r.
  fold (valuesWritten dims calls). fold (gradientsWritten (dim * dims) calls).
  destruct x as [k| |ids v|ids gr]; [| congruence | |]; cbn [doCall] in E.
  - injection E as <-. unfold resizeBufferTo. cbn [wc_dim wc_dims wc_grad wc_count wc_values wc_gradients]. rewrite !app_nil_r. rewrite D1, D2.
    split; [reflexivity|]. split; [reflexivity|]. split; [exact D3|]. split; [lia|]. split; [apply holds_enlarge, HV|].
    intros G. rewrite D3, G. replace (dim * ((wc_count c + k) * dims)) with ((wc_count c + k) * (dim * dims)) by lia. apply holds_enlarge, HG, G.
  - rewrite Nat.add_0_r, app_nil_r. destruct (isEmpty ids && isEmpty v) eqn:EM.
    + injection E as <-. apply andb_true_iff in EM. destruct EM as (E1 & _). destruct ids; [|discriminate]. unfold blocks. cbn [length seq map combine]. rewrite !app_nil_r.
      split; [exact D1|]. split; [exact D2|]. split; [exact D3|]. split; [exact D4|]. split; [exact HV|exact HG].
    + destruct (forallb _ ids && _) eqn:F; [|discriminate]. injection E as <-. apply andb_true_iff in F. destruct F as (F1 & F2). apply Nat.eqb_eq in F2.
      unfold writeValues. cbn [wc_dim wc_dims wc_grad wc_count wc_values wc_gradients]. rewrite D2 in *.
      split; [exact D1|]. split; [reflexivity|]. split; [exact D3|]. split; [exact D4|]. split; [apply holds_write; auto|exact HG].
  - rewrite Nat.add_0_r, app_nil_r. destruct ((isEmpty ids && isEmpty gr) || negb (wc_grad c)) eqn:EM.
    + injection E as <-. split; [exact D1|]. split; [exact D2|]. split; [exact D3|]. split; [exact D4|]. split; [exact HV|]. intros G.
      rewrite D3, G in EM. cbn [negb] in EM. rewrite orb_false_r in EM. apply andb_true_iff in EM. destruct EM as (E1 & _). destruct ids; [|discriminate].
      unfold blocks. cbn. rewrite app_nil_r. apply HG, G.
    + destruct (forallb _ ids && _) eqn:F; [|discriminate]. injection E as <-. apply andb_true_iff in F. destruct F as (F1 & F2). apply Nat.eqb_eq in F2.
      unfold writeGradients. cbn [wc_dim wc_dims wc_grad wc_count wc_values wc_gradients]. rewrite D1, D2 in *.
      split; [reflexivity|]. split; [reflexivity|]. split; [exact D3|]. split; [exact D4|]. split; [exact HV|]. intros G. apply holds_write; auto.
Qed.
Lemma track_calls dim dims g : forall l c done c', tracks dim dims g c done -> noReset l -> doCalls c l = Some c' -> tracks dim dims g c' (done ++ l).
Proof.
  induction l as [|x l IH]; intros c done c' T NR E; cbn [doCalls] in E.
  - injection E as <-. rewrite app_nil_r. exact T.
  - destruct (doCall c x) as [c1|] eqn:EC; [|discriminate]. replace (done ++ x :: l) with ((done ++ [x]) ++ l) by (rewrite <- app_assoc; reflexivity).
    apply (IH c1); [|intros H; apply NR; right; exact H|exact E]. eapply track_call; [exact T| |exact EC]. intros ->. apply NR. left. reflexivity.
Qed.
Lemma track_fresh dim dims g : tracks dim dims g (fresh dim dims g) [].
Proof. repeat split; cbn; auto; intros; lia. Qed.
Lemma track dim dims g calls c : noReset calls -> doCalls (fresh dim dims g) calls = Some c -> tracks dim dims g c calls.
Proof. intros NR E. exact (track_calls dim dims g calls _ [] c (track_fresh dim dims g) NR E). Qed.

(** the stored gradients *)
Lemma stored_column dim dims c calls v d k : tracks dim dims true c calls -> v < wc_count c -> d < dims -> k < dim ->
  nth k (nth (v * dims + d) (snd (stored c)) []) 0%Q = nth (d * dim + k) (latest (dim * dims) (gradientsWritten (dim * dims) calls) v) 0%Q.
Proof.
  intros (D1 & D2 & D3 & _ & _ & HG) V D K. destruct (HG eq_refl) as (L & B & _). unfold stored. rewrite D3. cbn [snd]. unfold columns. rewrite D1, D2.
  rewrite (nth_indep _ [] (getColumn dim (wc_gradients c) 0)) by (rewrite map_length, seq_length; nia).
  rewrite map_nth, seq_nth by nia. cbn [Nat.add]. rewrite nth_column by auto. rewrite <- (B v V), blockAt_nth by nia. f_equal. nia.
Qed.
Lemma stored_shape dim dims c calls : tracks dim dims true c calls ->
  length (snd (stored c)) = wc_count c * dims /\ (forall g, In g (snd (stored c)) -> length g = dim).
Proof.
  intros (D1 & D2 & D3 & _ & _ & HG). destruct (HG eq_refl) as (L & _ & _). unfold stored. rewrite D3. cbn [snd]. unfold columns. rewrite D1, D2. split.
  - rewrite map_length, seq_length. reflexivity.
  - intros g G. apply in_map_iff in G. destruct G as (i & <- & I). apply in_seq in I. apply (column_length dim _ i (wc_count c * dims)); nia.
Qed.
