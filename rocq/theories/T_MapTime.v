(** Mapping samples over time: the theorems for C55. *)
From Coq Require Import ZArith Bool List Lia Sorted Arith.
From Verif Require Import M_Time M_Wave M_WaveCache M_MapTime S_Wave S_MapTime P_Wave P_MapTime.
Import ListNotations.
Open Scope nat_scope.

Section C55.
Context {X : Type}.
Variable eps : Z.
Hypothesis E0 : (0 <= eps)%Z.
Variable small : X -> bool.
Implicit Types (w src tgt old new : wave X) (c : context X) (s : store X) (p : participant X).

Local Notation mapped := (mapped small).
Local Notation mapped_sample := (mapped_sample small).

(** * One mapping *)
(** what a successful mapping did *)
Theorem C55_missing_times_are_mapped : forall c after skipZero s s' n,
  cx_from c <> cx_to c -> ordered eps (s (cx_from c)) -> ordered eps (s (cx_to c)) ->
  mapContext eps small after skipZero c s = Ok (s', n) ->
  (forall d, d <> cx_to c -> s' d = s d) /\ ordered eps (s' (cx_to c)) /\
  exists added, s' (cx_to c) = s (cx_to c) ++ added /\
  (forall t x, In (t, x) (s (cx_from c)) -> later eps after t -> exists u, In u (map fst (s' (cx_to c))) /\ same_time eps u t) /\
  (forall t y, In (t, y) added -> later eps after t /\ (forall u, In u (map fst (s (cx_to c))) -> ~ same_time eps u t) /\
     exists x, In (t, x) (s (cx_from c)) /\ y = mapped_sample c skipZero x).
Proof.
  intros c after skipZero s s' n NE OF OT H. apply ordered_ord in OF. apply ordered_ord in OT.
  destruct (mapContext_conv eps E0 small after skipZero c s s' n OF OT H) as (NN & HM).
  destruct (mapContext_ok eps E0 small after skipZero c s NN OF OT HM) as (n' & E). rewrite H in E. injection E as -> ->.
  split; [intros d D; apply upd_other; exact D|]. rewrite upd_same.
  assert (OM : Ord eps (map (imageOf small c skipZero) (filter (missing eps after (map fst (s (cx_to c)))) (s (cx_from c))))).
  { apply (ord_map eps (fun _ x => mapped_sample c skipZero x)). apply ord_filter. exact OF. }
  split.
  { apply ord_ordered. apply ord_append; auto. intros a b A B. apply in_map_iff in B. destruct B as (q & <- & Q).
    apply filter_In in Q. apply (HM q (proj1 Q) (proj2 Q)). apply in_map. exact A. }
  eexists. split; [reflexivity|]. split.
  - intros t x I L. destruct (timestampExists eps (map fst (s (cx_to c))) t) eqn:TE.
    + apply exists_spec in TE. destruct TE as (u & U & S). exists u. split; auto. rewrite map_app, in_app_iff. left. exact U.
    + exists t. split; [|unfold same_time; rewrite Z.sub_diag; exact E0]. rewrite map_app, in_app_iff. right. rewrite map_map. cbn [imageOf fst].
      apply in_map_iff. exists (t, x). split; auto. apply filter_In. split; auto. unfold missing. cbn [fst]. rewrite TE.
      rewrite (proj2 (isLater_spec eps after t) L). reflexivity.
  - intros t y I. apply in_map_iff in I. destruct I as ((t', x) & E & Q). unfold imageOf in E. cbn [fst snd] in E. injection E as -> <-.
    apply filter_In in Q. destruct Q as (Q & M). unfold missing in M. cbn [fst] in M. apply andb_true_iff in M. destruct M as (ML & MT).
    split; [apply isLater_spec; exact ML|]. split; [|exists x; auto]. intros u U S. apply negb_true_iff in MT.
    assert (timestampExists eps (map fst (s (cx_to c))) t = true) by (apply exists_spec; eauto). congruence.
Qed.

(** when it succeeds: there is something to map, and nothing is missing before the
    end of the target *)
Theorem C55_mapping_succeeds : forall c after skipZero s,
  ordered eps (s (cx_from c)) -> ordered eps (s (cx_to c)) ->
  ((exists s' n, mapContext eps small after skipZero c s = Ok (s', n)) <->
   s (cx_from c) <> [] /\
   forall t x, In (t, x) (s (cx_from c)) -> later eps after t ->
     (exists u, In u (map fst (s (cx_to c))) /\ same_time eps u t) \/
     (forall u, In u (map fst (s (cx_to c))) -> (u + eps < t)%Z)).
Proof.
  intros c after skipZero s OF OT. apply ordered_ord in OF. apply ordered_ord in OT. split.
  - intros (s' & n & H). destruct (mapContext_conv eps E0 small after skipZero c s s' n OF OT H) as (NN & HM). split; auto.
    intros t x I L. destruct (timestampExists eps (map fst (s (cx_to c))) t) eqn:TE; [left; apply exists_spec; exact TE|].
    right. apply (HM (t, x) I). unfold missing. cbn [fst]. rewrite TE, (proj2 (isLater_spec eps after t) L). reflexivity.
  - intros (NN & H). destruct (mapContext_ok eps E0 small after skipZero c s NN OF OT) as (n & E); [|eauto].
    intros (t, x) I M. unfold missing in M. cbn [fst] in M. apply andb_true_iff in M. destruct M as (ML & MT).
    destruct (H t x I (proj1 (isLater_spec eps after t) ML)) as [T|T]; [|exact T].
    apply exists_spec in T. rewrite T in MT. discriminate.
Qed.

(** mapping from data without samples is reported *)
Theorem C55_missing_data_is_reported : forall c after skipZero s, s (cx_from c) = [] ->
  mapContext eps small after skipZero c s = Reported.
Proof. intros c after skipZero s H. unfold mapContext. rewrite H. reflexivity. Qed.

(** * Helpers *)
Lemma fold_read (complete : bool) t (rcv : implicitData) : forall cs s, NoDup (map cx_to cs) ->
  (forall d, ~ In d (map cx_to cs) -> fold_left (trimRead eps complete t rcv) cs s d = s d) /\
  (forall c, In c cs -> fold_left (trimRead eps complete t rcv) cs s (cx_to c) =
     match rcv (cx_from c) with
     | None => s (cx_to c)
     | Some keep => if complete then (if keep then w_clearExceptLast (s (cx_to c)) else []) else w_trimAfter eps (s (cx_to c)) t
     end).
Proof.
  induction cs as [|c r IH]; intros s ND; cbn [fold_left map].
  - split; [reflexivity|intros c []].
  - inversion ND as [|a b NI ND']; subst. destruct (IH (trimRead eps complete t rcv s c) ND') as (K & V).
    assert (O : forall d, d <> cx_to c -> trimRead eps complete t rcv s c d = s d).
    { intros d D. unfold trimRead. destruct (rcv (cx_from c)); [apply upd_other; exact D|reflexivity]. }
    split.
    + intros d D. rewrite K by (intro I; apply D; right; exact I). apply O. intro Q. apply D. left. symmetry. exact Q.
    + intros c' [<-|I].
      * rewrite K by exact NI. unfold trimRead. destruct (rcv (cx_from c)) as [k|]; [rewrite upd_same; destruct complete, k; reflexivity|reflexivity].
      * rewrite (V c' I). assert (D : cx_to c' <> cx_to c) by (intro Q; apply NI; rewrite <- Q; apply in_map; exact I).
        rewrite (O _ D). reflexivity.
Qed.
Lemma fold_trim t : forall (l : list nat) s d,
  fold_left (fun s d => upd s d (w_trimAfter eps (s d) t)) l s d = if existsb (Nat.eqb d) l then w_trimAfter eps (s d) t else s d.
Proof.
  assert (TT : forall w, w_trimAfter eps (w_trimAfter eps w t) t = w_trimAfter eps w t).
  { intro w. unfold w_trimAfter. induction w as [|q r IH]; cbn; auto. destruct (negb (greater eps (fst q) t)) eqn:E; cbn; [rewrite E, IH; reflexivity|exact IH]. }
  induction l as [|e l IH]; intros s d; cbn [fold_left existsb]; auto. rewrite IH.
  destruct (Nat.eqb_spec d e) as [->|N]; cbn [orb].
  - rewrite upd_same. rewrite TT. destruct (existsb (Nat.eqb e) l); reflexivity.
  - rewrite upd_other by exact N. reflexivity.
Qed.
Lemma fold_send t : forall (cs : list (writeContext X)) s d,
  fold_left (fun s wc => trimSend eps wc t s) cs s d =
  if existsb (Nat.eqb d) (flat_map (fun wc => wc_data wc :: map cx_to (wc_mappings wc)) cs) then w_trimAfter eps (s d) t else s d.
Proof.
  assert (TT : forall w, w_trimAfter eps (w_trimAfter eps w t) t = w_trimAfter eps w t).
  { intro w. unfold w_trimAfter. induction w as [|q r IH]; cbn; auto. destruct (negb (greater eps (fst q) t)) eqn:E; cbn; [rewrite E, IH; reflexivity|exact IH]. }
  induction cs as [|c r IH]; intros s d; cbn [fold_left flat_map]; [reflexivity|]. rewrite IH. unfold trimSend. rewrite !fold_trim.
  rewrite existsb_app. destruct (existsb (Nat.eqb d) (wc_data c :: map cx_to (wc_mappings c))); cbn [orb]; [|reflexivity].
  rewrite TT. destruct (existsb _ _); reflexivity.
Qed.
Lemma existsb_false d l : ~ In d l -> existsb (Nat.eqb d) l = false.
Proof. intro N. apply not_true_is_false. intro H. apply existsb_exists in H. destruct H as (e & I & E). apply Nat.eqb_eq in E. congruence. Qed.
Lemma existsb_true d l : In d l -> existsb (Nat.eqb d) l = true.
Proof. intro I. apply existsb_exists. exists d. split; auto. apply Nat.eqb_refl. Qed.

Lemma trimBefore_all w t : (forall q, In q w -> (t - eps <= fst q)%Z) -> w_trimBefore eps w t = w.
Proof.
  induction w as [|q r IH]; intro H; auto. unfold w_trimBefore, w_trimAfter in *. cbn [filter]. rewrite IH by (intros; apply H; right; auto).
  assert (A := H q (or_introl eq_refl)). unfold smaller. destruct (Z.ltb_spec (fst q - t) (- eps)); [lia|reflexivity].
Qed.
Lemma trimBefore_none w t : (forall q, In q w -> (fst q < t - eps)%Z) -> w_trimBefore eps w t = [].
Proof.
  induction w as [|q r IH]; intro H; auto. unfold w_trimBefore, w_trimAfter in *. cbn [filter]. rewrite IH by (intros; apply H; right; auto).
  assert (A := H q (or_introl eq_refl)). unfold smaller. destruct (Z.ltb_spec (fst q - t) (- eps)); [reflexivity|lia].
Qed.
Lemma trimAfter_none w t : (forall q, In q w -> (t + eps < fst q)%Z) -> w_trimAfter eps w t = [].
Proof.
  induction w as [|q r IH]; intro H; auto. unfold w_trimBefore, w_trimAfter in *. cbn [filter]. rewrite IH by (intros; apply H; right; auto).
  assert (A := H q (or_introl eq_refl)). unfold greater. destruct (Z.ltb_spec eps (fst q - t)); [reflexivity|lia].
Qed.
Lemma trimBefore_app a b t : w_trimBefore eps (a ++ b : wave X) t = w_trimBefore eps a t ++ w_trimBefore eps b t.
Proof. apply filter_app. Qed.
Lemma w_last_app (b : wave X) q : w_last (b ++ [q]) = Some q.
Proof. induction b as [|x r IH]; cbn; auto. destruct r; [reflexivity|exact IH]. Qed.

Lemma mapOne_empty skipZero c s : s (cx_to c) = [] -> mapOne eps small None skipZero c s = map (imageOf small c skipZero) (s (cx_from c)).
Proof.
  intro H. unfold mapOne. rewrite H. cbn [app map]. f_equal. induction (s (cx_from c)) as [|q r IH]; cbn; auto. f_equal. exact IH.
Qed.
Lemma mapOne_first skipZero c s t x y r : s (cx_from c) = (t, x) :: r -> Ord eps (s (cx_from c)) -> s (cx_to c) = [(t, y)] ->
  mapOne eps small None skipZero c s = (t, y) :: map (imageOf small c skipZero) r.
Proof.
  intros HF O HT. unfold mapOne. rewrite HT, HF in *. inversion O as [|a b OR F]; subst. cbn [map fst filter].
  assert (M : missing eps None [t] (t, x) = false).
  { unfold missing. cbn [fst isLater negb andb]. assert (timestampExists eps [t] t = true) as ->; [|reflexivity].
    apply exists_spec. exists t. split; [left; reflexivity|]. unfold same_time. rewrite Z.sub_diag. exact E0. }
  rewrite M. cbn [app]. f_equal. f_equal. rewrite Forall_forall in F. clear -E0 F. induction r as [|q r IH]; cbn [filter]; auto.
  assert (A := F q (or_introl eq_refl)). unfold lt_eps in A. cbn [fst] in A.
  assert (timestampExists eps [t] (fst q) = false) as M.
  { apply not_true_is_false. intro H. apply exists_spec in H. destruct H as (u & [<-|[]] & S). unfold same_time in S. lia. }
  unfold missing at 1. rewrite M. cbn. f_equal. apply IH. intros q' Q'. apply F. right. exact Q'.
Qed.
Lemma mapOne_same skipZero c s : map fst (s (cx_to c)) = map fst (s (cx_from c)) -> mapOne eps small None skipZero c s = s (cx_to c).
Proof.
  intro H. unfold mapOne. rewrite H. replace (filter _ _) with (@nil (Z * X)); [apply app_nil_r|].
  symmetry. assert (G : forall q, In q (s (cx_from c)) -> missing eps None (map fst (s (cx_from c))) q = false).
  { intros q Q. unfold missing. cbn [isLater negb andb]. assert (timestampExists eps (map fst (s (cx_from c))) (fst q) = true) as ->; [|reflexivity].
    apply exists_spec. exists (fst q). split; [apply in_map; exact Q|]. unfold same_time. rewrite Z.sub_diag. exact E0. }
  clear H. revert G. generalize (map fst (s (cx_from c))) as times. generalize (s (cx_from c)) as l.
  induction l as [|q r IH]; intros times G; cbn [filter]; auto. rewrite (G q (or_introl eq_refl)). apply IH. intros; apply G; right; auto.
Qed.
Lemma mapped_image c skipZero src : mapped c src (map (imageOf small c skipZero) src).
Proof. unfold S_MapTime.mapped. induction src as [|q r IH]; cbn; constructor; auto. split; [reflexivity|]. exists skipZero. reflexivity. Qed.
Lemma mapped_times c src tgt : mapped c src tgt -> map fst tgt = map fst src.
Proof. induction 1 as [|a b l l' (A & _) _ IH]; cbn; congruence. Qed.
Lemma mapped_app c a b tgt : mapped c (a ++ b) tgt -> exists a' b', tgt = a' ++ b' /\ mapped c a a' /\ mapped c b b'.
Proof. intro H. apply Forall2_app_inv_l in H. destruct H as (a' & b' & A & B & ->). eauto. Qed.

(** * The data that is read *)
(** Before: read data is the mapped received data [s0].  The coupling scheme
    receives new data, giving [s].  Afterwards the read data is again the mapped
    received data, at all its time stamps, and no assertion fails. *)
Theorem C55_read_data_is_the_mapped_received_data : forall p s0 s (complete : bool) stepped now (rcv : implicitData),
  well_wired p ->
  (forall c, In c (readContexts p) -> mapped c (s0 (cx_from c)) (s0 (cx_to c)) /\ s (cx_to c) = s0 (cx_to c)) ->
  (forall c, In c (readContexts p) -> s (cx_from c) <> [] /\ ordered eps (s (cx_from c)) /\ ordered eps (s0 (cx_from c)) /\
     (forall t x, In (t, x) (s (cx_from c)) -> (now - eps <= t)%Z)) ->
  (if complete then (stepped - eps <= now)%Z else (now + eps < stepped)%Z) ->
  (forall c, In c (readContexts p) ->
     let old := s0 (cx_from c) in let new := s (cx_from c) in
     match rcv (cx_from c) with
     | Some false => complete = false -> restarts old new /\ (forall q, In q (tl old) -> (now + eps < fst q)%Z) /\ (forall q, hd_error old = Some q -> (fst q <= now + eps)%Z)
     | Some true => if complete then continues old new
                    else restarts old new /\ (forall q, In q (tl old) -> (now + eps < fst q)%Z) /\ (forall q, hd_error old = Some q -> (fst q <= now + eps)%Z)
     | None => if complete then (forall q, In q old -> (fst q < now - eps)%Z) \/
                                (continues old new /\ forall q, In q old -> In q new \/ (fst q < now - eps)%Z)
               else new = old
     end) ->
  exists s', handleDataAfterAdvance eps small p true complete stepped now now rcv s = Ok s' /\
  forall c, In c (readContexts p) -> s' (cx_from c) = s (cx_from c) /\ mapped c (s' (cx_from c)) (s' (cx_to c)).
Proof.
  intros p s0 s complete stepped now rcv (ND & _ & NS & DJ & _) HM HS HT HR.
  set (s1 := if complete then trimOldDataBefore eps now s else trimSendDataAfter eps p now s).
  set (s2 := trimReadMappedData eps p now complete rcv s1).
  destruct (fold_read complete now rcv (readContexts p) s1 ND) as (K2 & V2). fold (trimReadMappedData eps p now complete rcv s1) in K2, V2. fold s2 in K2, V2.
  assert (F1 : forall c, In c (readContexts p) -> s1 (cx_from c) = s (cx_from c)).
  { intros c I. unfold s1. destruct complete.
    - unfold trimOldDataBefore. apply trimBefore_all. intros (t, x) Q. apply (proj2 (proj2 (proj2 (HS c I))) t x Q).
    - unfold trimSendDataAfter. rewrite fold_send. rewrite existsb_false; [reflexivity|]. apply DJ. unfold read_data. apply in_or_app. left. apply in_map. exact I. }
  assert (F2 : forall c, In c (readContexts p) -> s2 (cx_from c) = s (cx_from c)).
  { intros c I. rewrite K2 by (apply NS; exact I). apply F1. exact I. }
  assert (T1 : forall c, In c (readContexts p) -> s1 (cx_to c) = if complete then w_trimBefore eps (s0 (cx_to c)) now else s0 (cx_to c)).
  { intros c I. rewrite <- (proj2 (HM c I)). unfold s1. destruct complete; [reflexivity|].
    unfold trimSendDataAfter. rewrite fold_send. rewrite existsb_false; [reflexivity|]. apply DJ. unfold read_data. apply in_or_app. right. apply in_map. exact I. }
  (* the state of each target before mapping *)
  assert (CASES : forall c, In c (readContexts p) ->
     s2 (cx_to c) = [] \/
     (exists t x y r, s (cx_from c) = (t, x) :: r /\ s2 (cx_to c) = [(t, y)] /\ exists k, y = mapped_sample c k x) \/
     (s (cx_from c) = s0 (cx_from c) /\ s2 (cx_to c) = s0 (cx_to c))).
  { intros c I. rewrite (V2 c I), (T1 c I). destruct (HM c I) as (M & _). assert (R := HR c I). cbv zeta in R.
    destruct (HS c I) as (_ & OS & OS0 & GE).
    destruct (rcv (cx_from c)) as [[|]|].
    - destruct complete.
      + right; left. destruct R as (q & b & a & EO & EN). rewrite EO in M. destruct (mapped_app _ _ _ _ M) as (b' & l' & EL & _ & ML).
        inversion ML as [|q0 q' x0 l0 (FT & k & FX) NIL]; subst. inversion NIL; subst. destruct q as (t, x), q' as (t', y). cbn [fst snd] in *. subst t'.
        exists t, x, y, a. split; [exact EN|]. split; [|exists k; exact FX]. rewrite EL, trimBefore_app.
        assert (KT : w_trimBefore eps [(t, y)] now = [(t, y)]).
        { apply trimBefore_all. intros q [<-|[]]. cbn. apply (GE t x). rewrite EN. left. reflexivity. }
        rewrite KT. unfold w_clearExceptLast. rewrite w_last_app. reflexivity.
      + right; left. destruct R as ((q & r & r' & EO & EN) & GT & LE). rewrite EO in M, GT, LE. cbn [tl hd_error] in GT, LE.
        inversion M as [|q0 q' r0 l' (FT & k & FX) MR E1 E2]; subst. destruct q as (t, x), q' as (t', y). cbn [fst snd] in *. subst t'.
        exists t, x, y, r'. split; [exact EN|]. split; [|exists k; exact FX].
        cbn [w_trimAfter filter fst]. assert (A := LE (t, x) eq_refl). cbn [fst] in A. unfold greater at 1. destruct (Z.ltb_spec eps (t - now)); [lia|].
        cbn [negb]. f_equal. apply trimAfter_none. intros q Q. assert (Q' : In (fst q) (map fst r)) by (rewrite <- (mapped_times c r l' MR); apply in_map; exact Q).
        apply in_map_iff in Q'. destruct Q' as (q1 & <- & Q1). apply GT. exact Q1.
    - destruct complete; [left; reflexivity|]. right; left. destruct (R eq_refl) as ((q & r & r' & EO & EN) & GT & LE). rewrite EO in M, GT, LE. cbn [tl hd_error] in GT, LE.
      inversion M as [|q0 q' r0 l' (FT & k & FX) MR E1 E2]; subst. destruct q as (t, x), q' as (t', y). cbn [fst snd] in *. subst t'.
      exists t, x, y, r'. split; [exact EN|]. split; [|exists k; exact FX].
      cbn [w_trimAfter filter fst]. assert (A := LE (t, x) eq_refl). cbn [fst] in A. unfold greater at 1. destruct (Z.ltb_spec eps (t - now)); [lia|].
      cbn [negb]. f_equal. apply trimAfter_none. intros q Q. assert (Q' : In (fst q) (map fst r)) by (rewrite <- (mapped_times c r l' MR); apply in_map; exact Q).
      apply in_map_iff in Q'. destruct Q' as (q1 & <- & Q1). apply GT. exact Q1.
    - destruct complete.
      + destruct R as [ALL|((q & b & a & EO & EN) & SPLIT)].
        * left. apply trimBefore_none. intros q Q. assert (Q' : In (fst q) (map fst (s0 (cx_from c)))) by (rewrite <- (mapped_times c _ _ M); apply in_map; exact Q).
          apply in_map_iff in Q'. destruct Q' as (q1 & <- & Q1). apply ALL. exact Q1.
        * right; left. rewrite EO in M. destruct (mapped_app _ _ _ _ M) as (b' & l' & EL & MB & ML).
          inversion ML as [|q0 q' x0 l0 (FT & k & FX) NIL]; subst. inversion NIL; subst. destruct q as (t, x), q' as (t', y). cbn [fst snd] in *. subst t'.
          exists t, x, y, a. split; [exact EN|]. split; [|exists k; exact FX]. rewrite EL, trimBefore_app.
          assert (KT : w_trimBefore eps [(t, y)] now = [(t, y)]).
          { apply trimBefore_all. intros q [<-|[]]. cbn. apply (GE t x). rewrite EN. left. reflexivity. }
          rewrite KT. rewrite trimBefore_none; [reflexivity|]. intros q Q.
          assert (Q' : In (fst q) (map fst b)) by (rewrite <- (mapped_times c b b' MB); apply in_map; exact Q).
          apply in_map_iff in Q'. destruct Q' as (q1 & <- & Q1).
          destruct (SPLIT q1) as [IN|LT]; [rewrite EO; apply in_or_app; left; exact Q1| |exact LT].
          exfalso. (* q1 before (t,x) in old, but not before in new *)
          apply ordered_ord in OS. rewrite EN in IN, OS. apply ordered_ord in OS0. rewrite EO in OS0.
          assert (LT : (fst q1 + eps < t)%Z).
          { apply In_nth_error in Q1. destruct Q1 as (i & NI). assert (IL : i < length b) by (apply nth_error_Some; congruence).
            apply (ord_ordered eps _ OS0 i (length b) q1 (t, x)); [exact IL|rewrite nth_error_app1; assumption|].
            rewrite nth_error_app2, Nat.sub_diag by lia. reflexivity. }
          destruct IN as [<-|IN]; [cbn in LT; lia|]. assert (G := ord_after eps _ _ OS q1 IN). cbn [fst] in G. lia.
      + right; right. split; [exact R|reflexivity]. }
  assert (PRE : forall c, In c (readContexts p) -> s2 (cx_from c) <> [] /\ Ord eps (s2 (cx_from c)) /\ Ord eps (s2 (cx_to c)) /\
    (forall q, In q (s2 (cx_from c)) -> missing eps None (map fst (s2 (cx_to c))) q = true -> forall u, In u (map fst (s2 (cx_to c))) -> (u + eps < fst q)%Z)).
  { intros c I. destruct (HS c I) as (NE & OS & OS0 & _). rewrite (F2 c I). split; [exact NE|]. apply ordered_ord in OS. split; [exact OS|].
    destruct (CASES c I) as [E|[(t & x & y & r & EF & ET & _)|(EF & ET)]].
    - rewrite E. split; [constructor|]. intros q _ _ u [].
    - rewrite ET. split; [apply ord_single|]. intros q Q M u [<-|[]]. rewrite EF in Q, OS. destruct Q as [<-|Q]; [|exact (ord_after eps _ _ OS q Q)].
      exfalso. unfold missing in M. cbn [map fst isLater negb andb] in M. apply negb_true_iff in M.
      assert (timestampExists eps [t] t = true); [|congruence]. apply exists_spec. exists t. split; [left; reflexivity|]. unfold same_time. rewrite Z.sub_diag. exact E0.
    - rewrite ET. assert (MT := mapped_times c _ _ (proj1 (HM c I))). split.
      + apply ordered_ord in OS0. exact (ord_times eps _ _ (eq_sym MT) OS0).
      + intros q Q M. exfalso. unfold missing in M. cbn [isLater negb andb] in M. apply negb_true_iff in M.
        assert (timestampExists eps (map fst (s0 (cx_to c))) (fst q) = true); [|congruence]. apply exists_spec. exists (fst q).
        split; [rewrite MT, <- EF; apply in_map; exact Q|]. unfold same_time. rewrite Z.sub_diag. exact E0. }
  destruct (mapData_ok eps E0 small None false (readContexts p) s2 0 ND NS PRE) as (s' & n' & E & K & V).
  exists s'. split.
  - unfold handleDataAfterAdvance, mapRead. cbn [negb]. subst s2 s1. destruct complete.
    + unfold greaterEquals. destruct (Z.leb_spec (- eps) (now - stepped)); [|lia]. rewrite E. reflexivity.
    + unfold greater. destruct (Z.ltb_spec eps (stepped - now)); [|lia]. rewrite E. reflexivity.
  - intros c I. assert (EF : s' (cx_from c) = s (cx_from c)) by (rewrite K by (apply NS; exact I); apply F2; exact I).
    split; [exact EF|]. rewrite EF, (V c I). destruct (PRE c I) as (_ & OS2 & _).
    destruct (CASES c I) as [ET|[(t & x & y & r & EFF & ET & (k & EY))|(EFF & ET)]].
    + rewrite mapOne_empty by exact ET. rewrite (F2 c I). apply mapped_image.
    + rewrite (mapOne_first false c s2 t x y r); [|rewrite (F2 c I); exact EFF|exact OS2|exact ET]. rewrite EFF.
      constructor; [cbn; split; [reflexivity|exists k; exact EY]|apply mapped_image].
    + rewrite mapOne_same; [|rewrite ET, (F2 c I), EFF; apply mapped_times with (c := c); apply (HM c I)].
      rewrite ET, EFF. apply (HM c I).
Qed.

(** * The data that is written *)
Definition write_mappings p : list (context X) := flat_map wc_mappings (writeContexts p).

Lemma mapData_app after skipZero : forall l1 l2 s n,
  mapData eps small after skipZero (l1 ++ l2) s n =
  bindR (mapData eps small after skipZero l1 s n) (fun q => mapData eps small after skipZero l2 (fst q) (snd q)).
Proof.
  induction l1 as [|c r IH]; intros l2 s n; cbn [app mapData bindR fst snd]; auto.
  destruct (mapContext eps small after skipZero c s) as [(s', k)| |]; cbn [bindR fst snd]; auto.
Qed.
Lemma mapWritten_flat after skipZero : forall cs s n,
  mapWritten eps small cs after skipZero s n = mapData eps small after skipZero (flat_map wc_mappings cs) s n.
Proof.
  induction cs as [|wc r IH]; intros s n; cbn [mapWritten flat_map]; auto.
  rewrite mapData_app. destruct (mapData eps small after skipZero (wc_mappings wc) s n) as [(s', k)| |]; cbn [bindR fst snd]; auto.
Qed.
Lemma samplize_ok t buffer : forall (cs : list (writeContext X)) s, NoDup (map wc_data cs) ->
  (forall wc, In wc cs -> Ord eps (s (wc_data wc)) /\ forall u, In u (map fst (s (wc_data wc))) -> (u + eps < t)%Z) ->
  exists s', samplize eps cs t buffer s = Ok s' /\ (forall d, ~ In d (map wc_data cs) -> s' d = s d) /\
  forall wc, In wc cs -> s' (wc_data wc) = s (wc_data wc) ++ [(t, buffer (wc_data wc))].
Proof.
  induction cs as [|wc r IH]; intros s ND H; cbn [samplize].
  - exists s. split; [reflexivity|]. split; [reflexivity|]. intros wc [].
  - cbn [map] in ND. inversion ND as [|a b NI ND']; subst. destruct (H wc (or_introl eq_refl)) as (O & L).
    rewrite (set_append eps E0 _ _ _ O L). set (s1 := upd s (wc_data wc) _).
    assert (SAME : forall wc', In wc' r -> s1 (wc_data wc') = s (wc_data wc')).
    { intros wc' I. apply upd_other. intro Q. apply NI. rewrite <- Q. apply in_map. exact I. }
    destruct (IH s1 ND') as (s' & E & K & V).
    { intros wc' I. rewrite (SAME wc' I). apply H. right. exact I. }
    exists s'. split; [exact E|]. split.
    + intros d D. cbn [map] in D. rewrite K by (intro Q; apply D; right; exact Q). apply upd_other. intro Q. apply D. left. symmetry. exact Q.
    + intros wc' [<-|I].
      * rewrite K by exact NI. unfold s1. rewrite upd_same. reflexivity.
      * rewrite (V wc' I), (SAME wc' I). reflexivity.
Qed.
Lemma NoDup_app_l (A : Type) (l l' : list A) : NoDup (l ++ l') -> NoDup l.
Proof. induction l as [|a l IH]; cbn; intro H; [constructor|]. inversion H as [|b l0 NI ND]; subst. constructor; auto. intro I. apply NI. apply in_or_app. left. exact I. Qed.
Lemma NoDup_app_r (A : Type) (l l' : list A) : NoDup (l ++ l') -> NoDup l'.
Proof. induction l as [|a l IH]; cbn; intro H; auto. inversion H; subst. auto. Qed.
Lemma NoDup_app_disj (A : Type) (l l' : list A) x : NoDup (l ++ l') -> In x l -> ~ In x l'.
Proof.
  induction l as [|a l IH]; cbn; intros H I J; [contradiction|]. inversion H as [|b l0 NI ND]; subst. destruct I as [->|I].
  - apply NI. apply in_or_app. right. exact J.
  - exact (IH ND I J).
Qed.
Lemma NoDup_app_mk (A : Type) (l l' : list A) : NoDup l -> NoDup l' -> (forall x, In x l -> ~ In x l') -> NoDup (l ++ l').
Proof.
  induction l as [|a l IH]; cbn; intros N N' D; auto. inversion N; subst. constructor.
  - intro I. apply in_app_or in I. destruct I as [I|I]; [contradiction|]. apply (D a (or_introl eq_refl) I).
  - apply IH; [assumption|assumption|]. intros x X1. apply D. right. exact X1.
Qed.
Lemma written_in (cs : list (writeContext X)) d :
  In d (flat_map (fun wc => wc_data wc :: map cx_to (wc_mappings wc)) cs) <-> In d (map wc_data cs) \/ In d (map cx_to (flat_map wc_mappings cs)).
Proof.
  induction cs as [|wc r IH]; cbn [flat_map map]; [cbn; tauto|]. rewrite map_app, !in_app_iff. cbn [In]. rewrite IH. tauto.
Qed.
Lemma written_split (cs : list (writeContext X)) : NoDup (flat_map (fun wc => wc_data wc :: map cx_to (wc_mappings wc)) cs) ->
  NoDup (map wc_data cs) /\ NoDup (map cx_to (flat_map wc_mappings cs)) /\
  (forall d, In d (map wc_data cs) -> ~ In d (map cx_to (flat_map wc_mappings cs))).
Proof.
  induction cs as [|wc r IH]; intro H.
  - repeat split; try constructor. intros d [].
  - cbn [flat_map map] in *. cbn [app] in H. inversion H as [|a b NI ND]; subst.
    destruct (IH (NoDup_app_r _ _ _ ND)) as (A & B & C). rewrite map_app.
    split; [|split].
    + constructor; auto. intro I. apply NI. apply in_or_app. right. apply written_in. left. exact I.
    + apply NoDup_app_mk; [exact (NoDup_app_l _ _ _ ND)|exact B|]. intros x X1 X2. apply (NoDup_app_disj _ _ _ x ND X1). apply written_in. right. exact X2.
    + intros d [<-|I] J; apply in_app_or in J; destruct J as [J|J].
      * apply NI. apply in_or_app. left. exact J.
      * apply NI. apply in_or_app. right. apply written_in. right. exact J.
      * apply (NoDup_app_disj _ _ _ d ND J). apply written_in. left. exact I.
      * apply (C d I J).
Qed.
Lemma write_from p c : well_wired p -> In c (write_mappings p) -> exists wc, In wc (writeContexts p) /\ cx_from c = wc_data wc.
Proof.
  intros (_ & _ & _ & _ & W) I. unfold write_mappings in I. apply in_flat_map in I. destruct I as (wc & A & B). exists wc. split; auto.
Qed.

(** At the end of the window the written values are stored at the time reached,
    and each target gets the mapped samples of all times after the window start,
    behind the samples it has. *)
Theorem C55_written_data_is_mapped_at_the_window_end : forall p s substeps t start buffer,
  well_wired p ->
  (forall wc, In wc (writeContexts p) -> ordered eps (s (wc_data wc)) /\ forall u, In u (map fst (s (wc_data wc))) -> (u + eps < t)%Z) ->
  (start + eps < t)%Z ->
  (forall c, In c (write_mappings p) -> ordered eps (s (cx_to c)) /\ forall u, In u (map fst (s (cx_to c))) -> (u <= start)%Z) ->
  exists s', handleDataBeforeAdvance eps small p true substeps t start buffer s = Ok s' /\
  (forall d, ~ In d (written_data p) -> s' d = s d) /\
  (forall wc, In wc (writeContexts p) -> s' (wc_data wc) = s (wc_data wc) ++ [(t, buffer (wc_data wc))]) /\
  (forall c, In c (write_mappings p) ->
     exists added, s' (cx_to c) = s (cx_to c) ++ added /\
     added = map (fun q => (fst q, cx_map c (snd q))) (filter (fun q => Z.ltb (start + eps) (fst q)) (s' (cx_from c)))).
Proof.
  intros p s substeps t start buffer WW HW HT HC. assert (W := WW). destruct W as (_ & NDW & _ & _ & WF).
  destruct (written_split _ NDW) as (NDD & NDT & DT).
  destruct (samplize_ok t buffer (writeContexts p) s NDD) as (s1 & ES & K1 & V1).
  { intros wc I. destruct (HW wc I) as (O & L). split; [apply ordered_ord; exact O|exact L]. }
  assert (FROM : forall c, In c (write_mappings p) -> exists wc, In wc (writeContexts p) /\ cx_from c = wc_data wc).
  { intros c I. apply (write_from p c WW I). }
  assert (TO : forall c, In c (write_mappings p) -> s1 (cx_to c) = s (cx_to c)).
  { intros c I. apply K1. intro Q. apply (DT _ Q). apply in_map. exact I. }
  assert (NS : forall c, In c (write_mappings p) -> ~ In (cx_from c) (map cx_to (write_mappings p))).
  { intros c I Q. destruct (FROM c I) as (wc & A & B). rewrite B in Q. apply (DT (wc_data wc)); [apply in_map; exact A|exact Q]. }
  destruct (mapData_ok eps E0 small (Some start) false (write_mappings p) s1 0 NDT NS) as (s' & n' & E & K & V).
  { intros c I. destruct (FROM c I) as (wc & A & B). destruct (HW wc A) as (O & L). destruct (HC c I) as (OT & LT).
    rewrite B, (V1 wc A), (TO c I). split; [destruct (s (wc_data wc)); discriminate|]. split; [|split].
    - apply ord_append; [apply ordered_ord; exact O|apply ord_single|]. intros a b AI [<-|[]]. apply L. apply in_map. exact AI.
    - apply ordered_ord. exact OT.
    - intros q _ M u U. unfold missing in M. apply andb_true_iff in M. destruct M as (ML & _).
      apply isLater_spec in ML. cbn [later] in ML. assert (X1 := LT u U). lia. }
  exists s'. split; [|split; [|split]].
  - unfold handleDataBeforeAdvance. cbn [orb]. rewrite ES. cbn [bindR]. rewrite mapWritten_flat. unfold write_mappings in E. rewrite E. reflexivity.
  - intros d D. unfold written_data in D. rewrite K, K1; [reflexivity| |]; intro Q; apply D; apply written_in; [left|right]; exact Q.
  - intros wc I. rewrite K; [apply V1; exact I|]. apply DT. apply in_map. exact I.
  - intros c I. exists (map (fun q => (fst q, cx_map c (snd q))) (filter (fun q => Z.ltb (start + eps) (fst q)) (s' (cx_from c)))). split; [|reflexivity].
    rewrite (V c I). unfold mapOne. rewrite (TO c I). f_equal. rewrite (K (cx_from c) (NS c I)).
    destruct (HC c I) as (_ & LT). revert LT. generalize (s1 (cx_from c)) as l. generalize (s (cx_to c)) as tg. intros tg l LT.
    unfold imageOf, P_MapTime.imageOf. cbn [andb]. f_equal. apply filter_ext. intros (u, x). unfold missing. cbn [fst isLater].
    destruct (Z.ltb_spec (start + eps) u) as [G|G].
    + assert (isLater eps (Some start) u = true) as -> by (apply isLater_spec; exact G). cbn [andb]. apply negb_true_iff. apply not_true_is_false. intro H.
      apply exists_spec in H. destruct H as (v & VI & S). unfold same_time in S. assert (X1 := LT v VI). lia.
    + assert (isLater eps (Some start) u = false) as ->; [|reflexivity]. apply not_true_is_false. intro H. apply isLater_spec in H. cbn [later] in H. lia.
Qed.

Lemma mapContext_other after skipZero c s s' n : mapContext eps small after skipZero c s = Ok (s', n) -> forall d, d <> cx_to c -> s' d = s d.
Proof.
  unfold mapContext. destruct (s (cx_from c)) as [|q r]; [discriminate|].
  destruct (mapStamples _ _ _ _ _ _ _ _ _) as [(w, k)| |]; cbn [bindR]; try discriminate. intros H d D. injection H as <- _. apply upd_other. exact D.
Qed.
Lemma mapData_other after skipZero : forall cs s n s' n', mapData eps small after skipZero cs s n = Ok (s', n') ->
  forall d, ~ In d (map cx_to cs) -> s' d = s d.
Proof.
  induction cs as [|c r IH]; intros s n s' n' H d D; cbn [mapData] in H; [injection H as <- _; reflexivity|].
  destruct (mapContext eps small after skipZero c s) as [(s1, k)| |] eqn:E; cbn [bindR fst snd] in H; try discriminate.
  cbn [map In] in D. rewrite (IH _ _ _ _ H d) by tauto. apply (mapContext_other _ _ _ _ _ _ E). intro Q. apply D. left. symmetry. exact Q.
Qed.

(** After the exchange the written data and its images keep exactly the samples of
    the window to compute next: those not before its start, or, if the window is
    repeated, those not after its start. *)
Theorem C55_written_data_follows_the_window : forall p s s' (complete : bool) stepped now rcv,
  well_wired p -> handleDataAfterAdvance eps small p true complete stepped now now rcv s = Ok s' ->
  forall d, In d (written_data p) ->
  s' d = filter (fun q => if complete then Z.leb (now - eps) (fst q) else Z.leb (fst q) (now + eps)) (s d).
Proof.
  intros p s s' complete stepped now rcv (ND & _ & _ & DJ & _) H d D.
  assert (NT : ~ In d (map cx_to (readContexts p))).
  { intro Q. apply (DJ d); [unfold read_data; apply in_or_app; right; exact Q|exact D]. }
  unfold handleDataAfterAdvance, mapRead in H. cbn [negb] in H. destruct complete.
  - destruct (greaterEquals eps now stepped); [|discriminate].
    match type of H with bindR ?m _ = _ => destruct m as [(s1, k)| |] eqn:E; cbn [bindR fst] in H; try discriminate end.
    injection H as <-. rewrite (mapData_other _ _ _ _ _ _ _ E d NT).
    unfold trimReadMappedData. rewrite (proj1 (fold_read true now rcv (readContexts p) _ ND) d NT).
    unfold trimOldDataBefore, w_trimBefore. apply filter_ext. intros q. unfold smaller. destruct (Z.ltb_spec (fst q - now) (- eps)), (Z.leb_spec (now - eps) (fst q)); cbn; auto; lia.
  - destruct (greater eps stepped now); [|discriminate].
    match type of H with bindR ?m _ = _ => destruct m as [(s1, k)| |] eqn:E; cbn [bindR fst] in H; try discriminate end.
    injection H as <-. rewrite (mapData_other _ _ _ _ _ _ _ E d NT).
    unfold trimReadMappedData. rewrite (proj1 (fold_read false now rcv (readContexts p) _ ND) d NT).
    unfold trimSendDataAfter. rewrite fold_send. fold (written_data p). rewrite (existsb_true d _ D).
    unfold w_trimAfter. apply filter_ext. intros q. unfold greater. destruct (Z.ltb_spec eps (fst q - now)), (Z.leb_spec (fst q) (now + eps)); cbn; auto; lia.
Qed.

(** * The initial data *)
Lemma initial_mapped cs s : NoDup (map cx_to cs) -> (forall c, In c cs -> ~ In (cx_from c) (map cx_to cs)) ->
  (forall c, In c cs -> s (cx_from c) <> [] /\ ordered eps (s (cx_from c)) /\ s (cx_to c) = []) ->
  exists s' n, mapData eps small None true cs s 0 = Ok (s', n) /\ (forall d, ~ In d (map cx_to cs) -> s' d = s d) /\
  forall c, In c cs -> mapped c (s' (cx_from c)) (s' (cx_to c)).
Proof.
  intros ND NS H. destruct (mapData_ok eps E0 small None true cs s 0 ND NS) as (s' & n' & E & K & V).
  { intros c I. destruct (H c I) as (NE & O & EM). rewrite EM. split; [exact NE|]. split; [apply ordered_ord; exact O|]. split; [constructor|].
    intros q _ _ u []. }
  exists s', n'. split; [exact E|]. split; [exact K|]. intros c I. rewrite (V c I), (K _ (NS c I)). rewrite mapOne_empty by apply (H c I). apply mapped_image.
Qed.
Theorem C55_initial_written_data_is_mapped : forall p s, well_wired p ->
  (forall c, In c (write_mappings p) -> s (cx_from c) <> [] /\ ordered eps (s (cx_from c)) /\ s (cx_to c) = []) ->
  exists s' n, mapWritten eps small (writeContexts p) None true s 0 = Ok (s', n) /\
  (forall d, ~ In d (map cx_to (write_mappings p)) -> s' d = s d) /\
  forall c, In c (write_mappings p) -> mapped c (s' (cx_from c)) (s' (cx_to c)).
Proof.
  intros p s WW H. assert (W := WW). destruct W as (_ & NDW & _). destruct (written_split _ NDW) as (NDD & NDT & DT).
  rewrite mapWritten_flat. apply initial_mapped; auto.
  intros c I Q. destruct (write_from p c WW I) as (wc & A & B). rewrite B in Q. apply (DT (wc_data wc)); [apply in_map; exact A|exact Q].
Qed.
Theorem C55_initial_read_data_is_mapped : forall p s, well_wired p ->
  (forall c, In c (readContexts p) -> s (cx_from c) <> [] /\ ordered eps (s (cx_from c)) /\ s (cx_to c) = []) ->
  exists s' n, mapRead eps small p true s = Ok (s', n) /\
  (forall d, ~ In d (map cx_to (readContexts p)) -> s' d = s d) /\
  forall c, In c (readContexts p) -> mapped c (s' (cx_from c)) (s' (cx_to c)).
Proof. intros p s (ND & _ & NS & _) H. apply initial_mapped; auto. Qed.
End C55.
Print Assumptions C55_missing_times_are_mapped.
Print Assumptions C55_mapping_succeeds.
Print Assumptions C55_missing_data_is_reported.
Print Assumptions C55_read_data_is_the_mapped_received_data.
Print Assumptions C55_written_data_is_mapped_at_the_window_end.
Print Assumptions C55_written_data_follows_the_window.
Print Assumptions C55_initial_written_data_is_mapped.
Print Assumptions C55_initial_read_data_is_mapped.

(** * Examples *)
(** a participant that reads data 1 mapped from data 0 (doubling) and writes data 2
    mapped to data 3 (tripling) and data 4 (negation) *)
Definition zsmall (x : Z) : bool := (Z.abs x <? 1)%Z.
Definition rd : context Z := Ctx 0 1 (fun x => 2 * x)%Z 0%Z.
Definition wr3 : context Z := Ctx 2 3 (fun x => 3 * x)%Z 0%Z.
Definition wr4 : context Z := Ctx 2 4 (fun x => - x)%Z 0%Z.
Definition solver : participant Z := Part [rd] [WCtx 2 [wr3; wr4]].
Example solver_is_wired : well_wired solver.
Proof.
  unfold well_wired, solver, read_data, written_data. cbn. repeat split.
  - repeat constructor; cbn; intuition discriminate.
  - repeat constructor; cbn; intuition discriminate.
  - intros c [<-|[]]; cbn; intuition discriminate.
  - intros d [<-|[<-|[]]]; cbn; intuition discriminate.
  - intros wc c [<-|[]] [<-|[<-|[]]]; reflexivity.
Qed.
Definition stateOf (l : list (wave Z)) : store Z := fun d => nth d l [].
Definition showRes (r : res (store Z)) : option (list (wave Z)) :=
  match r with Ok s => Some (map s (seq 0 5)) | _ => None end.
(** the first window, [0,10], with a substep at 4; data written at its end *)
Definition before : store Z := stateOf [[(0, 1); (10, 7)]; [(0, 2); (10, 14)]; [(0, 5); (4, 6)]; [(0, 15)]; [(0, -5)]]%Z.
Example written : showRes (handleDataBeforeAdvance 0 zsmall solver true true 10 0 (fun _ => 9%Z) before) =
  Some [[(0, 1); (10, 7)]; [(0, 2); (10, 14)]; [(0, 5); (4, 6); (10, 9)]; [(0, 15); (4, 18); (10, 27)]; [(0, -5); (4, -6); (10, -9)]]%Z.
Proof. reflexivity. Qed.
(** an implicit scheme repeats the window: new data was received *)
Definition received : store Z := stateOf [[(0, 1); (5, 3); (10, 8)]; [(0, 2); (10, 14)]; [(0, 5); (4, 6); (10, 9)]; [(0, 15); (4, 18); (10, 27)]; [(0, -5); (4, -6); (10, -9)]]%Z.
Example repeated : showRes (handleDataAfterAdvance 0 zsmall solver true false 10 0 0 (fun d => if Nat.eqb d 0 then Some false else None) received) =
  Some [[(0, 1); (5, 3); (10, 8)]; [(0, 2); (5, 6); (10, 16)]; [(0, 5)]; [(0, 15)]; [(0, -5)]]%Z.
Proof. reflexivity. Qed.
(** the window is complete: the received data goes on in the next window *)
Definition received' : store Z := stateOf [[(10, 7); (20, 4)]; [(0, 2); (10, 14)]; [(0, 5); (4, 6); (10, 9)]; [(0, 15); (4, 18); (10, 27)]; [(0, -5); (4, -6); (10, -9)]]%Z.
Example completed : showRes (handleDataAfterAdvance 0 zsmall solver true true 10 10 10 (fun d => if Nat.eqb d 0 then Some true else None) received') =
  Some [[(10, 7); (20, 4)]; [(10, 14); (20, 8)]; [(10, 9)]; [(10, 27)]; [(10, -9)]]%Z.
Proof. reflexivity. Qed.
Lemma ordered_by (w : wave Z) : Sorted.StronglySorted (fun p q => fst p + 0 < fst q)%Z w -> ordered 0 w.
Proof. intro H. apply (ord_ordered 0). exact H. Qed.
Ltac ord := apply ordered_by; repeat constructor; cbn; lia.
(** these states meet the hypotheses of the theorems *)
Example repeated_meets :
  well_wired solver /\
  (forall c, In c (readContexts solver) -> mapped zsmall c (before (cx_from c)) (before (cx_to c)) /\ received (cx_to c) = before (cx_to c)) /\
  (forall c, In c (readContexts solver) -> received (cx_from c) <> [] /\ ordered 0 (received (cx_from c)) /\ ordered 0 (before (cx_from c)) /\
     (forall t x, In (t, x) (received (cx_from c)) -> (0 - 0 <= t)%Z)) /\
  (forall c, In c (readContexts solver) -> restarts (before (cx_from c)) (received (cx_from c)) /\
     (forall q, In q (tl (before (cx_from c))) -> (0 + 0 < fst q)%Z) /\ (forall q, hd_error (before (cx_from c)) = Some q -> (fst q <= 0 + 0)%Z)).
Proof.
  split; [exact solver_is_wired|]. split; [|split]; intros c [<-|[]].
  - split; [|reflexivity]. repeat constructor; exists false; reflexivity.
  - split; [discriminate|]. split; [ord|]. split; [ord|]. intros t x H. cbn in H. intuition (match goal with E : (_, _) = _ |- _ => injection E as <- _ end; lia).
  - split; [exists (0, 1)%Z, [(10, 7)]%Z, [(5, 3); (10, 8)]%Z; split; reflexivity|]. split.
    + intros q [<-|[]]; cbn; lia.
    + intros q H. injection H as <-. cbn. lia.
Qed.
Example completed_meets : continues (before 0) (received' 0) /\ ordered 0 (received' 0) /\ (forall t x, In (t, x) (received' 0) -> (10 - 0 <= t)%Z).
Proof.
  split; [exists (10, 7)%Z, [(0, 1)]%Z, [(20, 4)]%Z; split; reflexivity|]. split; [ord|].
  intros t x H. cbn in H. intuition (match goal with E : (_, _) = _ |- _ => injection E as <- _ end; lia).
Qed.
Example written_meets : (forall wc, In wc (writeContexts solver) -> ordered 0 (before (wc_data wc)) /\ forall u, In u (map fst (before (wc_data wc))) -> (u + 0 < 10)%Z) /\
  (forall c, In c (write_mappings solver) -> ordered 0 (before (cx_to c)) /\ forall u, In u (map fst (before (cx_to c))) -> (u <= 0)%Z).
Proof.
  split.
  - intros wc [<-|[]]. split; [ord|]. intros u H. cbn in H. intuition lia.
  - intros c [<-|[<-|[]]]; (split; [ord|]; intros u H; cbn in H; intuition lia).
Qed.
(** a time missing in the middle of the target cannot be mapped *)
Example missing_in_the_middle : mapContext 0 zsmall None false rd (stateOf [[(0, 1); (5, 3); (10, 8)]; [(0, 2); (10, 14)]]%Z) = Asserted.
Proof. reflexivity. Qed.
