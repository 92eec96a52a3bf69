(** Mapping samples over time: proofs. *)
From Coq Require Import ZArith Bool List Lia Sorted Arith.
From Verif Require Import M_Time M_Wave M_WaveCache M_MapTime S_Wave S_MapTime P_Wave.
Import ListNotations.
Open Scope nat_scope.

Section Proofs.
Context {X : Type}.
Variable eps : Z.
Hypothesis E0 : (0 <= eps)%Z.
Variable small : X -> bool.
Implicit Types (w src tgt : wave X) (c : context X) (s : store X).

Definition isLater (after : option Z) (t : Z) : bool := negb (match after with Some a => smallerEquals eps t a | None => false end).
Lemma isLater_spec after t : isLater after t = true <-> later eps after t.
Proof.
  unfold isLater, later, smallerEquals. destruct after as [a|]; [|tauto].
  rewrite negb_true_iff, Z.leb_gt. lia.
Qed.
Lemma exists_spec times t : timestampExists eps times t = true <-> exists u, In u times /\ same_time eps u t.
Proof.
  unfold timestampExists, same_time, equals. rewrite existsb_exists. split; intros (u & I & E); exists u; (split; [exact I|]);
   [apply Z.leb_le, E|apply Z.leb_le, E].
Qed.
Definition missing (after : option Z) (times : list Z) (q : Z * X) : bool := isLater after (fst q) && negb (timestampExists eps times (fst q)).
Definition imageOf c (skipZero : bool) (q : Z * X) : Z * X := (fst q, mapped_sample small c skipZero (snd q)).

Lemma set_append w t x : Ord eps w -> (forall u, In u (map fst w) -> (u + eps < t)%Z) -> w_set eps w t x = Some (w ++ [(t, x)]).
Proof.
  intros O B. destruct w as [|(u, y) r]; [reflexivity|]. apply set_new; [exact E0|exact O|discriminate|].
  destruct (last_cons r (u, y)) as (q & _ & I & ->). apply B. apply in_map. exact I.
Qed.

Lemma mapStamples_ok c after skipZero times : forall l to n, Ord eps l -> Ord eps to ->
  (forall q, In q l -> missing after times q = true -> forall u, In u (map fst to) -> (u + eps < fst q)%Z) ->
  exists n', mapStamples eps small c after skipZero times l to n = Ok (to ++ map (imageOf c skipZero) (filter (missing after times) l), n').
Proof.
  induction l as [|(t, x) r IH]; intros to n OL OT H; cbn [mapStamples filter].
  - exists n. rewrite app_nil_r. reflexivity.
  - inversion OL as [|a b OR F]; subst.
    assert (M : missing after times (t, x) = isLater after t && negb (timestampExists eps times t)) by reflexivity.
    unfold isLater in M. destruct (match after with Some a => smallerEquals eps t a | None => false end); cbn [negb andb] in M; rewrite M.
    + apply IH; auto. intros q Q. apply H. right. exact Q.
    + destruct (timestampExists eps times t); cbn [negb] in *.
      * apply IH; auto. intros q Q. apply H. right. exact Q.
      * set (out := if skipZero && small x then cx_zero c else cx_map c x).
        assert (B : forall u, In u (map fst to) -> (u + eps < t)%Z) by (apply (H (t, x)); [left; reflexivity|exact M]).
        rewrite (set_append to t out OT B).
        destruct (IH (to ++ [(t, out)]) (if skipZero && small x then n else S n) OR) as (n' & E).
        { pose proof (ord_set eps E0 to t out _ OT (set_append to t out OT B)) as O. exact O. }
        { intros q Q MQ u U. rewrite map_app, in_app_iff in U. destruct U as [U|[<-|[]]].
          - apply (H q); auto. right. exact Q.
          - rewrite Forall_forall in F. exact (F q Q). }
        exists n'. rewrite E. f_equal. f_equal. cbn [map]. rewrite <- app_assoc. reflexivity.
Qed.

Lemma mapStamples_conv c after skipZero times : forall l to n r, Ord eps l -> Ord eps to ->
  (forall u, In u (map fst to) -> In u times \/ (forall q, In q l -> (u + eps < fst q)%Z)) ->
  mapStamples eps small c after skipZero times l to n = Ok r ->
  forall q, In q l -> missing after times q = true -> forall u, In u (map fst to) -> (u + eps < fst q)%Z.
Proof.
  induction l as [|(t, x) r0 IH]; intros to n r OL OT HT H q Q; [destruct Q|]. cbn [mapStamples] in H.
  inversion OL as [|a b OR F]; subst. rewrite Forall_forall in F.
  assert (M : missing after times (t, x) = isLater after t && negb (timestampExists eps times t)) by reflexivity.
  assert (HT' : forall u, In u (map fst to) -> In u times \/ (forall q, In q r0 -> (u + eps < fst q)%Z)).
  { intros u U. destruct (HT u U) as [?|G]; [left; assumption|right; intros; apply G; right; assumption]. }
  unfold isLater in M. destruct (match after with Some a => smallerEquals eps t a | None => false end); cbn [negb andb] in M.
  - destruct Q as [<-|Q]; [congruence|]. exact (IH to n r OR OT HT' H q Q).
  - destruct (timestampExists eps times t) eqn:TE; cbn [negb] in *.
    + destruct Q as [<-|Q]; [congruence|]. exact (IH to n r OR OT HT' H q Q).
    + set (out := if skipZero && small x then cx_zero c else cx_map c x) in *.
      assert (NE : forall u, In u times -> ~ same_time eps u t).
      { intros u U S. assert (timestampExists eps times t = true) by (apply exists_spec; eauto). congruence. }
      assert (B : w_set eps to t out <> None -> forall u, In u (map fst to) -> (u + eps < t)%Z).
      { intros W u U. destruct (HT u U) as [I|G]; [|apply (G (t, x)); left; reflexivity].
        destruct to as [|(t0, x0) rt]; [destruct U|]. cbn [w_set] in W.
        destruct (smallerEquals eps t0 t); [|congruence].
        destruct (w_override eps ((t0, x0) :: rt) t out) as [w'|] eqn:OV.
        - exfalso. assert (X0 : exists v, In v (map fst ((t0, x0) :: rt)) /\ same_time eps v t).
          { clear -OV. revert w' OV. generalize ((t0, x0) :: rt) as w. induction w as [|(v, y) w IH]; intros w' H; [discriminate|]. cbn [w_override] in H.
            destruct (equals eps v t) eqn:E.
            - exists v. split; [left; reflexivity|]. apply Z.leb_le. exact E.
            - destruct (w_override eps w t out) as [r'|]; [|discriminate]. destruct (IH r' eq_refl) as (v' & A & B). exists v'. split; [right; exact A|exact B]. }
          destruct X0 as (v & VI & VS). destruct (HT v VI) as [I'|G]; [exact (NE v I' VS)|].
          specialize (G (t, x) (or_introl eq_refl)). unfold same_time in VS. cbn in G. lia.
        - destruct (smaller eps (w_maxStored ((t0, x0) :: rt)) t) eqn:S; [|congruence].
          unfold smaller in S. apply Z.ltb_lt in S. pose proof (maxStored_max eps E0 _ u OT U). lia. }
      destruct (w_set eps to t out) as [to'|] eqn:W; [|discriminate].
      specialize (B ltac:(discriminate)).
      destruct Q as [<-|Q]; [intros _ u U; apply B; exact U|].
      intros MQ u U. rewrite (set_append to t out OT B) in W. injection W as <-.
      apply (IH (to ++ [(t, out)]) (if skipZero && small x then n else S n) r OR); auto.
      * exact (ord_set eps E0 to t out _ OT (set_append to t out OT B)).
      * intros v V. rewrite map_app, in_app_iff in V. destruct V as [V|[<-|[]]]; [apply HT'; exact V|]. right. intros q' Q'. exact (F q' Q').
      * rewrite map_app, in_app_iff. left. exact U.
Qed.

Lemma ord_append (a b : wave X) : Ord eps a -> Ord eps b -> (forall p q, In p a -> In q b -> (fst p + eps < fst q)%Z) -> Ord eps (a ++ b).
Proof.
  intros A B H. induction A as [|p r A IH F]; cbn; auto. constructor.
  - apply IH. intros; apply H; auto. right; auto.
  - apply Forall_app. split; auto. apply Forall_forall. intros q Q. apply H; auto. left; auto.
Qed.

Lemma mapContext_ok after skipZero c s : s (cx_from c) <> [] -> Ord eps (s (cx_from c)) -> Ord eps (s (cx_to c)) ->
  (forall q, In q (s (cx_from c)) -> missing after (map fst (s (cx_to c))) q = true ->
     forall u, In u (map fst (s (cx_to c))) -> (u + eps < fst q)%Z) ->
  exists n, mapContext eps small after skipZero c s =
    Ok (upd s (cx_to c) (s (cx_to c) ++ map (imageOf c skipZero) (filter (missing after (map fst (s (cx_to c)))) (s (cx_from c)))), n).
Proof.
  intros NE OF OT H. unfold mapContext.
  destruct (mapStamples_ok c after skipZero (map fst (s (cx_to c))) (s (cx_from c)) (s (cx_to c)) 0 OF OT H) as (n & E).
  exists n. destruct (s (cx_from c)) as [|q r] eqn:ES; [congruence|]. rewrite E. reflexivity.
Qed.
Lemma mapContext_conv after skipZero c s s' n : Ord eps (s (cx_from c)) -> Ord eps (s (cx_to c)) ->
  mapContext eps small after skipZero c s = Ok (s', n) ->
  s (cx_from c) <> [] /\
  forall q, In q (s (cx_from c)) -> missing after (map fst (s (cx_to c))) q = true ->
     forall u, In u (map fst (s (cx_to c))) -> (u + eps < fst q)%Z.
Proof.
  intros OF OT H. unfold mapContext in H. destruct (s (cx_from c)) as [|q r] eqn:ES; [discriminate|].
  split; [discriminate|]. destruct (mapStamples eps small c after skipZero _ (q :: r) (s (cx_to c)) 0) as [a| |] eqn:E; try discriminate.
  eapply mapStamples_conv; eauto.
Qed.

Lemma upd_same s d w : upd s d w d = w.
Proof. unfold upd. rewrite Nat.eqb_refl. reflexivity. Qed.
Lemma upd_other s d w e : e <> d -> upd s d w e = s e.
Proof. intro N. unfold upd. apply Nat.eqb_neq in N. rewrite N. reflexivity. Qed.

(** several mappings with different targets *)
Definition mapOne after skipZero c s : wave X :=
  s (cx_to c) ++ map (imageOf c skipZero) (filter (missing after (map fst (s (cx_to c)))) (s (cx_from c))).
Lemma mapData_ok after skipZero : forall cs s n, NoDup (map cx_to cs) ->
  (forall c, In c cs -> ~ In (cx_from c) (map cx_to cs)) ->
  (forall c, In c cs -> s (cx_from c) <> [] /\ Ord eps (s (cx_from c)) /\ Ord eps (s (cx_to c)) /\
    (forall q, In q (s (cx_from c)) -> missing after (map fst (s (cx_to c))) q = true ->
       forall u, In u (map fst (s (cx_to c))) -> (u + eps < fst q)%Z)) ->
  exists s' n', mapData eps small after skipZero cs s n = Ok (s', n') /\
    (forall d, ~ In d (map cx_to cs) -> s' d = s d) /\ (forall c, In c cs -> s' (cx_to c) = mapOne after skipZero c s).
Proof.
  induction cs as [|c r IH]; intros s n ND NS H; cbn [mapData].
  - exists s, n. split; [reflexivity|]. split; [reflexivity|]. intros c [].
  - cbn [map] in ND. inversion ND as [|a b NI ND']; subst. destruct (H c (or_introl eq_refl)) as (NE & OF & OT & HM).
    destruct (mapContext_ok after skipZero c s NE OF OT HM) as (k & E). rewrite E. cbn [bindR fst snd].
    set (s1 := upd s (cx_to c) _) in *.
    assert (SAME : forall c', In c' r -> s1 (cx_from c') = s (cx_from c') /\ s1 (cx_to c') = s (cx_to c')).
    { intros c' I. split; apply upd_other.
      - intro Q. apply (NS c' (or_intror I)). left. symmetry. exact Q.
      - intro Q. apply NI. rewrite <- Q. apply in_map. exact I. }
    destruct (IH s1 (n + k) ND') as (s' & n' & E' & K & V).
    { intros c' I Q. apply (NS c' (or_intror I)). right. exact Q. }
    { intros c' I. destruct (SAME c' I) as (-> & ->). apply H. right. exact I. }
    exists s', n'. split; [exact E'|]. split.
    + intros d D. cbn [map] in D. rewrite K by (intro Q; apply D; right; exact Q). apply upd_other. intro Q. apply D. left. symmetry. exact Q.
    + intros c' [<-|I].
      * rewrite K by exact NI. apply upd_same.
      * rewrite (V c' I). unfold mapOne. destruct (SAME c' I) as (-> & ->). reflexivity.
Qed.
End Proofs.
