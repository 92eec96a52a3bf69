(** Storage operations: order, exact sampling, independence of the cache. *)
From Coq Require Import ZArith QArith Bool List Lia Sorted Arith.
From Verif Require Import M_Time M_Wave M_WaveCache S_Wave.
Import ListNotations.
Open Scope nat_scope.

Section Ord.
Context {X : Type}.
Variable eps : Z.
Hypothesis E0 : (0 <= eps)%Z.
Implicit Types w : wave X.
Implicit Types x y : X.
Definition lt_eps (p q : Z * X) : Prop := (fst p + eps < fst q)%Z.
Definition Ord (w : wave X) : Prop := StronglySorted lt_eps w.

Lemma ord_ordered w : Ord w -> ordered eps w.
Proof.
  intros H. induction H as [|p r H IH F]; intros i j a b L Hi Hj; [destruct i; discriminate Hi|].
  destruct j as [|j]; [lia|]. cbn in Hj. destruct i as [|i]; cbn in Hi.
  - injection Hi as <-. rewrite Forall_forall in F. apply F. eapply nth_error_In, Hj.
  - eapply (IH i j); eauto. lia.
Qed.
Lemma ordered_ord w : ordered eps w -> Ord w.
Proof.
  induction w as [|p r IH]; intros H; constructor.
  - apply IH. intros i j a b L Hi Hj. apply (H (S i) (S j) a b); [lia|exact Hi|exact Hj].
  - apply Forall_forall. intros q Hq. apply In_nth_error in Hq as (j & Hj). apply (H 0 (S j) p q); [lia|reflexivity|exact Hj].
Qed.

Lemma ord_map (g : Z -> X -> X) w : Ord w -> Ord (map (fun p => (fst p, g (fst p) (snd p))) w).
Proof.
  intros H. induction H as [|p r H IH F]; cbn; constructor; [exact IH|].
  apply Forall_map. eapply Forall_impl; [|exact F]. intros q. exact id.
Qed.
Lemma ord_setAll w x : Ord w -> Ord (w_setAll w x).
Proof. apply (ord_map (fun _ _ => x)). Qed.
Lemma ord_filter f w : Ord w -> Ord (filter f w).
Proof.
  intros H. induction H as [|p r H IH F]; cbn; [constructor|]. destruct (f p); [|exact IH].
  constructor; [exact IH|]. rewrite Forall_forall in *. intros q Hq. apply filter_In in Hq as (Hq & _). auto.
Qed.

Lemma override_same w t x w' : w_override eps w t x = Some w' -> map fst w' = map fst w.
Proof.
  revert w'. induction w as [|(u, y) r IH]; intros w' H; [discriminate H|]. cbn [w_override] in H.
  destruct (equals eps u t); [injection H as <-; reflexivity|].
  destruct (w_override eps r t x) as [r'|]; [|discriminate H]. injection H as <-. cbn. f_equal. apply IH. reflexivity.
Qed.
Lemma ord_times w w' : map fst w = map fst w' -> Ord w -> Ord w'.
Proof.
  intros Q H. revert w' Q. induction H as [|p r H IH F]; intros [|q s] Q; try discriminate Q; [constructor|].
  cbn in Q. injection Q as Q1 Q2. constructor; [apply IH, Q2|].
  rewrite Forall_forall in *. intros c Hc. unfold lt_eps.
  assert (Hc' : In (fst c) (map fst r)) by (rewrite Q2; apply in_map, Hc).
  apply in_map_iff in Hc' as (d & D1 & D2). specialize (F d D2). unfold lt_eps in F. rewrite <- D1, <- Q1. exact F.
Qed.
Lemma last_cons (w : wave X) p : exists q, w_last (p :: w) = Some q /\ In q (p :: w) /\ w_maxStored (p :: w) = fst q.
Proof.
  revert p. induction w as [|(v, y) r IH]; intros (u, x).
  - exists (u, x). repeat split. left. reflexivity.
  - destruct (IH (v, y)) as (q & A & B & C). exists q. split; [exact A|]. split; [right; exact B|exact C].
Qed.
Lemma maxStored_max w u : Ord w -> In u (map fst w) -> (u <= w_maxStored w)%Z.
Proof.
  intros H. revert u. induction H as [|p r H IH F]; intros u Hu; [destruct Hu|].
  destruct r as [|q r]; [destruct p; cbn in *; lia|].
  assert (w_maxStored (p :: q :: r) = w_maxStored (q :: r)) as -> by (destruct p, q; reflexivity).
  destruct Hu as [<-|Hu]; [|apply IH, Hu]. rewrite Forall_forall in F. specialize (F q (or_introl eq_refl)).
  specialize (IH (fst q) (or_introl eq_refl)). unfold lt_eps in F. cbn [fst] in *. lia.
Qed.
Lemma ord_app w t x : Ord w -> (w_maxStored w + eps < t)%Z -> Ord (w ++ [(t, x)]).
Proof.
  intros H L. assert (B : forall p, In p w -> (fst p + eps < t)%Z).
  { intros p Hp. pose proof (maxStored_max w (fst p) H (in_map fst _ _ Hp)). lia. }
  clear L. induction H as [|p r H IH F]; cbn; [repeat constructor|]. constructor.
  - apply IH. intros q Hq. apply B. right. exact Hq.
  - apply Forall_app. split; [exact F|]. repeat constructor. unfold lt_eps. cbn. apply B. left. reflexivity.
Qed.
Lemma ord_set w t x w' : Ord w -> w_set eps w t x = Some w' -> Ord w'.
Proof.
  intros O H. unfold w_set in H. destruct w as [|(u, y) r]; [injection H as <-; repeat constructor|].
  destruct (smallerEquals eps u t); [|discriminate H].
  destruct (w_override eps ((u, y) :: r) t x) as [w1|] eqn:Q.
  - injection H as <-. eapply ord_times; [|exact O]. symmetry. eapply override_same, Q.
  - destruct (smaller eps (w_maxStored ((u, y) :: r)) t) eqn:L; [|discriminate H]. injection H as <-.
    apply (ord_app ((u, y) :: r)); [exact O|]. unfold smaller in L. apply Z.ltb_lt in L. lia.
Qed.
Lemma ord_setMany l : forall w w', Ord w -> w_setMany eps w l = Some w' -> Ord w'.
Proof.
  induction l as [|(t, x) l IH]; intros w w' O H; cbn in H; [injection H as <-; exact O|].
  destruct (w_set eps w t x) as [w1|] eqn:S; [|discriminate H]. eapply IH; [|exact H]. eapply ord_set; eassumption.
Qed.
Lemma ord_single p : Ord [p]. Proof. repeat constructor. Qed.

(** override hits exactly the named time *)
Lemma ord_after p r : Ord (p :: r) -> forall q, In q r -> (fst p + eps < fst q)%Z.
Proof. intros H. inversion H as [|? ? H1 F]; subst. rewrite Forall_forall in F. exact F. Qed.
Lemma override_exact w t y x : Ord w -> In (t, y) w ->
  w_override eps w t x = Some (map (fun p => if (fst p =? t)%Z then (t, x) else p) w).
Proof.
  intros O Hi. induction O as [|(u, z) r O IH F]; [destruct Hi|]. cbn [w_override map fst]. destruct Hi as [H|Hi].
  - injection H as -> ->. unfold equals. rewrite Z.sub_diag, Z.eqb_refl. cbn. destruct (Z.leb_spec 0 eps); [|lia].
    f_equal. f_equal. rewrite <- (map_id r) at 1. apply map_ext_in. intros p Hp. rewrite Forall_forall in F. specialize (F p Hp).
    unfold lt_eps in F. cbn in F. destruct (Z.eqb_spec (fst p) t); [lia|reflexivity].
  - rewrite Forall_forall in F. specialize (F _ Hi). unfold lt_eps in F. cbn in F. unfold equals.
    destruct (Z.leb_spec (Z.abs (u - t)) eps); [lia|]. rewrite (IH Hi). destruct (Z.eqb_spec u t); [lia|reflexivity].
Qed.
Lemma override_none w t x : (forall u, In u (map fst w) -> (u + eps < t)%Z) -> w_override eps w t x = None.
Proof.
  induction w as [|(u, y) r IH]; intros H; [reflexivity|]. cbn [w_override].
  pose proof (H u (or_introl eq_refl)). unfold equals. destruct (Z.leb_spec (Z.abs (u - t)) eps); [lia|].
  rewrite IH; [reflexivity|]. intros v Hv. apply H. right. exact Hv.
Qed.
Lemma set_exact w t y x : Ord w -> In (t, y) w ->
  w_set eps w t x = Some (map (fun p => if (fst p =? t)%Z then (t, x) else p) w).
Proof.
  intros O Hi. unfold w_set. destruct w as [|(u, z) r]; [destruct Hi|].
  assert (L : smallerEquals eps u t = true).
  { apply Z.leb_le. destruct Hi as [H|Hi]; [injection H as -> ->; lia|]. pose proof (ord_after _ _ O _ Hi). cbn in *. lia. }
  rewrite L, (override_exact _ _ y _ O Hi). reflexivity.
Qed.
Lemma set_new w t x : Ord w -> w <> [] -> (w_maxStored w + eps < t)%Z -> w_set eps w t x = Some (w ++ [(t, x)]).
Proof.
  intros O Hw L. unfold w_set. destruct w as [|(u, z) r]; [contradiction|].
  pose proof (maxStored_max _ u O (or_introl eq_refl)). 
  assert (smallerEquals eps u t = true) as -> by (apply Z.leb_le; lia).
  rewrite override_none.
  - assert (smaller eps (w_maxStored ((u, z) :: r)) t = true) as -> by (apply Z.ltb_lt; lia). reflexivity.
  - intros v Hv. pose proof (maxStored_max _ v O Hv). lia.
Qed.

(** the first sample at or after a stored time is the sample at that time *)
Lemma find_exact w t x : Ord w -> In (t, x) w -> find (fun p => greaterEquals eps (fst p) t) w = Some (t, x).
Proof.
  intros O Hi. induction O as [|(u, z) r O IH F]; [destruct Hi|]. cbn. unfold greaterEquals at 1. destruct Hi as [H|Hi].
  - injection H as -> ->. destruct (Z.leb_spec (- eps) (t - t)); [reflexivity|lia].
  - rewrite Forall_forall in F. specialize (F _ Hi). unfold lt_eps in F. cbn in F.
    destruct (Z.leb_spec (- eps) (u - t)); [lia|]. apply IH, Hi.
Qed.
Lemma atOrAfter_exact w t x : Ord w -> In (t, x) w -> w_atOrAfter eps w t = Some x.
Proof.
  intros O Hi. unfold w_atOrAfter. pose proof (find_exact w t x O Hi) as Fd.
  destruct w as [|(u, z) [|q r]]; [destruct Hi| |rewrite Fd; reflexivity].
  destruct Hi as [H|[]]. injection H as -> ->. reflexivity.
Qed.
Lemma find_next w k t : Ord w -> forall p q, nth_error w k = Some p -> nth_error w (S k) = Some q ->
  (fst p + eps < t)%Z -> (t <= fst q + eps)%Z -> find (fun p => greaterEquals eps (fst p) t) w = Some q.
Proof.
  intros O. revert k. induction O as [|(u, z) r O IH F]; intros k p q Hp Hq L1 L2; [destruct k; discriminate Hp|].
  cbn [find fst]. unfold greaterEquals at 1. destruct k as [|k]; cbn in Hp, Hq.
  - injection Hp as <-. cbn in L1. destruct (Z.leb_spec (- eps) (u - t)); [lia|]. destruct r as [|q' r]; [discriminate Hq|].
    injection Hq as ->. cbn [find]. unfold greaterEquals. destruct (Z.leb_spec (- eps) (fst q - t)); [reflexivity|lia].
  - rewrite Forall_forall in F. pose proof (F p (nth_error_In _ _ Hp)) as Fp. unfold lt_eps in Fp. cbn in Fp.
    destruct (Z.leb_spec (- eps) (u - t)); [lia|]. eapply IH; eassumption.
Qed.
End Ord.

Section Wf.
Variable eps : Z.
Hypothesis E0 : (0 <= eps)%Z.
Variable qr : list row -> list Q -> list Q.
Context {G : Type}.
Notation wf := (waveform (G:=G)).
Notation smpl := (sample (G:=G)).

Lemma sample_keeps (f : wf) t v f' : wf_sample eps qr f t = Some (v, f') -> wf_st f' = wf_st f /\ wf_deg f' = wf_deg f.
Proof.
  unfold wf_sample. destruct (wf_st f) as [|p r] eqn:Q; [discriminate|].
  destruct (_ =? 0); [destruct (w_atOrAfter eps _ t); [|discriminate]; intros H; injection H as <- <-; rewrite Q; auto|].
  destruct (scan eps (p :: r) t); intros H; injection H as <- <-; rewrite ?Q; auto.
Qed.

Lemma op_ord o (f f' : wf) : Ord eps (wf_st f) -> wf_op eps qr o f = Some f' -> Ord eps (wf_st f').
Proof.
  intros O H. destruct o as [t x|x|d| | | | |t|t|w d|g|t]; cbn [wf_op] in H.
  - destruct (w_set eps (wf_st f) t x) eqn:S; [|discriminate H]. injection H as <-. eapply ord_set; eassumption.
  - injection H as <-. apply ord_setAll, O.
  - injection H as <-. exact O.
  - destruct (w_move (wf_st f)) as [w|] eqn:S; [|discriminate H]. injection H as <-. unfold w_move in S.
    destruct (wf_st f) as [|p [|q r]]; try discriminate S. destruct (w_last _); [|discriminate S]. injection S as <-. apply ord_single.
  - destruct (w_trim (wf_st f)) as [w|] eqn:S; [|discriminate H]. injection H as <-. unfold w_trim in S.
    destruct (wf_st f); [discriminate S|]. injection S as <-. apply ord_single.
  - injection H as <-. constructor.
  - destruct (wf_st f) eqn:Q; injection H as <-; [rewrite Q; constructor|]. cbn [wf_st]. unfold w_clearExceptLast. destruct (w_last _); [apply ord_single|constructor].
  - injection H as <-. apply ord_filter, O.
  - injection H as <-. apply ord_filter, O.
  - destruct (w_setMany eps [] w) eqn:S; [|discriminate H]. injection H as <-. eapply ord_setMany; [exact E0| |exact S]. constructor.
  - injection H as <-. apply ord_map, O.
  - destruct (wf_sample eps qr f t) as [(v, f1)|] eqn:S; [|discriminate H]. injection H as <-.
    destruct (sample_keeps _ _ _ _ S) as (-> & _). exact O.
Qed.
Lemma run_ord l : forall f f' : wf, Ord eps (wf_st f) -> wf_run eps qr l f = Some f' -> Ord eps (wf_st f').
Proof.
  induction l as [|o l IH]; intros f f' O H; cbn in H; [injection H as <-; exact O|].
  destruct (wf_op eps qr o f) as [f1|] eqn:S; [|discriminate H]. eapply IH; [|exact H]. eapply op_ord; eassumption.
Qed.

Lemma scan_exact (w : wave smpl) t x : Ord eps w -> In (t, x) w -> scan eps w t = Some x.
Proof.
  intros O Hi. induction O as [|(u, z) r O IH F]; [destruct Hi|]. cbn. unfold equals, greater. destruct Hi as [H|Hi].
  - injection H as -> ->. rewrite Z.sub_diag. cbn. destruct (Z.leb_spec 0 eps); [reflexivity|lia].
  - rewrite Forall_forall in F. specialize (F _ Hi). unfold lt_eps in F. cbn in F.
    destruct (Z.leb_spec (Z.abs (u - t)) eps); [lia|]. destruct (Z.ltb_spec eps (u - t)); [lia|]. apply IH, Hi.
Qed.
Lemma scan_between (w : wave smpl) k t : Ord eps w -> forall p q, nth_error w k = Some p -> nth_error w (S k) = Some q ->
  (fst p + eps < t)%Z -> (t + eps < fst q)%Z -> scan eps w t = None.
Proof.
  intros O. revert k. induction O as [|(u, z) r O IH F]; intros k p q Hp Hq L1 L2; [destruct k; discriminate Hp|].
  cbn [scan]. unfold equals, greater. destruct k as [|k]; cbn in Hp, Hq.
  - injection Hp as <-. cbn in L1. destruct (Z.leb_spec (Z.abs (u - t)) eps); [lia|]. destruct (Z.ltb_spec eps (u - t)); [lia|].
    destruct r as [|(v, y) r]; [discriminate Hq|]. injection Hq as <-. cbn in L2. cbn [scan]. unfold equals, greater.
    destruct (Z.leb_spec (Z.abs (v - t)) eps); [lia|]. destruct (Z.ltb_spec eps (v - t)); [reflexivity|lia].
  - rewrite Forall_forall in F. pose proof (F p (nth_error_In _ _ Hp)) as Fp. unfold lt_eps in Fp. cbn in Fp.
    destruct (Z.leb_spec (Z.abs (u - t)) eps); [lia|]. destruct (Z.ltb_spec eps (u - t)); [lia|]. eapply IH; eassumption.
Qed.
Lemma sample_exact (f : wf) t x : Ord eps (wf_st f) -> In (t, x) (wf_st f) -> wf_sample eps qr f t = Some (fst x, f).
Proof.
  intros O Hi. unfold wf_sample. rewrite (atOrAfter_exact eps E0 _ t x O Hi), (scan_exact _ t x O Hi).
  destruct (wf_st f); [destruct Hi|]. destruct (_ =? 0); reflexivity.
Qed.

(** the cache, if set, belongs to the current samples *)
Definition Fresh (f : wf) : Prop :=
  forall sp, wf_spline f = Some sp -> sp = mkSpline qr (wf_st f) (usedDegree (wf_deg f) (length (wf_st f))).
Lemma op_fresh o (f f' : wf) : Fresh f -> ~ in_place o -> wf_op eps qr o f = Some f' -> Fresh f'.
Proof.
  intros F N H.
  destruct o as [t x|x|d| | | | |t|t|w d|g|t]; cbn [wf_op] in H; try (exfalso; apply N; exact I);
    try (injection H as <-; discriminate).
  - destruct (w_set eps (wf_st f) t x); [|discriminate H]. injection H as <-. discriminate.
  - destruct (w_move (wf_st f)); [|discriminate H]. injection H as <-. discriminate.
  - destruct (w_trim (wf_st f)); [|discriminate H]. injection H as <-. discriminate.
  - destruct (wf_st f); injection H as <-; [exact F|discriminate].
  - destruct (w_setMany eps [] w); [|discriminate H]. injection H as <-. discriminate.
  - destruct (wf_sample eps qr f t) as [(v, f1)|] eqn:S; [|discriminate H]. injection H as <-.
    unfold wf_sample in S. destruct (wf_st f) as [|p r] eqn:Q; [discriminate S|].
    destruct (_ =? 0); [destruct (w_atOrAfter eps _ t); [|discriminate S]; injection S as <- <-; exact F|].
    destruct (scan eps (p :: r) t); injection S as <- <-; [exact F|]. intros sp Hs. cbn in Hs. injection Hs as <-. cbn [wf_st wf_deg].
    destruct (wf_spline f) as [sp|] eqn:W; [|reflexivity]. rewrite (F sp W), Q. reflexivity.
Qed.
Lemma run_fresh l : forall f f' : wf, Fresh f -> (forall o, In o l -> ~ in_place o) -> wf_run eps qr l f = Some f' -> Fresh f'.
Proof.
  induction l as [|o l IH]; intros f f' O N H; cbn in H; [injection H as <-; exact O|].
  destruct (wf_op eps qr o f) as [f1|] eqn:S; [|discriminate H]. eapply IH; [| |exact H].
  - eapply op_fresh; [exact O| |exact S]. apply N. left. reflexivity.
  - intros o' Ho. apply N. right. exact Ho.
Qed.
Definition value (o : option (list Q * wf)) : option (list Q) := match o with None => None | Some p => Some (fst p) end.
Lemma sample_fresh (f : wf) t : Fresh f -> value (wf_sample eps qr f t) = value (wf_sample eps qr (Wf (wf_st f) (wf_deg f) None) t).
Proof.
  intros F. unfold wf_sample. cbn [wf_st wf_deg wf_spline]. destruct (wf_st f) as [|p r] eqn:Q; [reflexivity|].
  destruct (_ =? 0); [destruct (w_atOrAfter eps _ t); reflexivity|]. destruct (scan eps (p :: r) t); [reflexivity|].
  cbn. destruct (wf_spline f) as [sp|] eqn:W; [|reflexivity]. rewrite (F sp W), Q. reflexivity.
Qed.
End Wf.
