(** Storages by their time stamps, and transmission of data. *)
From Coq Require Import ZArith Bool List Lia.
From Verif Require Import M_Net M_Time M_Wave M_Cpl P_Pair.
Import ListNotations.
Open Scope Z_scope.

Fixpoint spaced (eps : Z) (l : list Z) : Prop :=
  match l with
  | a :: ((b :: _) as r) => a + eps < b /\ spaced eps r
  | _ => True
  end.

(** every element is more than [eps] below [t] *)
Definition below (eps t : Z) (l : list Z) : Prop := forall u, In u l -> u + eps < t.

Lemma spaced_app eps l t : spaced eps l -> below eps t l -> spaced eps (l ++ [t]).
Proof.
  induction l as [|a [|b r] IH]; intros S B.
  - exact I.
  - cbn. split; [|exact I]. apply B. left. reflexivity.
  - change (a + eps < b /\ spaced eps ((b :: r) ++ [t])). destruct S as (S1 & S2).
    split; [exact S1|]. apply IH; [exact S2|]. intros u Hu. apply B. right. exact Hu.
Qed.

Lemma spaced_app_inv eps l t r : spaced eps (l ++ t :: r) -> 0 <= eps -> below eps t l.
Proof.
  induction l as [|a l IH]; intros S E u Hu; [destruct Hu|].
  assert (B : a + eps < t /\ spaced eps (l ++ t :: r)).
  { destruct l as [|b l]; cbn in S.
    - exact S.
    - destruct S as (S1 & S2). split; [|exact S2].
      assert (b <= t); [|lia].
      enough (b = t \/ b + eps < t) by lia. right. apply (IH S2 E). left. reflexivity. }
  destruct B as (B1 & B2). destruct Hu as [<-|Hu]; [exact B1|]. apply IH; auto.
Qed.

Section Wave.
Context {X : Type}.
Variable eps : Z.
Hypothesis Heps : 0 <= eps.

Lemma override_none (w : wave X) t x : below eps t (map fst w) -> w_override eps w t x = None.
Proof.
  induction w as [|(t0, x0) w IH]; intros B; [reflexivity|]. cbn.
  assert (t0 + eps < t) by (apply B; left; reflexivity).
  unfold equals. destruct (Z.leb_spec (Z.abs (t0 - t)) eps) as [L|L]; [lia|].
  rewrite IH; [reflexivity|]. intros u Hu. apply B. right. exact Hu.
Qed.

Lemma override_last (w : wave X) t u x y : below eps t (map fst w) -> Z.abs (u - t) <= eps ->
  w_override eps (w ++ [(u, y)]) t x = Some (w ++ [(u, x)]).
Proof.
  induction w as [|(t0, x0) w IH]; intros B L.
  - cbn. unfold equals. destruct (Z.leb_spec (Z.abs (u - t)) eps) as [L'|L']; [reflexivity|lia].
  - cbn. assert (t0 + eps < t) by (apply B; left; reflexivity).
    unfold equals. destruct (Z.leb_spec (Z.abs (t0 - t)) eps) as [L'|L']; [lia|].
    rewrite IH; [reflexivity| |exact L]. intros v Hv. apply B. right. exact Hv.
Qed.

Lemma maxStored_app (w : wave X) t x : w_maxStored (w ++ [(t, x)]) = t.
Proof. induction w as [|(t0, x0) [|p w] IH]; [reflexivity|reflexivity|]. exact IH. Qed.

Lemma last_app (w : wave X) p : w_last (w ++ [p]) = Some p.
Proof. induction w as [|p0 [|p1 w] IH]; [reflexivity|reflexivity|]. exact IH. Qed.

Lemma maxStored_in (w : wave X) : w <> [] -> In (w_maxStored w) (map fst w).
Proof.
  induction w as [|(t0, x0) [|p w] IH]; intros N; [congruence|left; reflexivity|].
  right. apply IH. discriminate.
Qed.

Lemma set_append (w : wave X) t x : below eps t (map fst w) -> w_set eps w t x = Some (w ++ [(t, x)]).
Proof.
  intros B. destruct w as [|(t0, x0) w]; [reflexivity|]. unfold w_set.
  assert (t0 + eps < t) by (apply B; left; reflexivity).
  unfold smallerEquals. destruct (Z.leb_spec (t0 - t) eps) as [L|L]; [|lia].
  rewrite override_none by exact B.
  assert (M : w_maxStored ((t0, x0) :: w) + eps < t) by (apply B, maxStored_in; discriminate).
  unfold smaller. destruct (Z.ltb_spec (w_maxStored ((t0, x0) :: w) - t) (- eps)) as [L'|L']; [reflexivity|lia].
Qed.

Lemma set_last (w : wave X) t u x y : below eps t (map fst w) -> Z.abs (u - t) <= eps ->
  w_set eps (w ++ [(u, y)]) t x = Some (w ++ [(u, x)]).
Proof.
  intros B L. unfold w_set. destruct (w ++ [(u, y)]) as [|(t0, x0) r] eqn:Q.
  { destruct w; discriminate Q. }
  assert (t0 + -eps <= t).
  { destruct w as [|p w]; cbn in Q; injection Q as -> Q; [lia|]. cbn in B.
    specialize (B t0 (or_introl eq_refl)). lia. }
  unfold smallerEquals. destruct (Z.leb_spec (t0 - t) eps) as [L'|L']; [|lia].
  rewrite <- Q, override_last by assumption. reflexivity.
Qed.

Lemma setMany_app (l : list (Z * X)) : forall w, spaced eps (map fst (w ++ l)) -> w_setMany eps w l = Some (w ++ l).
Proof.
  induction l as [|(t, x) l IH]; intros w S; cbn [w_setMany].
  - rewrite app_nil_r. reflexivity.
  - assert (B : below eps t (map fst w)).
    { rewrite map_app in S. cbn in S. eapply spaced_app_inv; eassumption. }
    rewrite set_append by exact B. rewrite IH; [rewrite <- app_assoc; reflexivity|].
    rewrite <- app_assoc. exact S.
Qed.

End Wave.

(** setting a sample at [now] in a storage with stamps [l] gives stamps [l'],
    and the new sample is the last one *)
Definition settable (eps : Z) (l : list Z) (now : Z) (l' : list Z) : Prop :=
  forall X (w : wave X) x, map fst w = l ->
  exists w' u, w_set eps w now x = Some w' /\ map fst w' = l' /\ w_last w' = Some (u, x).

Lemma settable_append eps l t : 0 <= eps -> below eps t l -> settable eps l t (l ++ [t]).
Proof.
  intros E B X w x <-. exists (w ++ [(t, x)]), t. rewrite set_append by assumption.
  rewrite map_app, last_app. auto.
Qed.

Lemma settable_last eps l u t : 0 <= eps -> below eps t l -> Z.abs (u - t) <= eps ->
  settable eps (l ++ [u]) t (l ++ [u]).
Proof.
  intros E B L X w x H. apply map_eq_app in H as (w1 & w2 & -> & H1 & H2).
  destruct w2 as [|(u', y) [|]]; try discriminate H2. injection H2 as ->. subst l.
  exists (w1 ++ [(u, x)]), u. rewrite set_last by assumption. rewrite map_app, last_app. auto.
Qed.

Section Data.
Context {V : Type}.
Variables (gnone vzero : V).
Notation wv := (wave (smp V)).

Definition sshape (n : nat) (TS : list Z) (ws : list wv) : Prop :=
  length ws = n /\ Forall (fun w => map fst w = TS) ws.
Definition rshape (ds : list dspec) (TB TN : list Z) (ws : list wv) : Prop :=
  Forall2 (fun d w => map fst w = if d_sub d then TB else TN) ds ws.

Lemma last_map (w : wv) (f : Z * smp V -> smp V) :
  match w_last w with None => [] | Some p => [f p] end = match w_last w with None => [] | Some p => [f p] end.
Proof. reflexivity. Qed.

Lemma combine_map3 (w : wv) d : 
  combine (map fst w) (combine (map (fun p => fst (snd p)) w)
     (if d_grad d then map (fun p => snd (snd p)) w else map (fun _ => gnone) (map (fun p => fst (snd p)) w)))
  = map (fun p => (fst p, norm gnone d (snd p))) w.
Proof.
  unfold norm. destruct (d_grad d); (induction w as [|(t, (a, b)) w IH]; [reflexivity|cbn; f_equal; exact IH]).
Qed.

Lemma transmit1 i j eps now d (w wr : wv) TN TN' :
  0 <= eps -> w <> [] -> spaced eps (map fst w) ->
  (d_sub d = false -> map fst wr = TN) -> settable eps TN now TN' ->
  exists r, pair i j (sendOne j d w) (recvOne gnone eps now i d wr) (PRet tt) (PRet r) /\
    viewOf gnone d r = viewOf gnone d w /\ map fst r = if d_sub d then map fst w else TN'.
Proof.
  intros E N S HT St. destruct (d_sub d) eqn:Hs.
  - exists (map (fun p => (fst p, norm gnone d (snd p))) w).
    assert (S' : w_setMany eps (w_clear wr) (map (fun p => (fst p, norm gnone d (snd p))) w)
                 = Some (map (fun p => (fst p, norm gnone d (snd p))) w)).
    { unfold w_clear. rewrite setMany_app; [reflexivity|exact E|]. cbn [app]. rewrite map_map. cbn [fst]. exact S. }
    split; [|split].
    + unfold sendOne, recvOne. rewrite Hs. destruct w as [|p w]; [congruence|].
      cbn [negb assert_ bind send recvInt recv].
      apply pair_ab. assert (L : (0 <? Z.of_nat (length (p :: w))) = true) by (apply Z.ltb_lt; cbn [length]; lia).
      cbn [bind]. rewrite L. cbn [assert_ bind recvTimes recv]. apply pair_ab. cbn [bind recvVals recv]. apply pair_ab. cbn [bind].
      rewrite <- (combine_map3 (p :: w) d) in S'. rewrite <- (combine_map3 (p :: w) d).
      destruct (d_grad d); cbn [bind send recvGrads recv].
      * apply pair_ab. cbn [bind]. rewrite !map_length, !Z.eqb_refl. cbn [andb assert_ bind].
        rewrite S'. constructor.
      * rewrite !map_length, !Z.eqb_refl. cbn [andb assert_ bind]. rewrite S'. constructor.
    + unfold viewOf. rewrite Hs. rewrite !map_map. f_equal. apply map_ext. intros (t, x). cbn.
      unfold norm. destruct (d_grad d); reflexivity.
    + rewrite map_map. reflexivity.
  - specialize (HT eq_refl).
    destruct (w_last w) as [(tl, (xl, gl))|] eqn:Hl.
    2:{ exfalso. clear - N Hl. induction w as [|p [|q w] IH]; [congruence|discriminate Hl|]. apply IH; [discriminate|exact Hl]. }
    destruct (St _ wr (norm gnone d (xl, gl)) HT) as (r & u & H1 & H2 & H3).
    exists r. split; [|split; [|exact H2]].
    + unfold sendOne, recvOne. rewrite Hs, Hl. cbn [bind send recvVals recv fst snd]. apply pair_ab. cbn [bind].
      unfold norm in H1. cbn [fst snd] in H1. destruct (d_grad d); cbn [bind send recvGrads recv].
      * apply pair_ab. cbn [bind]. rewrite H1. constructor.
      * rewrite H1. constructor.
    + unfold viewOf. rewrite Hs, Hl, H3. unfold norm. cbn. destruct (d_grad d); reflexivity.
Qed.

Lemma transmit_weak i j eps now ds TS TN TN' :
  0 <= eps -> TS <> [] -> spaced eps TS -> settable eps TN now TN' ->
  forall ws wr, sshape (length ds) TS ws -> Forall2 (fun d (w : wv) => d_sub d = false -> map fst w = TN) ds wr ->
  exists r, pair i j (sendAll j ds ws) (recvAll gnone eps now i ds wr) (PRet tt) (PRet r) /\
    viewsOf gnone ds r = viewsOf gnone ds ws /\ rshape ds TS TN' r.
Proof.
  intros E N S St. induction ds as [|d ds IH]; intros ws wr (L & Sh) R.
  - inversion R; subst. destruct ws; [|discriminate L]. exists []. repeat split; constructor.
  - inversion R as [|d0 w0 ds0 wr0 R1 R2]; subst. destruct ws as [|w ws]; [discriminate L|].
    inversion Sh as [|w1 ws1 S1 S2]; subst.
    destruct (transmit1 i j eps now d w w0 TN TN') as (r & H1 & H2 & H3); auto.
    { intros ->. apply N. reflexivity. }
    destruct (IH ws wr0) as (rs & H4 & H5 & H6); [split; [cbn in L; lia|exact S2]|exact R2|].
    exists (r :: rs). split; [|split].
    + cbn [sendAll recvAll]. eapply pair_trans; [apply pair_bind, H1|]. cbn [bind].
      eapply pair_trans; [apply pair_bindr, H4|]. cbn [bind]. constructor.
    + cbn [viewsOf]. rewrite H2, H5. reflexivity.
    + constructor; [exact H3|exact H6].
Qed.

Lemma transmit i j eps now ds TS TB TN TN' :
  0 <= eps -> TS <> [] -> spaced eps TS -> settable eps TN now TN' ->
  forall ws wr, sshape (length ds) TS ws -> rshape ds TB TN wr ->
  exists r, pair i j (sendAll j ds ws) (recvAll gnone eps now i ds wr) (PRet tt) (PRet r) /\
    viewsOf gnone ds r = viewsOf gnone ds ws /\ rshape ds TS TN' r.
Proof.
  intros E N S St ws wr Sh R. apply (transmit_weak i j eps now ds TS TN TN' E N S St ws wr Sh).
  clear - R. induction R as [|d w ds wr R1 R2 IH]; constructor; [|exact IH]. intros Q. rewrite Q in R1. exact R1.
Qed.

Lemma writeAll_ok eps t f TS : 0 <= eps -> below eps t TS -> forall ws n m, sshape m TS ws ->
  exists ws', writeAll eps t f n ws = PRet ws' /\ sshape m (TS ++ [t]) ws'.
Proof.
  intros E B. induction ws as [|w ws IH]; intros n m (L & Sh).
  - exists []. split; [reflexivity|]. split; [exact L|constructor].
  - apply Forall_cons_iff in Sh as (S1 & S2). cbn in L. destruct m as [|m]; [discriminate L|].
    destruct (IH (S n) m) as (ws' & H1 & H2); [split; [lia|exact S2]|].
    exists ((w ++ [(t, f n)]) :: ws'). split.
    + cbn [writeAll]. rewrite set_append by (rewrite ?S1; assumption). cbn [lift bind]. rewrite H1. reflexivity.
    + destruct H2 as (H2 & H3). split; [cbn; lia|]. constructor; [rewrite map_app, S1; reflexivity|exact H3].
Qed.

Lemma zeroAll_ok eps : 0 <= eps -> forall ds ws TB, rshape ds TB TB ws -> (TB = [] \/ TB = [0]) ->
  exists r, zeroAll gnone vzero eps 0 ds ws = PRet r /\ rshape ds [0] [0] r.
Proof.
  intros E. induction ds as [|d ds IH]; intros ws TB R Hn; inversion R as [|d0 w0 ds0 wr0 R1 R2]; subst.
  - exists []. split; [reflexivity|constructor].
  - destruct (IH _ _ R2 Hn) as (r & H1 & H2).
    assert (Q : map fst w0 = TB) by (destruct (d_sub d); exact R1).
    assert (Q' : exists w', w_set eps w0 0 (zero_smp gnone vzero d) = Some w' /\ map fst w' = [0]).
    { destruct Hn as [->| ->].
      - destruct w0; [|discriminate Q]. exists [(0, zero_smp gnone vzero d)]. split; reflexivity.
      - destruct (settable_last eps [] 0 0 E) with (w := w0) (x := zero_smp gnone vzero d) (X := smp V) as (w' & u & A & B & _).
        { intros v []. } { cbn. lia. } { exact Q. } exists w'. auto. }
    destruct Q' as (w' & A & B). exists (w' :: r). split.
    + cbn [zeroAll]. rewrite A. cbn [lift bind]. rewrite H1. reflexivity.
    + constructor; [|exact H2]. destruct (d_sub d); exact B.
Qed.

(** moving on, trimming and acceleration in terms of stamps *)
Lemma move_stamps (w : wv) l u : map fst w = l ++ [u] -> map fst (d_moveToNextWindow w) = [u].
Proof.
  intros H. apply map_eq_app in H as (w1 & w2 & -> & H1 & H2).
  destruct w2 as [|(u', y) [|]]; try discriminate H2. injection H2 as ->.
  destruct w1 as [|p w1]; [reflexivity|]. cbn [app]. unfold d_moveToNextWindow.
  destruct (w1 ++ [(u, y)]) as [|q r] eqn:Q; [destruct w1; discriminate Q|].
  unfold w_move. replace (p :: q :: r) with ((p :: w1) ++ [(u, y)]) by (cbn; rewrite Q; reflexivity).
  rewrite last_app. reflexivity.
Qed.

Lemma filter_stamps (w : wv) (f : Z -> bool) : map fst (filter (fun p => f (fst p)) w) = filter f (map fst w).
Proof. induction w as [|p w IH]; [reflexivity|]. cbn. destruct (f (fst p)); cbn; rewrite IH; reflexivity. Qed.

Lemma trimBefore_one eps t u : Z.abs (u - t) <= eps -> filter (fun v => negb (smaller eps v t)) [u] = [u].
Proof. intros H. cbn. unfold smaller. destruct (Z.ltb_spec (u - t) (- eps)); [lia|reflexivity]. Qed.

Lemma trimAfter_first eps t l : 0 <= eps -> (forall u, In u l -> t + eps < u) ->
  filter (fun v => negb (greater eps v t)) (t :: l) = [t].
Proof.
  intros E H. cbn. unfold greater. destruct (Z.ltb_spec eps (t - t)); [lia|]. cbn. f_equal.
  induction l as [|a l IH]; [reflexivity|]. cbn. pose proof (H a (or_introl eq_refl)).
  destruct (Z.ltb_spec eps (a - t)); [|lia]. cbn. apply IH. intros u Hu. apply H. right. exact Hu.
Qed.

Lemma sshape_map n (f : wv -> wv) l l' ws : (forall w, map fst w = l -> map fst (f w) = l') ->
  sshape n l ws -> sshape n l' (map f ws).
Proof.
  intros H (L & S). split; [rewrite map_length; exact L|].
  induction S as [|w ws S1 S2 IH]; constructor; [apply H, S1|]. 
  clear - S2 H. induction S2; constructor; auto.
Qed.

Lemma rshape_map ds (f : wv -> wv) l1 l2 l1' l2' ws :
  (forall w, map fst w = l1 -> map fst (f w) = l1') -> (forall w, map fst w = l2 -> map fst (f w) = l2') ->
  rshape ds l1 l2 ws -> rshape ds l1' l2' (map f ws).
Proof.
  intros A B S. induction S as [|d w ds ws S1 S2 IH]; constructor; [|exact IH].
  destruct (d_sub d); auto.
Qed.

Lemma sshape_mapi n (f : nat -> wv -> wv) l : (forall k w, map fst w = l -> map fst (f k w) = l) ->
  forall ws k, sshape n l ws -> sshape n l (mapi f k ws).
Proof.
  intros H. induction n as [|n IH]; intros ws k (L & S); destruct ws as [|w ws]; try discriminate L.
  - split; constructor.
  - apply Forall_cons_iff in S as (S1 & S2). destruct (IH ws (Datatypes.S k)) as (L' & S'); [split; [cbn in L; lia|exact S2]|].
    split; [cbn; lia|]. constructor; [apply H, S1|exact S'].
Qed.

Lemma rshape_mapi (f : nat -> wv -> wv) : (forall k w, map fst (f k w) = map fst w) ->
  forall ds l1 l2 ws k, rshape ds l1 l2 ws -> rshape ds l1 l2 (mapi f k ws).
Proof.
  intros H ds l1 l2 ws k S. revert k. induction S as [|d w ds ws S1 S2 IH]; intros k; constructor; [|apply IH].
  rewrite H. exact S1.
Qed.

Lemma nonempty_send n l ws : l <> [] -> sshape n l ws ->
  forallb (fun w : wv => negb (match w with [] => true | _ => false end)) ws = true.
Proof.
  intros N (_ & S). apply forallb_forall. intros w Hw. rewrite Forall_forall in S. specialize (S w Hw).
  destruct w; [cbn in S; congruence|reflexivity].
Qed.
Lemma nonempty_recv ds l1 l2 ws : l1 <> [] -> l2 <> [] -> rshape ds l1 l2 ws ->
  forallb (fun w : wv => negb (match w with [] => true | _ => false end)) ws = true.
Proof.
  intros N1 N2 S. induction S as [|d w ds ws S1 S2 IH]; [reflexivity|]. cbn. rewrite IH.
  destruct w; [|reflexivity]. destruct (d_sub d); cbn in S1; congruence.
Qed.

End Data.
