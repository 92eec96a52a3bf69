(** What the participants of a multi coupling send and receive. *)
From Coq Require Import ZArith Bool List Lia.
From Verif Require Import M_Net M_Time M_Wave M_Cpl M_Multi S_Prog S_Cpl S_Net S_Term S_Comp S_Multi P_Comp P_CplData P_Trace.
Import ListNotations.
Open Scope Z_scope.

Lemma does_app {M A B} (p : proc M A) (f : A -> proc M B) t1 a t2 b : does p t1 a -> does (f a) t2 b -> does (bind p f) (t1 ++ t2) b.
Proof. intros H1 H2. apply does_bind. exists t1, t2, a. auto. Qed.
Lemma does_app' {M A B} (p : proc M A) (f : A -> proc M B) t1 a t2 b t : does p t1 a -> does (f a) t2 b -> t = t1 ++ t2 -> does (bind p f) t b.
Proof. intros H1 H2 ->. eapply does_app; eauto. Qed.

Lemma flat_find {A B} (l : list (nat * A)) (F : nat * A -> list B) j : NoDup (map fst l) ->
  flat_map (fun p => if (fst p =? j)%nat then F p else []) l = match find (fun p => fst p =? j)%nat l with Some p => F p | None => [] end.
Proof.
  induction l as [|p l IH]; intros N; [reflexivity|]. cbn [map] in N. inversion N as [|? ? N1 N2]; subst. cbn [flat_map find].
  destruct (Nat.eqb_spec (fst p) j) as [E|E]; [|apply IH, N2].
  enough (Q : flat_map (fun p => if (fst p =? j)%nat then F p else []) l = []) by (rewrite Q, app_nil_r; reflexivity).
  subst j. clear IH N N2. induction l as [|q l IH]; [reflexivity|]. cbn [flat_map]. cbn [map] in N1.
  destruct (Nat.eqb_spec (fst q) (fst p)) as [E|E]; [exfalso; apply N1; left; exact E|]. apply IH. intros H. apply N1. right. exact H.
Qed.
Lemma find_in {A} (l : list (nat * A)) j x : NoDup (map fst l) -> In (j, x) l -> find (fun p => fst p =? j)%nat l = Some (j, x).
Proof.
  induction l as [|p l IH]; intros N H; [destruct H|]. cbn [map] in N. inversion N as [|? ? N1 N2]; subst. cbn [find].
  destruct H as [->|H]; [cbn [fst]; rewrite Nat.eqb_refl; reflexivity|]. destruct (Nat.eqb_spec (fst p) j) as [E|E]; [|apply IH; assumption].
  exfalso. apply N1. rewrite E. apply (in_map fst) in H. exact H.
Qed.

Section D.
Context {V : Type}.
Variables (gnone vzero : V).
Notation st := (st (V:=V)).
Notation wv := (wave (smp V)).

(** the messages of sendData *)
Definition oneMsgs (d : dspec) (w : wv) : list (msg V) :=
  if d_sub d then
    [MInt (Z.of_nat (length w)); MTimes (map fst w); MVals (map (fun p => fst (snd p)) w)] ++
    (if d_grad d then [MGrads (map (fun p => snd (snd p)) w)] else [])
  else match w_last w with
       | None => []
       | Some (_, x) => MVals [fst x] :: (if d_grad d then [MGrads [snd x]] else [])
       end.
Fixpoint allMsgs (ds : list dspec) (ws : list wv) : list (msg V) :=
  match ds, ws with
  | d :: ds', w :: ws' => oneMsgs d w ++ allMsgs ds' ws'
  | _, _ => []
  end.

Lemma last_some (w : wv) : w <> [] -> exists p, w_last w = Some p.
Proof.
  induction w as [|p [|q w] IH]; intros N; [congruence|eexists; reflexivity|]. apply IH. discriminate.
Qed.

Lemma sendOne_does j d (w : wv) : w <> [] -> does (sendOne j d w) (map (Sent j) (oneMsgs d w)) tt.
Proof.
  intros N. unfold sendOne, oneMsgs. destruct (d_sub d).
  - destruct w as [|p w]; [congruence|]. cbn [negb assert_ bind send]. rewrite map_app. cbn [map app does].
    do 3 (split; [reflexivity|]). cbn [bind]. destruct (d_grad d); cbn; auto.
  - destruct (last_some w N) as ((t, x) & ->). cbn [bind send map does]. split; [reflexivity|]. destruct (d_grad d); cbn; auto.
Qed.
Lemma sendAll_does j : forall ds (ws : list wv), length ws = length ds -> Forall (fun w => w <> []) ws ->
  does (sendAll j ds ws) (map (Sent j) (allMsgs ds ws)) tt.
Proof.
  induction ds as [|d ds IH]; intros [|w ws] L N; try discriminate L; cbn [sendAll allMsgs].
  - cbn. auto.
  - inversion N as [|? ? N1 N2]; subst. rewrite map_app. eapply does_app; [apply sendOne_does, N1|]. apply IH; [cbn in L; lia|exact N2].
Qed.

Lemma recvOne_does i eps now d (w wr : wv) TN TN' :
  0 <= eps -> w <> [] -> spaced eps (map fst w) ->
  (d_sub d = false -> map fst wr = TN) -> settable eps TN now TN' ->
  exists r, does (recvOne gnone eps now i d wr) (map (Got i) (oneMsgs d w)) r /\
    viewOf gnone d r = viewOf gnone d w /\ map fst r = if d_sub d then map fst w else TN'.
Proof.
  intros E N S HT St. destruct (d_sub d) eqn:Hs.
  - exists (map (fun p => (fst p, norm gnone d (snd p))) w).
    assert (S' : w_setMany eps (w_clear wr) (map (fun p => (fst p, norm gnone d (snd p))) w)
                 = Some (map (fun p => (fst p, norm gnone d (snd p))) w)).
    { unfold w_clear. rewrite setMany_app; [reflexivity|exact E|]. cbn [app]. rewrite map_map. cbn [fst]. exact S. }
    split; [|split].
    + unfold recvOne, oneMsgs. rewrite Hs.
      assert (L : (0 <? Z.of_nat (length w)) = true) by (destruct w; [congruence|apply Z.ltb_lt; cbn [length]; lia]).
      cbn [bind recvInt recv map app does]. eexists. split; [reflexivity|]. cbn [bind]. rewrite L.
      cbn [assert_ bind recvTimes recv does]. eexists. split; [reflexivity|]. cbn [bind recvVals recv does]. eexists. split; [reflexivity|]. cbn [bind].
      rewrite <- (combine_map3 gnone w d) in S'. rewrite <- (combine_map3 gnone w d).
      destruct (d_grad d); cbn [bind recvGrads recv map does].
      * eexists. split; [reflexivity|]. cbn [bind]. rewrite !map_length, !Z.eqb_refl. cbn [andb assert_ bind]. rewrite S'. cbn. auto.
      * rewrite !map_length, !Z.eqb_refl. cbn [andb assert_ bind]. rewrite S'. cbn. auto.
    + unfold viewOf. rewrite Hs. rewrite !map_map. f_equal. apply map_ext. intros (t, x). cbn.
      unfold norm. destruct (d_grad d); reflexivity.
    + rewrite map_map. reflexivity.
  - specialize (HT eq_refl). destruct (last_some w N) as ((tl, (xl, gl)) & Hl).
    destruct (St _ wr (norm gnone d (xl, gl)) HT) as (r & u & H1 & H2 & H3).
    exists r. split; [|split; [|exact H2]].
    + unfold recvOne, oneMsgs. rewrite Hs, Hl. cbn [bind recvVals recv fst snd map does]. eexists. split; [reflexivity|]. cbn [bind].
      unfold norm in H1. cbn [fst snd] in H1. destruct (d_grad d); cbn [bind recvGrads recv map does].
      * eexists. split; [reflexivity|]. cbn [bind]. rewrite H1. cbn. auto.
      * rewrite H1. cbn. auto.
    + unfold viewOf. rewrite Hs, Hl, H3. unfold norm. cbn. destruct (d_grad d); reflexivity.
Qed.

Lemma recvAll_does i eps now ds TS TN TN' :
  0 <= eps -> TS <> [] -> spaced eps TS -> settable eps TN now TN' ->
  forall ws wr, sshape (length ds) TS ws -> Forall2 (fun d (w : wv) => d_sub d = false -> map fst w = TN) ds wr ->
  exists r, does (recvAll gnone eps now i ds wr) (map (Got i) (allMsgs ds ws)) r /\
    viewsOf gnone ds r = viewsOf gnone ds ws /\ rshape ds TS TN' r.
Proof.
  intros E N S St. induction ds as [|d ds IH]; intros ws wr (L & Sh) R.
  - inversion R; subst. destruct ws; [|discriminate L]. exists []. repeat split; constructor.
  - inversion R as [|d0 w0 ds0 wr0 R1 R2]; subst. destruct ws as [|w ws]; [discriminate L|].
    inversion Sh as [|w1 ws1 S1 S2]; subst.
    destruct (recvOne_does i eps now d w w0 TN TN') as (r & H1 & H2 & H3); auto.
    { intros ->. apply N. reflexivity. }
    destruct (IH ws wr0) as (rs & H4 & H5 & H6); [split; [cbn in L; lia|exact S2]|exact R2|].
    exists (r :: rs). split; [|split].
    + cbn [recvAll allMsgs]. rewrite map_app. eapply does_app; [exact H1|].
      eapply does_app'; [exact H4| |rewrite app_nil_r; reflexivity]. cbn. auto.
    + cbn [viewsOf]. rewrite H2, H5. reflexivity.
    + constructor; [exact H3|exact H6].
Qed.

(** shared send data *)
Lemma pick_length {A} (l : list A) : forall ix, Forall (fun k => (k < length l)%nat) ix -> length (pick ix l) = length ix.
Proof.
  induction ix as [|k ix IH]; intros H; [reflexivity|]. inversion H as [|? ? H1 H2]; subst. cbn [pick flat_map].
  destruct (nth_error l k) eqn:E; [|apply nth_error_None in E; lia]. cbn. f_equal. apply IH, H2.
Qed.
Lemma pick_in {A} (l : list A) ix x : In x (pick ix l) -> In x l.
Proof.
  unfold pick. rewrite in_flat_map. intros (k & _ & H). destruct (nth_error l k) eqn:E; [|destruct H].
  destruct H as [<-|[]]. eapply nth_error_In, E.
Qed.
Lemma pick_shape n TS (W : list wv) (ds : list dspec) ix : sshape n TS W -> length ds = n -> Forall (fun k => (k < n)%nat) ix ->
  sshape (length (pick ix ds)) TS (pick ix W).
Proof.
  intros (L & S) Hd H. split.
  - rewrite !pick_length; [reflexivity|rewrite Hd; exact H|rewrite L; exact H].
  - apply Forall_forall. intros w Hw. rewrite Forall_forall in S. apply S. eapply pick_in, Hw.
Qed.
Lemma shape_nonempty n TS (ws : list wv) : TS <> [] -> sshape n TS ws -> Forall (fun w => w <> []) ws.
Proof.
  intros N (_ & S). apply Forall_forall. intros w Hw. rewrite Forall_forall in S. specialize (S w Hw). intros ->. apply N. symmetry. exact S.
Qed.

(** an entry of _sendDataVector *)
Definition toSpecs (m : mconf) (p : nat * list nat) : list dspec := pick (snd p) (c_send (m_base m)).
Definition toMsgs (m : mconf) (W : list wv) (p : nat * list nat) : list (msg V) := allMsgs (toSpecs m p) (pick (snd p) W).
Definition toViews (m : mconf) (W : list wv) (p : nat * list nat) : list (view V) := viewsOf gnone (toSpecs m p) (pick (snd p) W).

Section G.
(** which entries are exchanged *)
Variable G : list dspec -> bool.

Definition sendTrace (m : mconf) (W : list wv) (l : list (nat * list nat)) : list (io (msg V)) :=
  flat_map (fun p => if G (toSpecs m p) then map (Sent (fst p)) (toMsgs m W p) else []) l.
Definition sendLog (m : mconf) (W : list wv) (l : list (nat * list nat)) : list (list (view V)) :=
  flat_map (fun p => if G (toSpecs m p) then [tag (fst p) (toViews m W p)] else []) l.

Lemma eachTo_does (m : mconf) : forall l (s : st),
  (forall p, In p l -> length (pick (snd p) (s_send s)) = length (toSpecs m p) /\ Forall (fun w => w <> []) (pick (snd p) (s_send s))) ->
  does (eachTo (fun p s0 => if G (toSpecs m p) then sendTo gnone m p s0 else PRet s0) l s) (sendTrace m (s_send s) l)
    (set_s_sent (s_sent s ++ sendLog m (s_send s) l) s).
Proof.
  induction l as [|p l IH]; intros s H; cbn [eachTo sendTrace sendLog flat_map].
  - rewrite app_nil_r. destruct s. cbn. auto.
  - fold (sendTrace m (s_send s) l). fold (sendLog m (s_send s) l). destruct (G (toSpecs m p)).
    + destruct (H p (or_introl eq_refl)) as (L & N).
      eapply does_app.
      * unfold sendTo. eapply does_app'; [apply sendAll_does; [exact L|exact N]| |rewrite app_nil_r; reflexivity]. cbn. auto.
      * specialize (IH (set_s_sent (s_sent s ++ [tag (fst p) (viewsOf gnone (pick (snd p) (c_send (m_base m))) (pick (snd p) (s_send s)))]) s)).
        cbn [s_send set_s_sent s_sent] in IH. rewrite <- app_assoc in IH. apply IH. intros q Hq. apply H. right. exact Hq.
    + cbn [bind app]. apply IH. intros q Hq. apply H. right. exact Hq.
Qed.

Definition recvTrace (inc : nat -> list (msg V)) (l : list (nat * list dspec)) : list (io (msg V)) :=
  flat_map (fun p => if G (snd p) then map (Got (fst p)) (inc (fst p)) else []) l.
Definition recvLog (vin : nat -> list (view V)) (l : list (nat * list dspec)) : list (list (view V)) :=
  flat_map (fun p => if G (snd p) then [tag (fst p) (vin (fst p))] else []) l.

Lemma eachFrom_does (m : mconf) now (I O : dspec -> wv -> Prop) inc vin : forall l,
  (forall p ws, In p l -> Forall2 I (snd p) ws -> G (snd p) = true -> exists r,
     does (recvAll gnone (c_eps (m_base m)) now (fst p) (snd p) ws) (map (Got (fst p)) (inc (fst p))) r /\
     viewsOf gnone (snd p) r = vin (fst p) /\ Forall2 O (snd p) r) ->
  (forall p ws, In p l -> Forall2 I (snd p) ws -> G (snd p) = false -> exists r,
     zeroAll gnone vzero (c_eps (m_base m)) now (snd p) ws = PRet r /\ Forall2 O (snd p) r) ->
  forall dn rest s, s_recv s = dn ++ rest -> Forall2 I (concat (map snd l)) rest -> th_time (s_time s) = now ->
  exists r, does (eachFrom (fun off p => if G (snd p) then recvFrom gnone m off p else zeroFrom gnone vzero m off p) (length dn) l s)
      (recvTrace inc l) (set_s_rcvd (s_rcvd s ++ recvLog vin l) (set_s_recv (dn ++ r) s)) /\
    Forall2 O (concat (map snd l)) r.
Proof.
  induction l as [|p l IH]; intros H1 H2 dn rest s Hs HI Hn; cbn [eachFrom recvTrace recvLog flat_map map concat] in *.
  - inversion HI; subst. exists []. split; [|constructor]. rewrite app_nil_r in Hs. rewrite !app_nil_r. rewrite <- Hs. destruct s. cbn. auto.
  - fold (recvTrace inc l). fold (recvLog vin l). apply Forall2_app_inv_l in HI as (r1 & r2 & I1 & I2 & ->).
    assert (L1 : length r1 = length (snd p)) by (clear - I1; induction I1; cbn; congruence).
    assert (Pt : part (length dn) (length (snd p)) s = r1).
    { unfold part. rewrite Hs, skipn_app, skipn_all, Nat.sub_diag. cbn [app skipn]. rewrite <- L1, firstn_app, firstn_all, Nat.sub_diag. cbn [firstn]. apply app_nil_r. }
    assert (Sp : forall r, setPart (length dn) (length (snd p)) r s = set_s_recv ((dn ++ r) ++ r2) s).
    { intros r. unfold setPart. f_equal. rewrite Hs, firstn_app, firstn_all, Nat.sub_diag. cbn [firstn]. rewrite app_nil_r.
      rewrite skipn_app. rewrite skipn_all2 by lia. replace (length dn + length (snd p) - length dn)%nat with (length r1) by lia.
      rewrite skipn_app, skipn_all, Nat.sub_diag. cbn [app skipn]. apply app_assoc. }
    destruct (G (snd p)) eqn:Hg.
    + destruct (H1 p r1 (or_introl eq_refl) I1 Hg) as (r & A & B & C).
      destruct (IH (fun q ws Hq => H1 q ws (or_intror Hq)) (fun q ws Hq => H2 q ws (or_intror Hq)) (dn ++ r) r2
        (set_s_rcvd (s_rcvd s ++ [tag (fst p) (viewsOf gnone (snd p) r)]) (set_s_recv ((dn ++ r) ++ r2) s)) eq_refl I2 Hn) as (r' & D & F).
      exists (r ++ r'). split; [|apply Forall2_app; assumption].
      eapply does_app.
      * unfold recvFrom. cbv zeta. rewrite Pt, Hn. eapply does_app'; [exact A| |rewrite app_nil_r; reflexivity]. cbn [does]. rewrite Sp. auto.
      * assert (Lr : length r = length (snd p)) by (clear - C; induction C; cbn; congruence).
        rewrite app_length, Lr in D. cbn [s_rcvd set_s_rcvd] in D. rewrite <- !app_assoc in D. rewrite B in D. rewrite B. rewrite <- app_assoc. exact D.
    + destruct (H2 p r1 (or_introl eq_refl) I1 Hg) as (r & A & C).
      destruct (IH (fun q ws Hq => H1 q ws (or_intror Hq)) (fun q ws Hq => H2 q ws (or_intror Hq)) (dn ++ r) r2
        (set_s_recv ((dn ++ r) ++ r2) s) eq_refl I2 Hn) as (r' & D & F).
      exists (r ++ r'). split; [|apply Forall2_app; assumption].
      unfold zeroFrom. cbv zeta. rewrite Pt, Hn, A. cbn [bind]. rewrite Sp.
      assert (Lr : length r = length (snd p)) by (clear - C; induction C; cbn; congruence).
      rewrite app_length, Lr in D. cbn [s_rcvd set_s_recv] in D. rewrite <- !app_assoc in D. rewrite <- app_assoc. exact D.
Qed.

(** messages and blocks per partner *)
Lemma sents_map j i (l : list (msg V)) : sents j (map (Sent i) l) = if (i =? j)%nat then l else [].
Proof.
  destruct (Nat.eqb_spec i j) as [->|N].
  - induction l as [|x l IH]; [reflexivity|]. cbn. rewrite Nat.eqb_refl. cbn. f_equal. exact IH.
  - induction l as [|x l IH]; [reflexivity|]. cbn. destruct (Nat.eqb_spec i j); [congruence|]. exact IH.
Qed.
Lemma gots_map j i (l : list (msg V)) : gots j (map (Got i) l) = if (i =? j)%nat then l else [].
Proof.
  destruct (Nat.eqb_spec i j) as [->|N].
  - induction l as [|x l IH]; [reflexivity|]. cbn. rewrite Nat.eqb_refl. cbn. f_equal. exact IH.
  - induction l as [|x l IH]; [reflexivity|]. cbn. destruct (Nat.eqb_spec i j); [congruence|]. exact IH.
Qed.
Lemma gots_sent j i (l : list (msg V)) : gots j (map (Sent i) l) = [].
Proof. induction l as [|x l IH]; [reflexivity|exact IH]. Qed.
Lemma sents_got j i (l : list (msg V)) : sents j (map (Got i) l) = [].
Proof. induction l as [|x l IH]; [reflexivity|exact IH]. Qed.
Lemma sents_flat {A} j (f : A -> list (io (msg V))) l : sents j (flat_map f l) = flat_map (fun a => sents j (f a)) l.
Proof. induction l as [|x l IH]; [reflexivity|]. cbn [flat_map]. rewrite sents_app, IH. reflexivity. Qed.
Lemma gots_flat {A} j (f : A -> list (io (msg V))) l : gots j (flat_map f l) = flat_map (fun a => gots j (f a)) l.
Proof. induction l as [|x l IH]; [reflexivity|]. cbn [flat_map]. rewrite gots_app, IH. reflexivity. Qed.
Lemma flat_nil {A B} (f : A -> list B) l : (forall a, f a = []) -> flat_map f l = [].
Proof. intros H. induction l as [|x l IH]; [reflexivity|]. cbn. rewrite H, IH. reflexivity. Qed.

(** what goes to [j] *)
Definition out (m : mconf) (W : list wv) (j : nat) : list (msg V) :=
  match find (fun p => fst p =? j)%nat (m_send m) with Some p => if G (toSpecs m p) then toMsgs m W p else [] | None => [] end.
Definition outv (m : mconf) (W : list wv) (j : nat) : list (list (view V)) :=
  match find (fun p => fst p =? j)%nat (m_send m) with Some p => if G (toSpecs m p) then [toViews m W p] else [] | None => [] end.

Lemma sendTrace_sents m W j : NoDup (map fst (m_send m)) -> sents j (sendTrace m W (m_send m)) = out m W j.
Proof.
  intros N. unfold sendTrace, out. rewrite sents_flat. rewrite <- (flat_find (m_send m) (fun p => if G (toSpecs m p) then toMsgs m W p else []) j N).
  apply flat_map_ext. intros p. destruct (G (toSpecs m p)); [apply sents_map|]. destruct (fst p =? j)%nat; reflexivity.
Qed.
Lemma sendTrace_gots m W l j : gots j (sendTrace m W l) = [].
Proof. unfold sendTrace. rewrite gots_flat. apply flat_nil. intros p. destruct (G _); [apply gots_sent|reflexivity]. Qed.
Lemma recvTrace_gots inc l j : NoDup (map fst l) ->
  gots j (recvTrace inc l) = match find (fun p => fst p =? j)%nat l with Some p => if G (snd p) then inc j else [] | None => [] end.
Proof.
  intros N. unfold recvTrace. rewrite gots_flat.
  transitivity (match find (fun p => fst p =? j)%nat l with Some p => (fun p => if G (snd p) then inc (fst p) else []) p | None => [] end).
  - rewrite <- (flat_find l (fun p => if G (snd p) then inc (fst p) else []) j N).
    apply flat_map_ext. intros p. destruct (G (snd p)); [apply gots_map|]. destruct (fst p =? j)%nat; reflexivity.
  - destruct (find _ l) as [p|] eqn:F; [|reflexivity]. apply find_some in F as (_ & E). apply Nat.eqb_eq in E. cbv beta. rewrite E. reflexivity.
Qed.
Lemma recvTrace_sents inc l j : sents j (recvTrace inc l) = [].
Proof. unfold recvTrace. rewrite sents_flat. apply flat_nil. intros p. destruct (G _); [apply sents_got|reflexivity]. Qed.

Lemma blocks_app {W} j (l l' : list (list (view W))) : blocks j (l ++ l') = blocks j l ++ blocks j l'.
Proof. apply flat_map_app. Qed.
Lemma blocks_tag j i (v : list (view V)) : blocks j [tag i v] = if (i =? j)%nat then [v] else [].
Proof.
  cbn. destruct (Z.eqb_spec (Z.of_nat i) (Z.of_nat j)), (Nat.eqb_spec i j); try reflexivity; exfalso; [apply Nat2Z.inj in e|]; congruence.
Qed.
Lemma blocks_flat {A} j (f : A -> list (list (view V))) l : blocks j (flat_map f l) = flat_map (fun a => blocks j (f a)) l.
Proof. induction l as [|x l IH]; [reflexivity|]. cbn [flat_map]. rewrite blocks_app, IH. reflexivity. Qed.
Lemma sendLog_blocks m W j : NoDup (map fst (m_send m)) -> blocks j (sendLog m W (m_send m)) = outv m W j.
Proof.
  intros N. unfold sendLog, outv. rewrite blocks_flat. rewrite <- (flat_find (m_send m) (fun p => if G (toSpecs m p) then [toViews m W p] else []) j N).
  apply flat_map_ext. intros p. destruct (G (toSpecs m p)); [apply blocks_tag|]. destruct (fst p =? j)%nat; reflexivity.
Qed.
Lemma recvLog_blocks vin l j : NoDup (map fst l) ->
  blocks j (recvLog vin l) = match find (fun p => fst p =? j)%nat l with Some p => if G (snd p) then [vin j] else [] | None => [] end.
Proof.
  intros N. unfold recvLog. rewrite blocks_flat.
  transitivity (match find (fun p => fst p =? j)%nat l with Some p => (fun p => if G (snd p) then [vin (fst p)] else []) p | None => [] end).
  - rewrite <- (flat_find l (fun p => if G (snd p) then [vin (fst p)] else []) j N).
    apply flat_map_ext. intros p. destruct (G (snd p)); [apply blocks_tag|]. destruct (fst p =? j)%nat; reflexivity.
  - destruct (find _ l) as [p|] eqn:F; [|reflexivity]. apply find_some in F as (_ & E). apply Nat.eqb_eq in E. cbv beta. rewrite E. reflexivity.
Qed.
End G.
End D.
