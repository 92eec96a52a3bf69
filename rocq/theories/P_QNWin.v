(** Proofs about the columns of quasi-Newton acceleration: windows, runs without failing
    assertions. *)
From Coq Require Import Bool List Arith Lia Sorted.
From Verif Require Import M_QN P_QN S_QN.
Import ListNotations.

Lemma bind_some {A B} (a : option A) (f : A -> option B) b : bind a f = Some b -> exists x, a = Some x /\ f x = Some b.
Proof. destruct a as [x|]; [|discriminate]. intro H. now exists x. Qed.
Lemma run_app c a b s : run c (a ++ b) s = bind (run c a s) (run c b).
Proof. revert s. induction a as [|e a IH]; intro s; cbn; [reflexivity|]. destruct (step c e s); cbn; [apply IH|reflexivity]. Qed.
Lemma step_inv c e s s' : 0 < c_max c -> Inv c s -> step c e s = Some s' -> Inv c s'.
Proof.
  intros M I H. destruct e as [|o|o]; cbn in H.
  - apply some_inj in H. subst. now apply initialize_inv.
  - now apply (perform_inv c o s).
  - now apply (converged_inv c o s).
Qed.
Lemma run_inv c : 0 < c_max c -> forall es s s', Inv c s -> run c es s = Some s' -> Inv c s'.
Proof.
  intros M. induction es as [|e es IH]; intros s s' I H; cbn in H; [apply some_inj in H; now subst|].
  apply bind_some in H as (t & E & H). apply (IH t); [now apply (step_inv c e s)|exact H].
Qed.

(** * Blocks of columns of the same window *)
Fixpoint blocks (cols ws : list nat) : list nat :=
  match cols, ws with n :: r, w :: q => repeat w n ++ blocks r q | _, _ => [] end.
Definition decreasing (ws : list nat) : Prop := StronglySorted (fun a b => b < a) ws.
(** [ws] has a window for every entry of [cols] *)
Definition Blocks (cols : list nat) (V : list column) (ws : list nat) : Prop :=
  length ws = length cols /\ decreasing ws /\ map window_of V = blocks cols ws.

Lemma blocks_in cols : forall ws x, In x (blocks cols ws) -> In x ws.
Proof.
  induction cols as [|n r IH]; intros [|w q] x H; cbn in H; try destruct H. apply in_app_or in H as [H|H]; [apply repeat_spec in H; now left|right; now apply IH].
Qed.
Lemma blocks_length cols : forall ws, length ws = length cols -> length (blocks cols ws) = sum cols.
Proof. induction cols as [|n r IH]; intros [|w q] L; cbn in *; try discriminate; [reflexivity|]. rewrite app_length, repeat_length, IH; lia. Qed.

Lemma remove_app {A} i (a b : list A) : removeColumnFromMatrix i (a ++ b) =
  if i <? length a then match removeColumnFromMatrix i a with None => None | Some q => Some (q ++ b) end
  else match removeColumnFromMatrix (i - length a) b with None => None | Some q => Some (a ++ q) end.
Proof.
  unfold removeColumnFromMatrix. rewrite app_length. destruct (Nat.ltb_spec i (length a)) as [L|L].
  - destruct (Nat.ltb_spec i (length a + length b)); [|lia]. rewrite firstn_app, skipn_app. replace (i - length a) with 0 by lia.
    replace (S i - length a) with 0 by lia. cbn. now rewrite app_nil_r, app_assoc.
  - destruct (Nat.ltb_spec i (length a + length b)); destruct (Nat.ltb_spec (i - length a) (length b)); try lia; [|reflexivity].
    rewrite firstn_app, skipn_app, (firstn_all2 a), (skipn_all2 a) by lia. cbn [app]. rewrite <- app_assoc. now replace (S i - length a) with (S (i - length a)) by lia.
Qed.
Lemma remove_map {A B} (f : A -> B) i l l' : removeColumnFromMatrix i l = Some l' -> removeColumnFromMatrix i (map f l) = Some (map f l').
Proof.
  unfold removeColumnFromMatrix. rewrite map_length. destruct (i <? length l); [|discriminate]. intro E. apply some_inj in E. subst.
  now rewrite map_app, firstn_map, skipn_map.
Qed.
Lemma remove_repeat (w n i : nat) : i < n -> removeColumnFromMatrix i (repeat w n) = Some (repeat w (pred n)).
Proof.
  intro L. unfold removeColumnFromMatrix. rewrite repeat_length. destruct (Nat.ltb_spec i n); [|lia]. f_equal.
  replace n with (i + S (n - S i)) at 1 2 by lia. rewrite repeat_app.
  rewrite firstn_app, repeat_length, Nat.sub_diag, skipn_app, repeat_length. rewrite (firstn_all2 (repeat w i)), (skipn_all2 (repeat w i)) by (rewrite repeat_length; lia).
  replace (S i - i) with 1 by lia. cbn [firstn repeat skipn app]. rewrite app_nil_r, <- repeat_app. f_equal. lia.
Qed.

(** removing a column: the blocks of the remaining windows *)
Lemma reduceCount_blocks : forall cols ws k i B, length ws = length cols -> k <= i -> removeColumnFromMatrix (i - k) (blocks cols ws) = Some B ->
  decreasing ws -> exists ws', length ws' = length (reduceCount k i cols) /\ B = blocks (reduceCount k i cols) ws' /\ decreasing ws' /\
    (forall x, In x ws' -> In x ws) /\ (hd 0 ws' = hd 0 ws \/ ~ In (hd 0 ws) B) /\ (hd 1 cols = 0 -> hd 0 ws' = hd 0 ws).
Proof.
  induction cols as [|n r IH]; intros [|w q] k i B L K H D; cbn in L; try discriminate.
  - cbn [blocks reduceCount] in *. rewrite remove_app, repeat_length in H. inversion D as [|? ? D1 D2]; subst.
    destruct (Nat.ltb_spec (i - k) n) as [N|N]; destruct (Nat.ltb_spec i (k + n)) as [N'|N']; try lia.
    + rewrite remove_repeat in H by exact N. apply some_inj in H. subst B. destruct (Nat.eqb_spec n 1) as [->|N1].
      * exists q. cbn [pred repeat app]. repeat split; auto; [cbn; auto| |cbn; lia].
        right. cbn. intro X. apply blocks_in in X. rewrite Forall_forall in D2. specialize (D2 w X). lia.
      * exists (w :: q). cbn [length blocks hd]. repeat split; auto.
    + destruct (removeColumnFromMatrix (i - k - n) (blocks r q)) as [B'|] eqn:E; [|discriminate]. apply some_inj in H. subst B.
      replace (i - k - n) with (i - (k + n)) in E by lia.
      destruct (IH q (k + n) i B' ltac:(lia) N' E D1) as (ws' & A1 & A2 & A3 & A4 & _ & _). exists (w :: ws').
      cbn [length blocks hd]. repeat split; [lia|now rewrite A2| |intros x [->|X]; [now left|right; now apply A4]|now left].
      constructor; [exact A3|]. apply Forall_forall. intros x X. rewrite Forall_forall in D2. apply D2. now apply A4.
Qed.
Lemma blocks_app a : forall x b y, length x = length a -> blocks (a ++ b) (x ++ y) = blocks a x ++ blocks b y.
Proof. induction a as [|n a IH]; intros [|w x] b y L; cbn in *; try discriminate; [reflexivity|]. rewrite IH by lia. now rewrite app_assoc. Qed.
Lemma backDecrement_app a n : n <> 0 -> backDecrement (a ++ [n]) = Some (a ++ if n =? 1 then [] else [pred n]).
Proof.
  intro N. induction a as [|m a IH].
  - destruct n as [|[|n]]; [contradiction|reflexivity|reflexivity].
  - cbn [app]. destruct (a ++ [n]) as [|k r] eqn:E; [destruct a; discriminate|].
    change (match backDecrement (k :: r) with None => None | Some q => Some (m :: q) end = Some (m :: (a ++ if n =? 1 then [] else [pred n]))).
    now rewrite IH.
Qed.
Lemma decreasing_app a b : decreasing (a ++ b) -> decreasing a.
Proof. intro H. now apply sorted_app_inv in H. Qed.
(** removing the last column *)
Lemma removelast_app_one {A} (a : list A) x : removelast (a ++ [x]) = a.
Proof. apply removelast_last. Qed.
Lemma removelast_map {A B} (f : A -> B) l : map f (removelast l) = removelast (map f l).
Proof. induction l as [|a [|b l] IH]; [reflexivity|reflexivity|]. change (f a :: map f (removelast (b :: l)) = f a :: removelast (map f (b :: l))). now rewrite IH. Qed.
Lemma backDecrement_blocks cols cols' ws B : length ws = length cols -> positive (tl cols) -> B = blocks cols ws -> decreasing ws -> 2 <= sum cols ->
  0 < hd 0 cols -> backDecrement cols = Some cols' ->
  exists ws', length ws' = length cols' /\ removelast B = blocks cols' ws' /\ decreasing ws' /\ (forall x, In x ws' -> In x ws) /\ hd 0 ws' = hd 0 ws.
Proof.
  intros L P -> D S2 H0 H. assert (N : cols <> []) by (intros ->; discriminate).
  pose proof (app_removelast_last 0 N) as E. set (a := removelast cols) in *. set (n := last cols 0) in *.
  assert (Nn : n <> 0).
  { destruct a as [|m a'] eqn:Ea.
    - cbn in E. rewrite E in H0. cbn in H0. lia.
    - cbn in E. rewrite E in P. cbn in P. apply Forall_forall with (x := n) in P; [lia|]. apply in_or_app. right. now left. }
  rewrite E in H. rewrite backDecrement_app in H by exact Nn. apply some_inj in H. subst cols'.
  assert (Nw : ws <> []) by (intros ->; destruct cols; [contradiction|discriminate]).
  pose proof (app_removelast_last 0 Nw) as W. set (x := removelast ws) in *. set (w := last ws 0) in *.
  assert (La : length x = length a) by (unfold x, a; rewrite !length_removelast; lia).
  clearbody a n x w. subst cols ws. rewrite blocks_app by exact La. cbn [blocks]. rewrite app_nil_r.
  assert (R : repeat w n = repeat w (pred n) ++ [w]) by (replace n with (pred n + 1) at 1 by lia; rewrite repeat_app; reflexivity).
  rewrite R, app_assoc, removelast_last.
  destruct (Nat.eqb_spec n 1) as [N1|N1].
  - exists x. rewrite app_nil_r. split; [exact La|]. split; [|split; [now apply decreasing_app in D|split]].
    + rewrite N1. cbn. now rewrite app_nil_r.
    + intros y I. apply in_or_app. now left.
    + destruct x as [|y x']; [|reflexivity]. exfalso. destruct a; [|discriminate]. cbn in S2. lia.
  - exists (x ++ [w]). split; [rewrite !app_length, La; reflexivity|]. split; [|now repeat split].
    rewrite blocks_app by exact La. cbn [blocks]. now rewrite app_nil_r.
Qed.

(** * The entries belong to windows *)
Definition winOK (s : qn) : Prop := exists ws, Blocks (q_cols s) (q_V s) ws /\ hd 0 ws = q_window s.
Definition current (s : qn) : Prop := In (q_window s) (map window_of (q_V s)).
Definition carries (s s' : qn) : Prop :=
  shrinks s s' /\ (winOK s -> current s' \/ hd 1 (q_cols s) = 0 -> winOK s').
Lemma current_back s s' : shrinks s s' -> current s' -> current s.
Proof.
  intros (_ & (_ & _ & F & _) & _ & Sb & _) H. unfold current in *. apply in_map_iff in H as (x & E & I). rewrite F in E. apply in_map_iff.
  exists x. split; [exact E|now apply Sb].
Qed.
Lemma carries_refl s : core s -> carries s s.
Proof. intro C. split; [now apply shrinks_refl|auto]. Qed.
Lemma carries_trans a b c : carries a b -> carries b c -> carries a c.
Proof.
  intros [A1 A2] [B1 B2]. split; [now apply (shrinks_trans a b)|]. intros W [H|H].
  - apply B2; [|now left]. apply A2; [exact W|]. left. now apply (current_back b c).
  - apply B2; [apply A2; [exact W|now right]|]. right. now apply A1.
Qed.
Lemma carries_same s s' : shrinks s s' -> q_cols s' = q_cols s -> q_V s' = q_V s -> carries s s'.
Proof.
  intros S E1 E2. split; [exact S|]. intros (ws & B & H) _. exists ws. rewrite E1, E2. split; [exact B|].
  destruct S as (_ & (_ & _ & F & _) & _). now rewrite F.
Qed.
Lemma removeMatrixColumn_carries i s s' : core s -> removeMatrixColumn i s = Some s' -> carries s s'.
Proof.
  intros C H. destruct (removeMatrixColumn_shrinks i s s' C H) as [S _]. split; [exact S|].
  destruct C as (C1 & C2 & C3 & C4). unfold removeMatrixColumn in H. destruct (Nat.leb_spec (length (q_V s)) 1) as [|L]; [discriminate|].
  rewrite C4 in H. destruct (removeColumnFromMatrix i (q_V s)) as [V|] eqn:E; [|discriminate]. apply some_inj in H. subst s'.
  intros (ws & (B1 & B2 & B3) & Hd) Cu. apply (remove_map window_of) in E. rewrite B3 in E.
  destruct (reduceCount_blocks (q_cols s) ws 0 i (map window_of V) B1 ltac:(lia)) as (ws' & A1 & A2 & A3 & _ & A5 & A6); [now rewrite Nat.sub_0_r|exact B2|].
  exists ws'. split; [now repeat split|]. cbn. rewrite <- Hd. destruct Cu as [Cu|Cu]; [|now apply A6].
  destruct A5 as [A5|A5]; [exact A5|]. exfalso. apply A5. unfold current in Cu. cbn in Cu. now rewrite Hd.
Qed.
Lemma removeMatrixColumns_carries is : forall s s', core s -> removeMatrixColumns is s = Some s' -> carries s s'.
Proof.
  induction is as [|i r IH]; intros s s' C H; cbn in H; [apply some_inj in H; subst; now apply carries_refl|].
  destruct (removeMatrixColumn i s) as [t|] eqn:E; [|discriminate]. pose proof (removeMatrixColumn_carries i s t C E) as A.
  apply (carries_trans s t); [exact A|]. apply IH; [apply A|exact H].
Qed.
Lemma setQR_carries s qr : core s -> carries s (setMatrices s (q_cols s) (q_V s) (q_W s) qr).
Proof. intro C. apply carries_same; [now apply setQR_core|reflexivity|reflexivity]. Qed.
Lemma setFallback_carries s b : core s -> carries s (setFallback s b).
Proof. intro C. apply carries_same; [now apply setFallback_core|reflexivity|reflexivity]. Qed.
Lemma resetQR_carries c d s s' : core s -> resetQR c d s = Some s' -> carries s s'.
Proof.
  intros C H. unfold resetQR in H. destruct (insertAll _ _ _ _ _) as [qr failed].
  destruct (removeMatrixColumns failed _) as [t|] eqn:E; [|discriminate]. apply checkColumns_some in H as [-> _].
  pose proof (setQR_carries s qr C) as S1. apply (carries_trans _ _ _ S1). apply (removeMatrixColumns_carries failed); [apply S1|exact E].
Qed.
Lemma newQR_carries c o s s' : core s -> newQR c o s = Some s' -> carries s s'.
Proof.
  intros C H. unfold newQR in H. destruct (o_newQR o); [|apply some_inj in H; subst; now apply carries_refl].
  destruct (isQR23 (c_filter c)).
  - apply some_inj in H. subst. now apply setFallback_carries.
  - destruct (resetQR c (o_reset o) s) as [t|] eqn:E; [|discriminate]. apply some_inj in H. subst.
    pose proof (resetQR_carries _ _ _ _ C E) as S1. apply (carries_trans _ _ _ S1). apply setFallback_carries, S1.
Qed.
Lemma applyFilter_carries c o s s' : core s -> applyFilter c o s = Some s' -> carries s s'.
Proof.
  intros C H. unfold applyFilter in H.
  destruct (c_filter c) eqn:F; [apply some_inj in H; subst; now apply carries_refl| | |];
    (destruct (qrFilter c o s) as [[qr del]|]; [|discriminate]);
    (destruct (removeMatrixColumns (rev del) _) as [t|] eqn:E; [|discriminate]);
    apply checkColumns_some in H as [-> _];
    pose proof (setQR_carries s qr C) as S1; apply (carries_trans _ _ _ S1);
    pose proof (removeMatrixColumns_carries _ _ _ (proj1 (proj1 S1)) E) as S2; apply (carries_trans _ _ _ S2); apply setFallback_carries, S2.
Qed.
Lemma qnStep_carries c o s s' : core s -> (q_firstWindow s = false -> c_reused c = 0 -> c_force c = false -> q_V s <> []) ->
  qnStep c o s = Some s' -> carries s s'.
Proof.
  intros C K H. unfold qnStep in H. rewrite (restore_same c o s C K) in H. cbn [bind] in H.
  apply bind_some in H as (t1 & E1 & H). apply bind_some in H as (t2 & E2 & H). apply bind_some in H as (t3 & E3 & H). apply some_inj in H. subst t3.
  pose proof (newQR_carries _ _ _ _ C E1) as S1. pose proof (applyFilter_carries _ _ _ _ (proj1 (proj1 S1)) E2) as S2.
  apply computeQNUpdate_same in E3 as [-> _]; [|apply S2]. now apply (carries_trans s t1).
Qed.

(** adding a column *)
Lemma update_winOK c o s s' : 0 < c_max c -> core s -> length (q_V s) <= c_max c -> winOK s ->
  updateDifferenceMatrices c o s = Some s' -> winOK s' /\ (q_firstIteration s = false -> 0 < hd 0 (q_cols s')).
Proof.
  intros M C L (ws & (B1 & B2 & B3) & Hd) H. unfold updateDifferenceMatrices in H.
  destruct (q_firstIteration s) eqn:F.
  { apply some_inj in H. subst. split; [|discriminate]. exists ws. now repeat split. }
  rewrite (core_cols s C) in H. destruct C as (C1 & C2 & C3 & C4).
  rewrite C4, Nat.eqb_refl in H. destruct (Nat.leb_spec (length (q_V s)) (c_max c)); [|lia]. cbn [negb orb] in H.
  destruct (q_cols s) as [|n r] eqn:E; [contradiction|]. cbn [frontIncrement] in H. cbn [tl sum] in C2, C3.
  destruct ws as [|w q]; [discriminate|]. cbn in Hd. subst w.
  assert (Bs : map window_of ((q_window s, q_iteration s) :: q_V s) = blocks (S n :: r) (q_window s :: q)) by (cbn [map blocks repeat app] in *; now rewrite B3).
  destruct (negb (length (q_V s) =? c_max c) && (length (q_V s) <=? c_rows c)) eqn:B.
  - apply some_inj in H. subst s'. split; [|cbn; lia]. exists (q_window s :: q). split; [|reflexivity]. split; [exact B1|]. split; [exact B2|exact Bs].
  - destruct (shiftSetFirst (q_window s, q_iteration s) (q_V s)) as [V|] eqn:SV; [|discriminate].
    destruct (popBack _) as [qr|]; [|discriminate]. destruct (backDecrement (S n :: r)) as [cols|] eqn:BD; [|discriminate].
    apply some_inj in H. subst s'. apply shiftSetFirst_some in SV as [SV ->].
    assert (P : 0 < length (q_V s)) by (destruct (q_V s); [contradiction|cbn; lia]).
    destruct (backDecrement_blocks (S n :: r) cols (q_window s :: q) _ B1 C2 Bs B2) as (ws' & A1 & A2 & A3 & _ & A5); [cbn; lia|cbn; lia|exact BD|].
    split.
    + exists ws'. split; [|exact A5]. split; [exact A1|]. split; [exact A3|]. cbn [q_V q_cols setMatrices setFallback]. rewrite <- A2, <- removelast_map. f_equal.
      destruct (q_V s); [contradiction|reflexivity].
    + intros _. cbn [q_cols setMatrices setFallback]. destruct r as [|m r].
      * destruct n as [|n]; [cbn in C3; lia|]. cbn in BD. apply some_inj in BD. subst cols. cbn. lia.
      * change (match backDecrement (m :: r) with None => None | Some q => Some (S n :: q) end = Some cols) in BD.
        destruct (backDecrement (m :: r)); [|discriminate]. apply some_inj in BD. subst cols. cbn. lia.
Qed.
Lemma update_frame c o s s' : updateDifferenceMatrices c o s = Some s' -> frame s s'.
Proof.
  unfold updateDifferenceMatrices. destruct (q_firstIteration s); [intro H; apply some_inj in H; subst; apply frame_refl|].
  destruct (getLSSystemCols s); [|discriminate]. destruct (negb _ || negb _); [discriminate|]. destruct (frontIncrement _); [|discriminate].
  destruct (negb _ && _); [intro H; apply some_inj in H; subst; repeat split|].
  do 4 (match goal with |- match ?x with Some _ => _ | None => _ end = _ -> _ => destruct x; [|discriminate] end). intro H; apply some_inj in H; subst; repeat split.
Qed.

Definition Win (s : qn) : Prop := uninitialized s = false -> winOK s.
Lemma initializeMatrices_win c s : Inv c s -> Win s -> winOK (initializeMatrices s).
Proof.
  intros I W. unfold initializeMatrices. change (q_firstWindow s && q_firstIteration s) with (uninitialized s). destruct (uninitialized s) eqn:U; [|now apply W].
  exists [q_window s]. split; [|reflexivity]. cbn. rewrite (i_first _ _ I U). split; [reflexivity|]. split; [repeat constructor|reflexivity].
Qed.
Lemma winOK_next s : winOK s -> winOK (nextIteration s).
Proof. intros (ws & B & H). exists ws. now split. Qed.

Lemma perform_win c o s s' : 0 < c_max c -> Inv c s -> Win s -> performAcceleration c o s = Some s' ->
  current s' \/ q_firstIteration s = true -> Win s'.
Proof.
  intros M I W H Cu _. rewrite perform_unfold in H. pose proof (initializeMatrices_win c s I W) as Wt.
  destruct (initializeMatrices_inv c s I) as (C & So & Ol & Fr & L1 & L2 & Ec & Un & In_). set (t := initializeMatrices s) in *.
  destruct Fr as (F1 & F2 & F3 & F4). apply bind_some in H as (u & UP & H).
  destruct (q_firstIteration s) eqn:FI.
  - rewrite update_first in UP by congruence. apply some_inj in UP. subst u. rewrite F1 in H. cbn [andb] in H.
    destruct (q_firstWindow t || c_force c) eqn:FW.
    + apply some_inj in H. subst s'. now apply winOK_next.
    + apply orb_false_iff in FW as [FW Fo]. assert (FWs : q_firstWindow s = false) by congruence.
      apply bind_some in H as (u & Q & H).
      assert (S1 : carries t u).
      { apply (qnStep_carries c o); [exact C| |exact Q]. intros _ B D. rewrite In_ by (unfold uninitialized; now rewrite FWs).
        destruct (i_keep _ _ I FWs B D) as [K|K]; [exact K|congruence]. }
      destruct S1 as [(S1 & (G1 & G2 & G3 & G4) & _) S2].
      assert (Wu : winOK u) by (apply S2; [exact Wt|]; right; rewrite Ec; now apply (i_front _ _ I)).
      apply bind_some in H as (x & P & H). apply some_inj in H. subst s'. apply winOK_next.
      unfold pendingDeletion in P. rewrite G1, F1, Fo in P. cbn [andb negb] in P.
      destruct (Nat.eqb_spec (c_reused c) 0) as [R|R]; cbn [andb] in P; [|apply some_inj in P; now subst].
      rewrite (core_cols u S1), G2, FW in P. apply some_inj in P. subst x. exists [q_window u]. split.
      * split; [reflexivity|]. split; [repeat constructor|reflexivity].
      * destruct (0 <? length (q_V u)); reflexivity.
  - destruct Cu as [Cu|Cu]; [|discriminate].
    destruct (update_cases c o t u M C L1 F1 UP) as (S1 & (G1 & G2 & G3 & G4) & S3 & _).
    destruct (update_winOK c o t u M C L1 Wt UP) as [Wu _].
    rewrite G1, F1 in H. cbn [andb] in H. apply bind_some in H as (w & Q & H).
    assert (Nu : q_V u <> []) by (destruct S3 as [-> | ->]; discriminate).
    destruct (qnStep_carries c o u w S1 (fun _ _ _ => Nu) Q) as [(T1 & (H1 & H2 & H3 & H4) & _) T2].
    apply bind_some in H as (x & P & H). apply some_inj in H. subst s'.
    unfold pendingDeletion in P. rewrite H1, G1, F1 in P. cbn [andb] in P. apply some_inj in P. subst x.
    apply winOK_next. apply T2; [exact Wu|]. left. exact Cu.
Qed.

Lemma decreasing_cons w ws : decreasing ws -> (forall x, In x ws -> x < w) -> decreasing (w :: ws).
Proof. intros D H. constructor; [exact D|]. now apply Forall_forall. Qed.
Lemma decreasing_lt w ws : decreasing (w :: ws) -> forall x, In x ws -> x < w.
Proof. intros D x I. inversion D as [|? ? D1 D2]; subst. rewrite Forall_forall in D2. now apply D2. Qed.
Lemma dropBack_firstn n : forall V qr V' W' qr', dropBack n V V qr = Some (V', W', qr') -> V' = firstn (length V - n) V.
Proof.
  intros V qr V' W' qr' H. destruct (dropBack_some _ _ _ _ _ _ H) as (_ & _ & _ & L & _ & (r & E) & _).
  rewrite E, app_length in L |- *. replace (length V' + length r - n) with (length V' + 0) by lia. rewrite firstn_app_2. cbn. now rewrite app_nil_r.
Qed.
Lemma firstn_map' {A B} (f : A -> B) n l : map f (firstn n l) = firstn n (map f l).
Proof. symmetry. apply firstn_map. Qed.

(** the windows after the oldest ones were dropped *)
Lemma dropOldWindows_blocks c s s' ws : settled s -> Blocks (q_cols s) (q_V s) ws -> dropOldWindows c s = Some s' ->
  exists ws', Blocks (q_cols s') (q_V s') ws' /\ forall x, In x ws' -> In x ws.
Proof.
  intros S (B1 & B2 & B3) H. pose proof S as (S1 & S2 & S3). unfold dropOldWindows in H.
  destruct (Nat.eqb_spec (c_reused c) 0) as [R|R].
  - destruct (c_force c); apply some_inj in H; subst s'.
    + exists []. split; [|intros x []]. split; [reflexivity|]. split; [constructor|reflexivity].
    + exists ws. split; [now repeat split|auto].
  - destruct (Nat.ltb_spec (c_reused c) (length (q_cols s))) as [L|L].
    2: { apply some_inj in H. subst s'. exists ws. split; [now repeat split|auto]. }
    destruct (Nat.eqb_spec (last (q_cols s) 0) 0) as [Z|Z]; [discriminate|]. rewrite (settled_cols s S) in H.
    destruct (Nat.leb_spec (length (q_V s)) (last (q_cols s) 0)) as [|B]; [discriminate|]. rewrite S3 in H.
    destruct (dropBack _ _ _ _) as [[[V W] qr]|] eqn:D; [|discriminate]. apply some_inj in H. subst s'. cbn [q_cols q_V setMatrices].
    apply dropBack_firstn in D. assert (N : q_cols s <> []) by (intro N; rewrite N in L; cbn in L; lia).
    assert (Nw : ws <> []) by (intros ->; destruct (q_cols s); [contradiction|discriminate]).
    exists (removelast ws). split; [|intros x I; now apply removelast_In].
    pose proof (app_removelast_last 0 N) as E. pose proof (app_removelast_last 0 Nw) as F.
    assert (La : length (removelast ws) = length (removelast (q_cols s))) by (rewrite !length_removelast; lia).
    split; [exact La|]. split; [rewrite F in B2; now apply decreasing_app in B2|].
    subst V. rewrite firstn_map', B3. rewrite E at 2. rewrite F at 1. rewrite blocks_app by exact La.
    pose proof (sum_removelast _ N). replace (length (q_V s) - last (q_cols s) 0) with (length (blocks (removelast (q_cols s)) (removelast ws)) + 0) by (rewrite blocks_length by exact La; lia).
    rewrite firstn_app_2. cbn. now rewrite app_nil_r.
Qed.
Lemma converged_win c o s s' : 0 < c_max c -> Inv c s -> Win s -> iterationsConverged c o s = Some s' -> Win s'.
Proof.
  intros M I W H _. unfold iterationsConverged in H. apply bind_some in H as (gl & _ & H). pose proof (initializeMatrices_win c s I W) as Wt.
  destruct (initializeMatrices_inv c s I) as (C & So & Ol & Fr & L1 & L2 & Ec & Un & In_). set (t := initializeMatrices s) in *.
  apply bind_some in H as (u & UP & H). apply bind_some in H as (w & D & H). apply some_inj in H. subst s'.
  destruct (update_winOK c o t u M C L1 Wt UP) as [(ws & (B1 & B2 & B3) & Hd) Hp]. destruct (update_frame _ _ _ _ UP) as (U1 & U2 & U3 & U4). destruct Fr as (F1 & F2 & F3 & F4).
  assert (Cu : core u).
  { destruct (q_firstIteration s) eqn:FI; [rewrite update_first in UP by congruence; apply some_inj in UP; now subst|].
    now apply (update_cases c o t u M C L1 F1 UP). }
  destruct Cu as (C1 & C2 & C3 & C4). destruct (popZeroFront_positive (q_cols u) C2) as (P1 & P2 & P3 & P4 & P5).
  set (p := setMatrices u (popZeroFront (popZeroFront (q_cols u))) (q_V u) (q_W u) (q_qr u)) in *.
  assert (Sp : settled p) by (unfold settled, p; cbn; repeat split; [exact P1|congruence|exact C4]).
  assert (Bp : exists wp, Blocks (q_cols p) (q_V p) wp /\ forall x, In x wp -> In x ws).
  { destruct (q_cols u) as [|[|n] r] eqn:E; [contradiction| |].
    - destruct ws as [|w0 q]; [discriminate|]. exists q. split; [|intros x X; now right].
      split; [|split; [now inversion B2|]].
      + unfold p. cbn [q_cols setMatrices]. rewrite P3. cbn in B1 |- *. lia.
      + unfold p. cbn [q_cols q_V setMatrices]. rewrite P3. exact B3.
    - exists ws. split; [|auto]. unfold p. rewrite P3. now repeat split. }
  destruct Bp as (wp & Bp & Ip). destruct (dropOldWindows_blocks c p w wp Sp Bp D) as (wd & (D1 & D2 & D3) & Id).
  destruct (dropOldWindows_some c p w Sp D) as (_ & (_ & _ & G3 & _) & _). change (q_window p) with (q_window u) in G3.
  exists (S (q_window w) :: wd). split; [|reflexivity]. cbn [q_cols q_V]. split; [cbn; lia|]. split; [|exact D3].
  apply decreasing_cons; [exact D2|]. intros x X. apply Id, Ip in X. destruct ws as [|w0 q]; [destruct X|]. cbn in Hd. subst w0.
  rewrite G3. destruct X as [<-|X]; [lia|]. pose proof (decreasing_lt _ _ B2 x X). lia.
Qed.
Lemma win_counts s : core s -> winOK s -> forall l, NoDup l -> (forall w, In w l -> w < q_window s /\ In w (map window_of (q_V s))) -> length l <= pred (length (q_cols s)).
Proof.
  intros C (ws & (B1 & B2 & B3) & Hd) l N H. destruct ws as [|w0 q]; [destruct C as (C1 & _); destruct (q_cols s); [contradiction|discriminate]|].
  cbn in Hd. subst w0. rewrite <- B1. cbn [length pred]. apply NoDup_incl_length; [exact N|]. intros w I. destruct (H w I) as [A B].
  rewrite B3 in B. apply blocks_in in B as [<-|B]; [lia|exact B].
Qed.
