From Coq Require Import ZArith List Arith Bool Lia.
From Verif Require Import M_Net M_Ring S_Term P_Net M_Comm P_Term.
Import ListNotations.
Open Scope nat_scope.

Lemma talk_connect i j : talk i j (requestConnection j i i j 0 1) (acceptConnection i j i j 0) j i.
Proof.
  unfold requestConnection, acceptConnection. cbn [bind recv send]. constructor. cbn [bind recv send].
  rewrite !Nat.eqb_refl. cbn [andb check bind send]. repeat (constructor; cbn [bind recv send rInt]).
Qed.

Section R.
Variable n : nat.
Hypothesis Hn : 2 <= n.
Notation prev := (prevProc n). Notation next := (nextProc n).
Lemma next_lt r : r < n -> next r < n.
Proof. intros H. unfold nextProc. apply Nat.mod_upper_bound. lia. Qed.
Lemma next_S r : r + 1 < n -> next r = r + 1.
Proof. intros H. unfold nextProc. apply Nat.mod_small, H. Qed.
Lemma next_last : next (n - 1) = 0.
Proof. unfold nextProc. replace (n - 1 + 1) with n by lia. apply Nat.mod_same. lia. Qed.
Lemma prev_S r : r + 1 < n -> prev (r + 1) = r.
Proof. intros H. unfold prevProc. replace (r + 1 + n - 1) with (r + 1 * n) by lia. rewrite Nat.mod_add by lia. apply Nat.mod_small. lia. Qed.
Lemma prev_0 : prev 0 = n - 1.
Proof. unfold prevProc. apply Nat.mod_small. lia. Qed.
Lemma prev_next r : r < n -> prev (next r) = r.
Proof.
  intros H. destruct (Nat.eq_dec r (n - 1)) as [->|N]; [rewrite next_last, prev_0; reflexivity|].
  rewrite next_S, prev_S by lia. reflexivity.
Qed.
Lemma next_prev r : r < n -> next (prev r) = r.
Proof.
  intros H. destruct r as [|r]; [rewrite prev_0, next_last; reflexivity|].
  replace (S r) with (r + 1) by lia. rewrite prev_S, next_S by lia. reflexivity.
Qed.
Lemma prev_lt r : prev r < n.
Proof. unfold prevProc. apply Nat.mod_upper_bound. lia. Qed.
Lemma next_ne r : r < n -> next r <> r.
Proof.
  intros H. destruct (Nat.eq_dec r (n - 1)) as [->|N]; [rewrite next_last; lia|]. rewrite next_S by lia. lia.
Qed.

(** [D] marks the finished links; link [i] connects [i] and [next i] *)
Notation final r := (PRet (Some (prev r, next r))).
Definition stage (D : nat -> bool) (r : nat) : proc rmsg (option (nat * nat)) :=
  if Nat.even r then
    if D (prev r) then
      if D r then final r else bind (requestConnection (next r) r r (next r) 0 1) (fun right => PRet (Some (prev r, right)))
    else connectCircularComm n r
  else
    if D r then
      if D (prev r) then final r else bind (acceptConnection (prev r) r (prev r) r 0) (fun left => PRet (Some (left, next r)))
    else connectCircularComm n r.
Definition add (i : nat) (D : nat -> bool) : nat -> bool := fun k => (k =? i) || D k.

Lemma conn_n r : connectCircularComm n r =
  if Nat.even r then
    bind (acceptConnection (prev r) r (prev r) r 0) (fun left =>
    bind (requestConnection (next r) r r (next r) 0 1) (fun right => PRet (Some (left, right))))
  else
    bind (requestConnection (next r) r r (next r) 0 1) (fun right =>
    bind (acceptConnection (prev r) r (prev r) r 0) (fun left => PRet (Some (left, right)))).
Proof. unfold connectCircularComm. destruct (Nat.eqb_spec n 1); [lia|reflexivity]. Qed.

(** link [i] can be made if [i] is about to request and [next i] about to accept *)
Lemma prev_ne r : r < n -> prev r <> r.
Proof. intros H E. pose proof (next_prev r H) as X. rewrite E in X. exact (next_ne r H X). Qed.
Lemma link_runs D i : i < n -> D i = false -> D (prev i) = Nat.even i -> D (next i) = negb (Nat.even (next i)) ->
  runs n (stage D) (stage (add i D)).
Proof.
  intros Hi Di He Ho. pose proof (next_lt i Hi) as Hj. pose proof (next_ne i Hi) as Nij.
  pose proof (prev_next i Hi) as Pj. pose proof (prev_ne i Hi) as Npi.
  remember (next i) as j eqn:Ej.
  assert (Ap : forall k, k <> i -> add i D k = D k) by (intros k Hk; unfold add; destruct (Nat.eqb_spec k i); [contradiction|reflexivity]).
  assert (Aeq : add i D i = true) by (unfold add; rewrite Nat.eqb_refl; reflexivity).
  assert (Li : leads (requestConnection j i i j 0 1) (stage D i) (fun x X => x = j -> X = stage (add i D) i)).
  { unfold stage. rewrite <- Ej, Aeq, (Ap (prev i)) by auto. rewrite Di, He.
    destruct (Nat.even i) eqn:Ei.
    - eapply leads_mono; [|apply leads_intro]. cbn. intros x X E ->. rewrite E. reflexivity.
    - rewrite conn_n, Ei, <- Ej. eapply leads_mono; [|apply leads_intro]. cbn. intros x X E ->. rewrite E. reflexivity. }
  assert (Lj : leads (acceptConnection i j i j 0) (stage D j) (fun x X => x = i -> X = stage (add i D) j)).
  { unfold stage. rewrite Pj, Aeq, (Ap j) by auto. rewrite Di, Ho.
    destruct (Nat.even j) eqn:Ee; cbn [negb].
    - rewrite conn_n, Ee, Pj. eapply leads_mono; [|apply leads_intro]. cbn. intros x X E ->. rewrite E. reflexivity.
    - eapply leads_mono; [|apply leads_intro]. cbn. intros x X E ->. rewrite E. reflexivity. }
  destruct (runs_talk n i j _ _ _ _ (talk_connect i j) (stage D) _ _ Hi Hj (not_eq_sym Nij) Li Lj) as (X & Y & U & UX & UY).
  eapply runs_ext; [reflexivity| |exact U]. intros k Hk. cbn beta.
  destruct (Nat.eq_dec k j) as [->|Nj]; [rewrite putp_eq by auto; apply UY; reflexivity|].
  rewrite putp_ne by auto. destruct (Nat.eq_dec k i) as [->|Ni]; [rewrite putp_eq by auto; apply UX; reflexivity|].
  rewrite putp_ne by auto. unfold stage. rewrite (Ap k) by auto. rewrite (Ap (prev k)); [reflexivity|].
  intros E. apply Nj. rewrite Ej, <- E. symmetry. apply next_prev, Hk.
Qed.
Lemma stage_ext D D' : (forall k, k < n -> D k = D' k) -> runs n (stage D) (stage D').
Proof.
  intros H. apply runs_refl. intros k Hk. unfold stage. rewrite (H k Hk), (H (prev k) (prev_lt k)). reflexivity.
Qed.
Lemma even_S k : Nat.even (k + 1) = negb (Nat.even k).
Proof. rewrite Nat.add_1_r, Nat.even_succ, <- Nat.negb_even. reflexivity. Qed.
(** first the links requested by odd ranks *)
Definition D1 (m k : nat) : bool := negb (Nat.even k) && (k <? m).
Lemma odd_links m : m <= n -> runs n (stage (fun _ => false)) (stage (D1 m)).
Proof.
  induction m as [|m IH]; intros H.
  - apply stage_ext. intros k _. unfold D1. rewrite andb_false_r. reflexivity.
  - eapply runs_trans; [apply IH; lia|]. destruct (Nat.even m) eqn:Em.
    + apply stage_ext. intros k _. unfold D1. destruct (Nat.ltb_spec k m), (Nat.ltb_spec k (S m)); auto; try lia.
      assert (k = m) as -> by lia. rewrite Em. reflexivity.
    + eapply runs_trans; [apply (link_runs (D1 m) m); [lia| | |]|].
      * unfold D1. rewrite Nat.ltb_irrefl, andb_false_r. reflexivity.
      * rewrite Em. unfold D1. assert (m <> 0) by (intros ->; discriminate).
        replace m with (m - 1 + 1) in Em |- * by lia. rewrite prev_S by lia. rewrite even_S in Em.
        destruct (Nat.even (m - 1)); [reflexivity|discriminate].
      * unfold D1. destruct (Nat.eq_dec m (n - 1)) as [->|N].
        -- rewrite next_last. reflexivity.
        -- rewrite next_S, even_S, Em by lia. reflexivity.
      * apply stage_ext. intros k _. unfold D1, add.
        destruct (Nat.eqb_spec k m) as [->|N]; [rewrite Em; destruct (Nat.ltb_spec m (S m)); [reflexivity|lia]|].
        destruct (Nat.ltb_spec k m), (Nat.ltb_spec k (S m)); auto; lia.
Qed.
(** then the last link of an odd ring *)
Definition D2 (m k : nat) : bool := negb (Nat.even k) || (k <? m) || (k =? n - 1).
Lemma last_link : runs n (stage (D1 n)) (stage (D2 0)).
Proof.
  destruct (Nat.even (n - 1)) eqn:En.
  - eapply runs_trans; [apply (link_runs (D1 n) (n - 1)); [lia| | |]|].
    + unfold D1. rewrite En. reflexivity.
    + rewrite En. unfold D1. replace (n - 1) with (n - 2 + 1) in En |- * by lia. rewrite prev_S by lia. rewrite even_S in En.
      rewrite En. destruct (Nat.ltb_spec (n - 2) n); [reflexivity|lia].
    + rewrite next_last. reflexivity.
    + apply stage_ext. intros k Hk. unfold D1, D2, add.
      destruct (Nat.eqb_spec k (n - 1)); [rewrite orb_true_r; reflexivity|]. rewrite orb_false_r.
      destruct (Nat.ltb_spec k n); [|lia]. cbn. rewrite andb_true_r, orb_false_r. reflexivity.
  - apply stage_ext. intros k Hk. unfold D1, D2. destruct (Nat.ltb_spec k n); [|lia]. rewrite andb_true_r. cbn.
    rewrite orb_false_r. destruct (Nat.eqb_spec k (n - 1)) as [->|]; [rewrite En; reflexivity|rewrite orb_false_r; reflexivity].
Qed.
(** then the links requested by even ranks *)
Lemma even_links m : m <= n -> runs n (stage (D2 0)) (stage (D2 m)).
Proof.
  induction m as [|m IH]; intros H; [apply runs_refl; auto|].
  eapply runs_trans; [apply IH; lia|].
  destruct (D2 m m) eqn:Dm.
  - apply stage_ext. intros k _. unfold D2 in *. destruct (Nat.ltb_spec k m), (Nat.ltb_spec k (S m)); auto; try lia.
    assert (k = m) as -> by lia. rewrite Nat.ltb_irrefl in Dm. rewrite Dm, orb_true_r. reflexivity.
  - assert (Em : Nat.even m = true).
    { unfold D2 in Dm. destruct (Nat.even m); [reflexivity|discriminate Dm]. }
    assert (Nm : m <> n - 1).
    { intros E. unfold D2 in Dm. rewrite E, Nat.eqb_refl, orb_true_r in Dm. discriminate Dm. }
    eapply runs_trans; [apply (link_runs (D2 m) m); [lia|exact Dm| |]|].
    + rewrite Em. unfold D2. destruct m as [|m].
      * rewrite prev_0, Nat.eqb_refl, orb_true_r. reflexivity.
      * replace (S m) with (m + 1) in * by lia. rewrite prev_S by lia. rewrite even_S in Em. rewrite Em. reflexivity.
    + rewrite next_S by lia. rewrite even_S, Em. unfold D2. rewrite even_S, Em. reflexivity.
    + apply stage_ext. intros k _. unfold D2, add.
      destruct (Nat.eqb_spec k m) as [->|N]; [destruct (Nat.ltb_spec m (S m)); [rewrite orb_true_r; reflexivity|lia]|].
      destruct (Nat.ltb_spec k m), (Nat.ltb_spec k (S m)); auto; lia.
Qed.
Lemma ring_runs : runs n (connectCircularComm n) (fun r => final r).
Proof.
  eapply runs_ext; [| |eapply runs_trans; [apply (odd_links n); lia|eapply runs_trans; [apply last_link|apply (even_links n); lia]]].
  - intros r Hr. cbn beta. unfold stage. destruct (Nat.even r); reflexivity.
  - intros r Hr. cbn beta. unfold stage, D2. destruct (Nat.ltb_spec r n); [|lia].
    destruct (Nat.ltb_spec (prev r) n); [|pose proof (prev_lt r); lia]. rewrite !orb_true_r. cbn. destruct (Nat.even r); reflexivity.
Qed.
End R.
