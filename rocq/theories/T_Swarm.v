(** C38, C59, C60: the participants connect, agree on remeshing and shut down
    along all configured connections. *)
From Coq Require Import ZArith List Arith String Ascii Bool Lia.
From Verif Require Import M_Net S_Term P_Net P_Term M_Ring M_Swarm S_Swarm P_Swarm.
Import List ListNotations.
Open Scope nat_scope.

(** * C60: configuration and connection *)

(** Every set of <m2n> tags that preCICE accepts gives each of the [n]
    participants its list of connections (the internal assertion holds), and
    the two ends of a connection know each other and have opposite roles. *)
Theorem C60_both_ends_are_configured :
  forall n tags, configuredM2Ns tags = Some tags ->
  exists m2ns, configured n tags m2ns /\
    (forall i j, i < n -> j < n -> linked tags i j <-> exists b, In b (m2ns i) /\ remote b = j) /\
    (no_self_link tags -> forall i b, i < n -> In b (m2ns i) ->
       exists b', In b' (m2ns (remote b)) /\ remote b' = i /\ isRequesting b' = negb (isRequesting b)) /\
    (forall i, i < n -> NoDup (map remote (m2ns i))).
Proof.
  intros n tags H. destruct (configured_exists n tags H) as (ms & C). exists ms. split; [exact C|]. split; [|split].
  - intros i j Hi Hj. apply (configured_linked n); auto.
  - intros NS i b Hi Hb. destruct (wf_mate n ms (configured_wfam n tags ms NS C) i b Hi Hb) as (_ & _ & b' & H1 & H2 & H3 & _).
    exists b'. auto.
  - intros i Hi. destruct C as (_ & C).
    assert (HS : Sorted.StronglySorted lt (map remote (ms i))) by (apply (bound_ok n i tags [] (ms i)); [apply C; auto|constructor]).
    revert HS. generalize (map remote (ms i)). clear. intros l HS. induction HS as [|x l HS IH F]; constructor; auto.
    intros Hx. rewrite Forall_forall in F. specialize (F x Hx). lia.
Qed.
Print Assumptions C60_both_ends_are_configured.

(** Tags are accepted exactly if no two of them name the same two participants. *)
Theorem C60_duplicate_connections_are_rejected :
  forall tags, configuredM2Ns tags = Some tags <->
  forall k l t u, nth_error tags k = Some t -> nth_error tags l = Some u -> k < l ->
    ~ (acceptor t = acceptor u /\ connector t = connector u) /\
    ~ (acceptor t = connector u /\ connector t = acceptor u).
Proof.
  assert (G : forall tags pre, readTags pre tags = Some (pre ++ tags) <->
    forall k l t u, nth_error (pre ++ tags) k = Some t -> nth_error tags l = Some u -> k < List.length pre + l ->
      ~ (acceptor t = acceptor u /\ connector t = connector u) /\ ~ (acceptor t = connector u /\ connector t = acceptor u)).
  { induction tags as [|u tags IH]; intros pre.
    - cbn. rewrite app_nil_r. split; auto. intros _ k l t u _ H. destruct l; discriminate.
    - cbn [readTags].
      assert (D : checkDuplicates pre u = true <-> forall t, In t pre ->
        ~ (acceptor t = acceptor u /\ connector t = connector u) /\ ~ (acceptor t = connector u /\ connector t = acceptor u)).
      { unfold checkDuplicates. rewrite negb_true_iff. split.
        - intros H t Ht.
          assert (X : (((acceptor t =? acceptor u) && (connector t =? connector u)) ||
                       ((connector t =? acceptor u) && (acceptor t =? connector u))) = false).
          { destruct (_ || _) eqn:E; auto. rewrite <- H. symmetry. apply existsb_exists. exists t. auto. }
          apply orb_false_iff in X. rewrite !andb_false_iff, !Nat.eqb_neq in X. lia.
        - intros H. destruct (existsb _ pre) eqn:E; auto. apply existsb_exists in E. destruct E as (t & Ht & E).
          apply orb_true_iff in E. rewrite !andb_true_iff, !Nat.eqb_eq in E. specialize (H t Ht). lia. }
      replace (pre ++ u :: tags) with ((pre ++ [u]) ++ tags) by (rewrite <- app_assoc; reflexivity).
      assert (E0 : readTags pre (u :: tags) = if checkDuplicates pre u then readTags (pre ++ [u]) tags else None) by reflexivity.
      split.
      + destruct (checkDuplicates pre u); [|discriminate]. intros R0. pose proof (proj1 (IH (pre ++ [u])) R0) as R. rewrite app_length in R. cbn [List.length] in R.
        intros k l t w Hk Hl Lk. destruct l as [|l].
        * injection Hl as <-. apply D; auto. rewrite <- app_assoc in Hk. rewrite nth_error_app1 in Hk by lia.
          eapply nth_error_In; eauto.
        * cbn in Hl. eapply (R k l); eauto. lia.
      + intros H.
        assert (D1 : checkDuplicates pre u = true).
        { apply D. intros t Ht. destruct (In_nth_error _ _ Ht) as (k & Ek).
          assert (k < List.length pre) by (apply nth_error_Some; congruence).
          apply (H k 0); auto; [|lia]. rewrite <- app_assoc. rewrite nth_error_app1 by auto. auto. }
        rewrite D1. apply (proj2 (IH (pre ++ [u]))). intros k l t w Hk Hl Lk. apply (H k (S l)); auto. rewrite app_length in Lk. cbn in Lk. lia. }
  intros tags. unfold configuredM2Ns. rewrite (G tags []). cbn [app List.length]. split.
  - intros H k l t u Hk Hl L. eapply H; eauto.
  - intros H k l t u Hk Hl L. eapply H; eauto.
Qed.
Print Assumptions C60_duplicate_connections_are_rejected.

(** Participants that all use the same version and configuration always connect:
    for every graph of connections and every schedule. *)
Theorem C60_participants_connect :
  forall n tags m2ns version hash, configured n tags m2ns -> no_self_link tags -> no_semicolon version ->
  all_end n (fun i => connectPrimaries i version hash (m2ns i)) (fun i => connected false (m2ns i)).
Proof.
  intros n tags ms v h C NS V. apply all_end_intro.
  eapply runs_ext; [| |apply (connect_runs n ms (configured_wfam _ _ _ NS C) v h V)]; auto.
  intros i Hi. cbv beta. unfold connected. f_equal. apply map_ext_in. intros b Hb.
  destruct C as (_ & C). apply (bound_in n i tags (ms i) b (C i Hi)) in Hb. destruct Hb as (t & _ & E). unfold entry in E.
  destruct (acceptor t =? i); [destruct (connector t <? n)|destruct (connector t =? i); [destruct (acceptor t <? n)|]];
    try discriminate; injection E as <-; reflexivity.
Qed.
Print Assumptions C60_participants_connect.

(** Two participants that use different versions, or different configurations,
    both report this and neither connects. *)
Theorem C60_mismatch_is_reported_by_both :
  forall v0 h0 v1 h1, no_semicolon v0 -> no_semicolon v1 -> (v0 <> v1 \/ h0 <> h1) ->
  let e := if String.eqb v0 v1 then eConfig else eVersion in
  always_ends [outcome (requestPrimaryRankConnection 0 v0 h0 1); outcome (acceptPrimaryRankConnection 1 v1 h1 0)]
              [inr e; inr e].
Proof.
  intros v0 h0 v1 h1 N0 N1 D e. apply talk_ends.
  assert (B : forall A B i j (p : proc smsg A) (q : proc smsg A) a b (f g : A -> proc smsg B) x y,
    talk i j p q a b -> talk i j (outcome (f a)) (outcome (g b)) x y ->
    talk i j (outcome (bind p f)) (outcome (bind q g)) x y).
  { intros A B i j p q a b f g x y T. revert x y. induction T; intros x y H'; cbn; auto; constructor; auto. }
  unfold requestPrimaryRankConnection, acceptPrimaryRankConnection.
  eapply B; [apply talk_wire, talk_conn|].
  unfold send, recvStr, recv. cbn [bind outcome].
  apply talk_recv. cbn [bind outcome]. apply talk_send. cbn [bind outcome].
  rewrite !check_info by auto. rewrite (String.eqb_sym v1 v0), (String.eqb_sym h1 h0).
  unfold e. destruct (String.eqb_spec v0 v1) as [Ev|Ev]; [|constructor].
  destruct (String.eqb_spec h0 h1) as [Eh|Eh]; [exfalso; tauto|constructor].
Qed.
Print Assumptions C60_mismatch_is_reported_by_both.

(** A tag that connects a participant with itself is accepted, and this
    participant waits for itself forever. *)
Theorem C60_self_connection_refuted :
  exists tags m2ns, configured 1 tags m2ns /\
    forall version hash, ~ (exists l c, sstep once l (ranks 1 (fun i => connectPrimaries i version hash (m2ns i))) c) /\
      ~ exists res, ranks 1 (fun i => connectPrimaries i version hash (m2ns i)) = map PRet res.
Proof.
  exists [mkTag 0 0], (fun _ => [mkB 0 true false false]). split.
  - split; [reflexivity|]. intros i Hi. assert (i = 0) as -> by lia. reflexivity.
  - intros v h. split.
    + intros (l & c & H). inversion H as [i j m ki kj ? N Hi Hj|i s p ? Hi Hb]; subst.
      * assert (i < 1) by (exact (nth_error_lt _ _ _ Hi)).
        assert (j < 1) by (exact (nth_error_lt _ _ _ Hj)). lia.
      * discriminate.
    + intros ([|r [|]] & E); discriminate.
Qed.
Print Assumptions C60_self_connection_refuted.

(** * C59: the remeshing handshake *)

(** Whatever the graph and the schedule, the handshake ends, and a participant
    learns that it has to reinitialize exactly if it, or a participant it is
    directly connected with, has changed a mesh. *)
Theorem C59_handshake_reaches_direct_partners :
  forall n tags m2ns changed, configured n tags m2ns -> no_self_link tags ->
  exists reinit, all_end n (fun i => reinitHandshake (changed i) (connected true (m2ns i))) reinit /\
    forall i, i < n -> reinit i = true <-> changed i = true \/ exists j, j < n /\ linked tags i j /\ changed j = true.
Proof.
  intros n tags ms ch C NS.
  pose proof (configured_wfam _ _ _ NS C) as W.
  assert (W' : wfam n (fun i => connected true (ms i))) by (apply wfam_map; auto).
  eexists. split; [apply all_end_intro, (handshake_runs n _ W')|].
  intros i Hi. cbv beta. rewrite orb_true_iff, existsb_exists. split; (intros [H|H]; [left; auto|right]).
  - destruct H as (b & Hb & E). apply in_map_iff in Hb. destruct Hb as (b0 & <- & Hb0). cbn [remote] in E.
    destruct (wf_mate n ms W i b0 Hi Hb0) as (L & _). exists (remote b0). split; auto. split; auto.
    apply (configured_linked n tags ms); auto. eauto.
  - destruct H as (j & Hj & L & E). apply (configured_linked n tags ms i j C Hi Hj) in L. destruct L as (b & Hb & Er).
    exists (mkB (remote b) (isRequesting b) true true). cbn [remote]. split; [|congruence].
    unfold connected. apply in_map_iff. exists b. auto.
Qed.
Print Assumptions C59_handshake_reaches_direct_partners.

(** If every two participants are connected, all of them come to the same
    decision: reinitialize if and only if some participant changed a mesh. *)
Theorem C59_handshake_agrees_when_all_are_connected :
  forall n tags m2ns changed, configured n tags m2ns -> no_self_link tags ->
  (forall i j, i < n -> j < n -> i <> j -> linked tags i j) ->
  all_end n (fun i => reinitHandshake (changed i) (connected true (m2ns i)))
            (fun _ => existsb changed (seq 0 n)).
Proof.
  intros n tags ms ch C NS L. destruct (C59_handshake_reaches_direct_partners n tags ms ch C NS) as (r & H & R).
  unfold all_end in *. replace (map (fun _ => existsb ch (seq 0 n)) (seq 0 n)) with (map r (seq 0 n)); [exact H|].
  apply map_ext_in. intros i Hi. apply in_seq in Hi.
  assert (Li : i < n) by lia.
  apply Bool.eq_iff_eq_true. rewrite (R i Li), existsb_exists. split.
  - intros [E|(j & Hj & _ & E)]; [exists i|exists j]; (split; [apply in_seq; lia|auto]).
  - intros (j & Hj & E). apply in_seq in Hj. destruct (Nat.eq_dec i j) as [->|N]; [left; auto|].
    right. exists j. split; [lia|]. split; auto. apply L; auto; lia.
Qed.
Print Assumptions C59_handshake_agrees_when_all_are_connected.

(** Otherwise they may disagree: in a chain A - B - C with a remeshing A, the
    participant C does not reinitialize although its partner B does. *)
Definition chain : list m2nTag := [mkTag 0 1; mkTag 1 2].
Definition chainM2Ns (i : nat) : list bm2n :=
  match i with
  | 0 => [mkB 1 true false false]
  | 1 => [mkB 0 false false false; mkB 2 true false false]
  | _ => [mkB 1 false false false]
  end.
Lemma chain_configured : configured 3 chain chainM2Ns.
Proof.
  split; [reflexivity|]. intros i Hi. destruct i as [|[|[|i]]]; try reflexivity. lia.
Qed.
Lemma chain_no_self : no_self_link chain.
Proof. intros t [<-|[<-|[]]]; discriminate. Qed.
Theorem C59_handshake_agreement_refuted :
  exists n tags m2ns changed, configured n tags m2ns /\ no_self_link tags /\
    exists reinit, all_end n (fun i => reinitHandshake (changed i) (connected true (m2ns i))) reinit /\
      exists i j, i < n /\ j < n /\ linked tags i j /\ reinit i = true /\ reinit j = false.
Proof.
  exists 3, chain, chainM2Ns, (fun i => i =? 0).
  split; [apply chain_configured|]. split; [apply chain_no_self|].
  destruct (C59_handshake_reaches_direct_partners 3 chain chainM2Ns (fun i => i =? 0) chain_configured chain_no_self) as (r & H & R).
  exists r. split; [exact H|]. exists 1, 2. split; [lia|]. split; [lia|]. split; [left; right; left; reflexivity|].
  split.
  - apply R; [lia|]. right. exists 0. split; [lia|]. split; [right; left; reflexivity|reflexivity].
  - apply not_true_is_false. intros E. apply R in E; [|lia]. destruct E as [E|(j & Hj & L & E)]; [discriminate|].
    apply Nat.eqb_eq in E. subst j. destruct L as [[L|[L|[]]]|[L|[L|[]]]]; discriminate.
Qed.
Print Assumptions C59_handshake_agreement_refuted.

(** * C38: shutting down *)

(** finalize() of all participants ends under every schedule, for every graph,
    with or without the final synchronization: no deadlock, no failed
    assertion, no message left behind, and every connection closed. *)
Theorem C38_shutdown_completes :
  forall n tags m2ns wait, configured n tags m2ns -> no_self_link tags ->
  all_end n (fun i => closeCommunicationChannels wait CloseAll (connected true (m2ns i))) (fun i => closed (m2ns i)).
Proof.
  intros n tags ms w C NS.
  assert (W' : wfam n (fun i => connected true (ms i))) by (apply wfam_map; auto; apply configured_wfam with tags; auto).
  apply all_end_intro. eapply runs_ext; [| |apply (close_runs n _ W' w CloseAll)]; auto.
  intros i Hi. cbv beta. unfold connected, closed. rewrite map_map. reflexivity.
Qed.
Print Assumptions C38_shutdown_completes.

(** Closing for a reinitialization ends as well and keeps the primary ranks connected. *)
Theorem C38_closing_for_reinitialization_completes :
  forall n tags m2ns wait, configured n tags m2ns -> no_self_link tags ->
  all_end n (fun i => closeCommunicationChannels wait CloseDistributed (connected true (m2ns i)))
            (fun i => connected false (m2ns i)).
Proof.
  intros n tags ms w C NS.
  assert (W' : wfam n (fun i => connected true (ms i))) by (apply wfam_map; auto; apply configured_wfam with tags; auto).
  apply all_end_intro. eapply runs_ext; [| |apply (close_runs n _ W' w CloseDistributed)]; auto.
  intros i Hi. cbv beta. unfold connected. rewrite map_map. reflexivity.
Qed.
Print Assumptions C38_closing_for_reinitialization_completes.

(** With wait-in-finalize nobody returns from finalize() before every partner
    has called it.  The participants call finalize() at arbitrary times. *)
Theorem C38_nobody_leaves_before_the_partners_arrive :
  forall n tags m2ns i j res, configured n tags m2ns -> no_self_link tags -> i < n -> j < n -> linked tags i j ->
  let body := calls (fun k => closeCommunicationChannels true CloseAll (connected true (m2ns k))) in
  let start := repeat (PRet Waiting) n in
  (forall c, reaches (sstep body) start c ->
     nth_error c i = Some (PRet (Done res)) -> nth_error c j <> Some (PRet Waiting)) /\
  (forall c q, reaches (astep body) (start, emptych n) (c, q) ->
     nth_error c i = Some (PRet (Done res)) -> nth_error c j <> Some (PRet Waiting)).
Proof.
  intros n tags ms i j res C NS Hi Hj L body start.
  apply (configured_linked n tags ms i j C Hi Hj) in L. destruct L as (b & Hb & Er).
  assert (N : i <> j).
  { destruct (wf_mate n ms (configured_wfam _ _ _ NS C) i b Hi Hb) as (_ & N & _). congruence. }
  assert (O : owes j (closeCommunicationChannels true CloseAll (connected true (ms i)))).
  { apply close_owes. exists (mkB (remote b) (isRequesting b) true true). split; [|auto].
    apply in_map_iff. exists b. auto. }
  assert (A : forall c q, reaches (astep body) (start, emptych n) (c, q) ->
     nth_error c i = Some (PRet (Done res)) -> nth_error c j <> Some (PRet Waiting)).
  { intros c q H. apply (leaves_after n i j res c q). apply (leave_async n i j _ Hi Hj N O _ H). }
  split; [|exact A]. intros c (w & H). destruct (srun_async body w start c H) as (w' & H' & _).
  apply wrun_arun in H'. replace (List.length start) with n in H' by (unfold start; rewrite repeat_length; auto).
  apply (A c (emptych n)). exists w'. exact H'.
Qed.
Print Assumptions C38_nobody_leaves_before_the_partners_arrive.

(** Without it a participant may be gone before its partner calls finalize(). *)
Theorem C38_leaving_early_without_wait :
  let body := calls (fun k => closeCommunicationChannels false CloseAll (connected true (chainM2Ns k))) in
  exists c, reaches (sstep body) (repeat (PRet Waiting) 3) c /\
    nth_error c 0 = Some (PRet (Done (closed (chainM2Ns 0)))) /\ nth_error c 1 = Some (PRet Waiting).
Proof.
  eexists. split; [|split].
  - exists [(0, 0)]. econstructor; [apply (ss_loop _ 0 Waiting); reflexivity|constructor].
  - reflexivity.
  - reflexivity.
Qed.
Print Assumptions C38_leaving_early_without_wait.

(** * The hypotheses hold for a chain and for a fully connected triangle *)
Definition triangle : list m2nTag := [mkTag 0 1; mkTag 2 1; mkTag 2 0].
Definition triangleM2Ns (i : nat) : list bm2n :=
  match i with
  | 0 => [mkB 1 true false false; mkB 2 false false false]
  | 1 => [mkB 0 false false false; mkB 2 false false false]
  | _ => [mkB 0 true false false; mkB 1 true false false]
  end.
Example triangle_configured : configured 3 triangle triangleM2Ns /\ no_self_link triangle /\
  forall i j, i < 3 -> j < 3 -> i <> j -> linked triangle i j.
Proof.
  split; [|split].
  - split; [reflexivity|]. intros i Hi. destruct i as [|[|[|i]]]; try reflexivity. lia.
  - intros t [<-|[<-|[<-|[]]]]; discriminate.
  - intros [|[|[|i]]] [|[|[|j]]] Hi Hj N; try lia; unfold linked, triangle; cbn; intuition.
Qed.
Example C59_triangle : all_end 3 (fun i => reinitHandshake (i =? 1) (connected true (triangleM2Ns i))) (fun _ => true).
Proof.
  exact (C59_handshake_agrees_when_all_are_connected 3 triangle triangleM2Ns (fun i => i =? 1)
    (proj1 triangle_configured) (proj1 (proj2 triangle_configured)) (proj2 (proj2 triangle_configured))).
Qed.
Example C60_chain : all_end 3 (fun i => connectPrimaries i "3.2.0" "ab12" (chainM2Ns i)) (fun i => connected false (chainM2Ns i)).
Proof.
  apply C60_participants_connect with chain; [apply chain_configured|apply chain_no_self|].
  repeat split; discriminate.
Qed.
Example C60_other_version :
  always_ends [outcome (requestPrimaryRankConnection 0 "3.2.0" "ab12" 1); outcome (acceptPrimaryRankConnection 1 "3.1.2" "ab12" 0)]
              [inr eVersion; inr eVersion].
Proof.
  apply (C60_mismatch_is_reported_by_both "3.2.0" "ab12" "3.1.2" "ab12"); [repeat split; discriminate|repeat split; discriminate|].
  left. discriminate.
Qed.
Example C38_chain : all_end 3 (fun i => closeCommunicationChannels true CloseAll (connected true (chainM2Ns i))) (fun i => closed (chainM2Ns i)).
Proof. exact (C38_shutdown_completes 3 chain chainM2Ns true chain_configured chain_no_self). Qed.
