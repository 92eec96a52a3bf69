(** Proofs about profiling. *)
From Coq Require Import String List Arith Bool ZArith Lia.
From Verif Require Import M_Profile S_Profile.
Import ListNotations.
Open Scope string_scope.
Open Scope list_scope.
Open Scope nat_scope.

Lemma shown_accepting m g : accepting m g = shown m g. Proof. destruct m, g; reflexivity. Qed.
(** ** Reading files *)
Lemma decode_app l1 : forall d l2, decode d (l1 ++ l2) = match decode d l1 with Some (d1, h1) => match decode d1 l2 with Some (d2, h2) => Some (d2, h1 ++ h2) | None => None end | None => None end.
Proof.
  induction l1 as [|r l1 IH]; intros d l2; cbn [app decode]; [destruct (decode d l2) as [[? ?]|]; reflexivity|]. destruct r as [i t|i t|i t j v|n i].
  - destruct (nth_error d i); [|reflexivity]. rewrite IH. destruct (decode d l1) as [[d1 h1]|]; [|reflexivity]. destruct (decode d1 l2) as [[d2 h2]|]; reflexivity.
  - destruct (nth_error d i); [|reflexivity]. rewrite IH. destruct (decode d l1) as [[d1 h1]|]; [|reflexivity]. destruct (decode d1 l2) as [[d2 h2]|]; reflexivity.
  - destruct (nth_error d i); [|reflexivity]. destruct (nth_error d j); [|reflexivity]. rewrite IH. destruct (decode d l1) as [[d1 h1]|]; [|reflexivity]. destruct (decode d1 l2) as [[d2 h2]|]; reflexivity.
  - destruct (_ && _); [apply IH|reflexivity].
Qed.
Lemma ascends_snoc lo l hi t hi' : ascends lo l hi -> hi <= t -> t <= hi' -> ascends lo (l ++ [t]) hi'.
Proof. revert lo. induction l as [|x l IH]; intros lo; cbn [app ascends]; [lia|]. intros [A B] H1 H2. split; [exact A|]. apply IH; assumption. Qed.
Lemma ascends_up lo l hi hi' : ascends lo l hi -> hi <= hi' -> ascends lo l hi'.
Proof. revert lo. induction l as [|x l IH]; intros lo; cbn [ascends]; [lia|]. intros [A B] H. split; [exact A|]. apply IH; assumption. Qed.
Lemma ticks_app l1 l2 : ticks (l1 ++ l2) = ticks l1 ++ ticks l2. Proof. apply flat_map_app. Qed.
Lemma index_some n d i : index n d = Some i -> nth_error d i = Some n.
Proof. revert i. induction d as [|x d IH]; intros i H; cbn [index] in H; [discriminate|]. destruct (String.eqb_spec n x) as [->|]; [injection H as <-; reflexivity|]. destruct (index n d) as [j|]; [|discriminate]. injection H as <-. cbn. apply IH. reflexivity. Qed.
Lemma index_none n d : index n d = None -> known d n = false.
Proof.
  intros H. unfold known. destruct (in_dec string_dec n d) as [I|]; [exfalso|reflexivity]. induction d as [|x d IH]; [destruct I|]. cbn [index] in H. destruct (String.eqb_spec n x) as [->|N]; [discriminate|].
  destruct (index n d); [discriminate|]. apply IH; [reflexivity|]. destruct I as [->|I]; [contradiction|exact I].
Qed.

(** ** While the file is open *)
Record inv (s : registry) (hs : list happening) : Prop := Inv {
  i_mode : r_mode s <> Off; i_run : r_running s = true; i_open : r_stream s = Open; i_phase : r_initialized s = true /\ r_finalized s = false; i_glob : nth_error (r_dict s) (r_global s) = Some "_GLOBAL";
  i_file : exists f o, r_files s = f :: o /\ decode [] (f ++ r_queue s) = Some (r_dict s, hs) /\ ascends 0 (ticks (f ++ r_queue s)) (r_clock s) }.
(** what does not change *)
Record same (s t : registry) : Prop := Same {
  s_mode : r_mode t = r_mode s; s_max : r_max t = r_max s; s_par : r_parallel t = r_parallel s; s_sync : r_sync t = r_sync s; s_glob : r_global t = r_global s;
  s_old : tl (r_files t) = tl (r_files s); s_dict : exists x, r_dict t = r_dict s ++ x }.
Lemma same_refl s : same s s. Proof. constructor; try reflexivity. exists []. symmetry. apply app_nil_r. Qed.
Lemma same_trans s t u : same s t -> same t u -> same s u.
Proof. intros [? ? ? ? ? ? [x X]] [? ? ? ? ? ? [y Y]]. constructor; try congruence. exists (x ++ y). rewrite Y, X, app_assoc. reflexivity. Qed.
Lemma same_nth s t i n : same s t -> nth_error (r_dict s) i = Some n -> nth_error (r_dict t) i = Some n.
Proof. intros [? ? ? ? ? ? [x X]] H. rewrite X, nth_error_app1; [exact H|]. apply nth_error_Some. congruence. Qed.
Lemma inv_tick s hs : inv s hs -> inv (tick s) hs /\ same s (tick s).
Proof.
  intros [A B C D G (f & o & E & E1 & E2)]. split; [|constructor; try reflexivity; exists []; symmetry; apply app_nil_r].
  constructor; try assumption. exists f, o. split; [exact E|]. split; [exact E1|]. cbn [tick r_clock r_queue]. eapply ascends_up; [exact E2|lia].
Qed.
Lemma inv_name s hs n : inv s hs -> let (t, id) := nameToID s n in inv t hs /\ same s t /\ nth_error (r_dict t) id = Some n /\ r_clock t = r_clock s.
Proof.
  intros I. unfold nameToID. destruct (index n (r_dict s)) as [id|] eqn:X.
  - split; [exact I|]. split; [apply same_refl|]. split; [apply index_some, X|reflexivity].
  - destruct I as [A B C D G (f & o & E & E1 & E2)]. split; [|split; [|split]].
    + constructor; try assumption.
      * cbn [setNames r_dict r_global]. rewrite nth_error_app1; [exact G|]. apply nth_error_Some. congruence.
      * exists f, o. split; [exact E|]. cbn [setNames r_queue r_dict r_clock]. rewrite app_assoc. split.
        -- rewrite decode_app, E1. cbn [decode]. rewrite Nat.eqb_refl, (index_none _ _ X). cbn [andb negb]. rewrite app_nil_r. reflexivity.
        -- rewrite ticks_app. cbn [ticks flat_map]. rewrite app_nil_r. exact E2.
    + constructor; try reflexivity. exists [n]. reflexivity.
    + cbn [setNames r_dict]. rewrite nth_error_app2, Nat.sub_diag by lia. reflexivity.
    + reflexivity.
Qed.
Lemma inv_flush s hs : inv s hs -> exists t, flush s = Some t /\ inv t hs /\ same s t /\ r_queue t = [] /\ r_clock t = r_clock s /\ r_dict t = r_dict s /\ exists f o, r_files s = f :: o /\ r_files t = (f ++ r_queue s) :: o.
Proof.
  intros I. pose proof I as [A B C D G (f & o & E & E1 & E2)]. unfold flush. destruct (r_mode s) eqn:M; try contradiction; cbn [isOff orb];
  (destruct (length (r_queue s) =? 0) eqn:L;
   [apply Nat.eqb_eq in L; assert (Q : r_queue s = []) by (destruct (r_queue s); [reflexivity|discriminate L]); exists s; split; [reflexivity|]; split; [exact I|]; split; [apply same_refl|]; split; [exact Q|]; split; [reflexivity|]; split; [reflexivity|];
    exists f, o; split; [exact E|]; rewrite Q, app_nil_r; exact E|]);
  rewrite C, E; eexists; (split; [reflexivity|]); (split; [|split; [constructor; try reflexivity; [cbn [setOutput r_files tl]; rewrite E; reflexivity|exists []; symmetry; apply app_nil_r]|split; [reflexivity|]; split; [reflexivity|]; split; [reflexivity|]; exists f, o; split; reflexivity]]);
  (constructor; cbn [setOutput r_mode r_running r_stream r_initialized r_finalized r_dict r_global r_files r_queue r_clock]; try assumption; [congruence|reflexivity|exists (f ++ r_queue s), o; split; [reflexivity|]; rewrite app_nil_r; split; assumption]).
Qed.
(** a record that is read as [h], with a time that is not before the last one *)
Definition recorded (s : registry) (e : record) (h : happening) : Prop :=
  match e, h with
  | Begins i t, Opens n | Ends i t, Closes n => nth_error (r_dict s) i = Some n
  | Datum i t j v, Notes n k v' => nth_error (r_dict s) i = Some n /\ nth_error (r_dict s) j = Some k /\ v = v'
  | _, _ => False
  end.
Definition timeOf (e : record) : nat := match e with Begins _ t | Ends _ t | Datum _ t _ _ => t | Name _ _ => 0 end.
(** [lo]: the last time *)
Definition before (s : registry) (hs : list happening) (lo : nat) : Prop :=
  inv s hs /\ lo <= r_clock s /\ exists f o, r_files s = f :: o /\ ascends 0 (ticks (f ++ r_queue s)) lo.
Lemma before_tick s hs : inv s hs -> before (tick s) hs (r_clock s).
Proof. intros I. split; [apply inv_tick, I|]. split; [cbn; lia|]. destruct I as [_ _ _ _ _ (f & o & E & _ & E2)]. exists f, o. split; [exact E|exact E2]. Qed.
Lemma before_name s hs lo n : before s hs lo -> let (t, id) := nameToID s n in before t hs lo.
Proof.
  intros (I & L & f & o & E & A). pose proof (inv_name s hs n I) as H. unfold nameToID in *. destruct (index n (r_dict s)) as [id|]; destruct H as (I' & _).
  - split; [exact I|]. split; [exact L|]. exists f, o. auto.
  - split; [exact I'|]. split; [exact L|]. exists f, o. split; [exact E|]. cbn [setNames r_queue]. rewrite app_assoc, ticks_app. cbn [ticks flat_map]. rewrite app_nil_r. exact A.
Qed.
Lemma critical_eq s e : isOff (r_mode s) = false -> putCritical s e = Some (setNames s (r_dict s) (r_queue s ++ [e])).
Proof. intros H. unfold putCritical. rewrite H. reflexivity. Qed.
Lemma critical_ok s hs lo e h : before s hs lo -> recorded s e h -> lo <= timeOf e <= r_clock s ->
  inv (setNames s (r_dict s) (r_queue s ++ [e])) (hs ++ [h]) /\ same s (setNames s (r_dict s) (r_queue s ++ [e])) /\ before (setNames s (r_dict s) (r_queue s ++ [e])) (hs ++ [h]) (timeOf e).
Proof.
  intros (I & L & f & o & E & A2) R T. assert (Tk : ticks [e] = [timeOf e]) by (destruct e, h; try contradiction; reflexivity).
  assert (De : decode (r_dict s) [e] = Some (r_dict s, [h])).
  { destruct e as [i t|i t|i t j v|n i], h as [m|m|m k v']; try contradiction; cbn [recorded] in R; cbn [decode]; [rewrite R; reflexivity|rewrite R; reflexivity|]. destruct R as (R1 & R2 & <-). rewrite R1, R2. reflexivity. }
  pose proof I as [A B C D G (f' & o' & E' & E1 & _)]. rewrite E in E'. injection E' as <- <-.
  assert (I' : inv (setNames s (r_dict s) (r_queue s ++ [e])) (hs ++ [h])).
  { constructor; try assumption. exists f, o. split; [exact E|]. cbn [setNames r_queue r_dict r_clock]. rewrite app_assoc. split.
    - rewrite decode_app, E1, De. reflexivity.
    - rewrite ticks_app, Tk. eapply ascends_snoc; [exact A2|lia|lia]. }
  split; [exact I'|]. split; [constructor; try reflexivity; exists []; symmetry; apply app_nil_r|].
  split; [exact I'|]. split; [cbn [setNames r_clock]; lia|]. exists f, o. split; [exact E|]. cbn [setNames r_queue]. rewrite app_assoc, ticks_app, Tk. eapply ascends_snoc; [exact A2|lia|lia].
Qed.
Lemma put_ok s hs lo e h : before s hs lo -> recorded s e h -> lo <= timeOf e <= r_clock s ->
  exists t, put s e = Some t /\ inv t (hs ++ [h]) /\ same s t /\ r_dict t = r_dict s /\ (isStart e = false -> r_max s = 0 \/ length (r_queue t) <= r_max s).
Proof.
  intros Bf R T. destruct (critical_ok s hs lo e h Bf R T) as (I & S1 & _). unfold put. destruct Bf as ([A _ _ _ _ _] & _). destruct (isOff (r_mode s)) eqn:O; [destruct (r_mode s); try discriminate; contradiction|].
  set (s' := setNames s (r_dict s) (r_queue s ++ [e])) in *. destruct (negb (negb (r_max s =? 1) && isStart e) && (0 <? r_max s) && (r_max s <? length (r_queue s'))) eqn:F.
  - destruct (inv_flush s' _ I) as (t & -> & I' & S2 & Q & _ & Dt & _). exists t. split; [reflexivity|]. split; [exact I'|]. split; [eapply same_trans; eassumption|]. split; [exact Dt|]. intros _. rewrite Q. right. cbn. lia.
  - exists s'. split; [reflexivity|]. split; [exact I|]. split; [exact S1|]. split; [reflexivity|]. intros N. rewrite N, andb_false_r in F. cbn [negb andb] in F. apply andb_false_iff in F. rewrite !Nat.ltb_ge in F. lia.
Qed.

(** ** Events *)
Record live (s : registry) (e : event) (n : string) (g : group) (sync running : bool) : Prop := Live {
  l_id : nth_error (r_dict s) (e_id e) = Some n; l_group : e_group e = g; l_run : e_running e = running; l_sync : e_sync e = sync;
  l_sid : sync && r_parallel s = true -> exists i, e_sid e = Some i /\ nth_error (r_dict s) i = Some (n ++ ".sync")%string }.
Lemma live_same s t e n g sync r : same s t -> live s e n g sync r -> live t e n g sync r.
Proof. intros Sa [A B C D E]. constructor; try assumption; [eapply same_nth; eassumption|]. rewrite (s_par _ _ Sa). intros H. destruct (E H) as (i & E1 & E2). exists i. split; [exact E1|]. eapply same_nth; eassumption. Qed.
Definition y s := r_parallel s && r_sync s.
Lemma y_same s t : same s t -> y t = y s. Proof. intros S. unfold y. rewrite (s_par _ _ S), (s_sync _ _ S). reflexivity. Qed.
Lemma start_ok s hs e n g sync : inv s hs -> live s e n g sync false ->
  exists t e', start s e = Some (t, e') /\ inv t (hs ++ (if shown (r_mode s) g then opening (y s) n sync else [])) /\ same s t /\ live t e' n g sync true.
Proof.
  intros I L. pose proof L as [L1 L2 L3 L4 L5]. unfold start. rewrite L3. cbv zeta. cbn [e_group e_sid e_id e_sync]. rewrite L2, L4, shown_accepting. destruct (shown (r_mode s) g); cbn [negb].
  2:{ exists s. eexists. split; [reflexivity|]. rewrite app_nil_r. split; [exact I|]. split; [apply same_refl|]. constructor; try assumption; reflexivity. }
  assert (Le : forall t, same s t -> live t (Event (e_id e) (e_sid e) true g sync) n g sync true).
  { intros t Sa. eapply live_same; [exact Sa|]. constructor; try assumption; reflexivity. }
  destruct (sync && r_parallel s && r_sync s) eqn:Sy.
  - apply andb_true_iff in Sy. destruct Sy as [Sy Sy3]. destruct (L5 Sy) as (i & Ei & Hi). rewrite Ei. cbn [bind]. apply andb_true_iff in Sy. destruct Sy as [-> Sy2].
    unfold opening, y. rewrite Sy2, Sy3. cbn [andb app].
    pose proof (before_tick s hs I) as B1. assert (NO : isOff (r_mode s) = false) by (destruct I as [A _ _ _ _ _]; destruct (r_mode s); try reflexivity; contradiction).
    rewrite (critical_eq (tick s)) by exact NO. cbn [bind].
    destruct (critical_ok (tick s) hs (r_clock s) (Begins i (r_clock s)) (Opens (n ++ ".sync")%string) B1 Hi ltac:(cbn; lia)) as (I1 & S1 & B2).
    set (s1 := setNames (tick s) _ _) in *. cbv zeta. rewrite (critical_eq (tick s1)) by exact NO. cbn [bind].
    pose proof (before_tick s1 _ I1) as B3.
    destruct (critical_ok (tick s1) _ (r_clock s1) (Ends i (r_clock s1)) (Closes (n ++ ".sync")%string) B3 Hi ltac:(cbn; lia)) as (I2 & S2 & B4). set (s2 := setNames (tick s1) _ _) in *.
    destruct (put_ok s2 _ _ (Begins (e_id e) (r_clock s1)) (Opens n) B4 L1 ltac:(cbn; lia)) as (t & P & I3 & S3 & _). rewrite P. cbn [bind]. exists t. eexists. split; [reflexivity|].
    assert (St : same s t). { eapply same_trans; [apply (inv_tick s hs I)|]. eapply same_trans; [exact S1|]. eapply same_trans; [apply (inv_tick s1 _ I1)|]. eapply same_trans; [exact S2|exact S3]. }
    split; [rewrite <- !app_assoc in I3; exact I3|]. split; [exact St|]. rewrite <- Ei. apply Le, St.
  - assert (Op : opening (y s) n sync = [Opens n]). { unfold opening, y. destruct sync, (r_parallel s), (r_sync s); try discriminate Sy; reflexivity. }
    rewrite Op. pose proof (before_tick s hs I) as B1. destruct (put_ok (tick s) hs _ (Begins (e_id e) (r_clock s)) (Opens n) B1 L1 ltac:(cbn; lia)) as (t & P & I3 & S3 & _). rewrite P. cbn [bind].
    exists t. eexists. split; [reflexivity|]. assert (St : same s t) by (eapply same_trans; [apply (inv_tick s hs I)|exact S3]). split; [exact I3|]. split; [exact St|apply Le, St].
Qed.
Lemma newEvent_ok s hs n g sync : inv s hs -> hasSlash n = false ->
  exists t e, newEvent s n g sync = Some (t, e) /\ inv t (hs ++ (if shown (r_mode s) g then opening (y s) n sync else [])) /\ same s t /\ live t e n g sync true.
Proof.
  intros I Sl. unfold newEvent. rewrite Sl. pose proof (inv_name s hs n I) as H. destruct (nameToID s n) as [s1 id]. destruct H as (I1 & S1 & N1 & _).
  destruct (sync && r_parallel s1) eqn:Sy.
  - pose proof (inv_name s1 hs (n ++ ".sync")%string I1) as H. destruct (nameToID s1 _) as [s2 sid]. destruct H as (I2 & S2 & N2 & _). pose proof (same_trans _ _ _ S1 S2) as S12.
    destruct (start_ok s2 hs (Event id (Some sid) false g sync) n g sync I2) as (t & e & E & I3 & S3 & L).
    { constructor; try reflexivity; [exact (same_nth _ _ _ _ S2 N1)|]. intros _. exists sid. split; [reflexivity|exact N2]. }
    exists t, e. split; [exact E|]. rewrite (s_mode _ _ S12), (y_same _ _ S12) in I3. split; [exact I3|]. split; [eapply same_trans; eassumption|exact L].
  - destruct (start_ok s1 hs (Event id None false g sync) n g sync I1) as (t & e & E & I3 & S3 & L).
    { constructor; try reflexivity; [exact N1|]. cbn. congruence. }
    exists t, e. split; [exact E|]. rewrite (s_mode _ _ S1), (y_same _ _ S1) in I3. split; [exact I3|]. split; [eapply same_trans; eassumption|exact L].
Qed.
Lemma stop_ok s hs e n g sync : inv s hs -> live s e n g sync true ->
  exists t e', stop s e = Some (t, e') /\ inv t (hs ++ (if shown (r_mode s) g then [Closes n] else [])) /\ same s t /\ live t e' n g sync false /\ (shown (r_mode s) g = true -> r_max s = 0 \/ length (r_queue t) <= r_max s).
Proof.
  intros I L. pose proof L as [L1 L2 L3 L4 L5]. unfold stop. cbv zeta. rewrite L3. cbn [negb e_group e_id e_sid e_sync]. rewrite L2, L4, shown_accepting. change (r_mode (tick s)) with (r_mode s). destruct (inv_tick s hs I) as [I1 S1].
  destruct (shown (r_mode s) g).
  - destruct (put_ok (tick s) hs _ (Ends (e_id e) (r_clock s)) (Closes n) (before_tick s hs I) L1 ltac:(cbn; lia)) as (t & P & I3 & S3 & _ & Q). rewrite P. cbn [bind]. exists t. eexists. split; [reflexivity|].
    assert (St : same s t) by (eapply same_trans; eassumption). split; [exact I3|]. split; [exact St|]. split; [|intros _; exact (Q eq_refl)]. eapply live_same; [exact St|]. constructor; try assumption; reflexivity.
  - exists (tick s). eexists. split; [reflexivity|]. rewrite app_nil_r. split; [exact I1|]. split; [exact S1|]. split; [|discriminate]. eapply live_same; [exact S1|]. constructor; try assumption; reflexivity.
Qed.
Lemma destroy_ok s hs e n g sync : inv s hs -> live s e n g sync true ->
  exists t, destroy s e = Some t /\ inv t (hs ++ (if shown (r_mode s) g then [Closes n] else [])) /\ same s t /\ (shown (r_mode s) g = true -> r_max s = 0 \/ length (r_queue t) <= r_max s).
Proof. intros I L. unfold destroy. rewrite (l_run _ _ _ _ _ _ L). destruct (stop_ok _ _ _ _ _ _ I L) as (t & e' & -> & A & B & _ & C). exists t. auto. Qed.
Lemma addData_ok s hs e n g sync k v : inv s hs -> live s e n g sync true ->
  exists t, addData s e k v = Some t /\ inv t (hs ++ (if shown (r_mode s) g then [Notes n k v] else [])) /\ same s t.
Proof.
  intros I L. pose proof L as [L1 L2 L3 L4 L5]. unfold addData. cbv zeta. rewrite L3. cbn [negb]. rewrite L2, shown_accepting. change (r_mode (tick s)) with (r_mode s). destruct (inv_tick s hs I) as [I1 S1]. destruct (shown (r_mode s) g).
  - pose proof (inv_name _ hs k I1) as H. pose proof (before_name _ _ _ k (before_tick s hs I)) as B. destruct (nameToID (tick s) k) as [s2 did]. destruct H as (I2 & S2 & N2 & C). pose proof (same_trans _ _ _ S1 S2) as S12.
    destruct (put_ok s2 hs _ (Datum (e_id e) (r_clock s) did v) (Notes n k v) B) as (t & P & I3 & S3 & _).
    { cbn. split; [exact (same_nth _ _ _ _ S12 L1)|]. split; [exact N2|reflexivity]. }
    { cbn [timeOf]. rewrite C. cbn. lia. }
    exists t. split; [exact P|]. split; [exact I3|]. eapply same_trans; eassumption.
  - exists (tick s). split; [reflexivity|]. rewrite app_nil_r. auto.
Qed.
Lemma perform_ok w : forall s hs e n g sync, plain w -> inv s hs -> live s e n g sync true ->
  exists t, perform s e w = Some t /\ inv t (hs ++ happens (r_mode s) (y s) n g w) /\ same s t.
Proof.
  induction w as [|k v w IH|n' g' sync' i IHi w IH]; intros s hs e n g sync P I L; cbn [perform happens].
  - exists s. split; [reflexivity|]. rewrite app_nil_r. split; [exact I|apply same_refl].
  - destruct (addData_ok s hs e n g sync k v I L) as (s1 & -> & I1 & S1). cbn [bind]. destruct (IH s1 _ e n g sync P I1 (live_same _ _ _ _ _ _ _ S1 L)) as (t & E & I2 & S2). exists t. split; [exact E|].
    rewrite (s_mode _ _ S1), (y_same _ _ S1), <- app_assoc in I2. split; [exact I2|]. eapply same_trans; eassumption.
  - destruct P as (P1 & P2 & P3). destruct (newEvent_ok s hs n' g' sync' I P1) as (s1 & e1 & -> & I1 & S1 & L1). cbn [bind].
    destruct (IHi s1 _ e1 n' g' sync' P2 I1 L1) as (s2 & -> & I2 & S2). cbn [bind].
    destruct (destroy_ok s2 _ e1 n' g' sync' I2 (live_same _ _ _ _ _ _ _ S2 L1)) as (s3 & -> & I3 & S3 & _). cbn [bind].
    pose proof (same_trans _ _ _ S1 S2) as S12. pose proof (same_trans _ _ _ S12 S3) as S13.
    destruct (IH s3 _ e n g sync P3 I3 (live_same _ _ _ _ _ _ _ S13 L)) as (t & E & I4 & S4). exists t. split; [exact E|].
    rewrite (s_mode _ _ S13), (y_same _ _ S13), (s_mode _ _ S12), (s_mode _ _ S1), (y_same _ _ S1), <- !app_assoc in I4. split; [exact I4|]. eapply same_trans; eassumption.
Qed.
Lemma during_ok s hs n g sync w : hasSlash n = false -> plain w -> inv s hs ->
  exists t, during s n g sync w = Some t /\ inv t (hs ++ section (r_mode s) (y s) n g sync w) /\ same s t /\ (shown (r_mode s) g = true -> r_max s = 0 \/ length (r_queue t) <= r_max s).
Proof.
  intros Sl P I. unfold during. destruct (newEvent_ok s hs n g sync I Sl) as (s1 & e1 & -> & I1 & S1 & L1). cbn [bind].
  destruct (perform_ok w s1 _ e1 n g sync P I1 L1) as (s2 & -> & I2 & S2). cbn [bind]. pose proof (same_trans _ _ _ S1 S2) as S12.
  destruct (stop_ok s2 _ e1 n g sync I2 (live_same _ _ _ _ _ _ _ S2 L1)) as (s3 & e3 & -> & I3 & S3 & L3 & Q). cbn [bind]. unfold destroy. rewrite (l_run _ _ _ _ _ _ L3). exists s3. split; [reflexivity|].
  rewrite (s_mode _ _ S12), (s_mode _ _ S1), (y_same _ _ S1), <- !app_assoc in I3. split; [|split; [eapply same_trans; eassumption|rewrite (s_mode _ _ S12), (s_max _ _ S12) in Q; exact Q]].
  unfold section. cbn [happens]. rewrite app_nil_r. exact I3.
Qed.

(** ** The participant *)
Definition modeOf (c : profilingTag) : mode := match c with Some (m, _, _) => m | None => Fundamental end.
Definition maxOf (c : profilingTag) : nat := match c with Some (_, x, _) => x | None => 50 end.
Definition syncOf (c : profilingTag) : bool := match c with Some (_, _, b) => b | None => false end.
Record together (s : registry) (p : participant) (st : status) : Prop := Together {
  t_phase : p_phase p = if started st then Initialized else Constructed;
  t_user : Forall2 (fun e n => live s e n GFundamental false true) (p_user p) (sections st);
  t_init : if started st then p_init p = None else exists e, p_init p = Some e /\ live s e "solver.initialize" GFundamental true true;
  t_advance : if started st then exists e, p_advance p = Some e /\ live s e "solver.advance" GFundamental true true else p_advance p = None }.
Lemma users_same s t l n : same s t -> Forall2 (fun e n => live s e n GFundamental false true) l n -> Forall2 (fun e n => live t e n GFundamental false true) l n.
Proof. intros S H. induction H; constructor; [eapply live_same; eassumption|assumption]. Qed.
Lemma together_same s t p st : same s t -> together s p st -> together t p st.
Proof.
  intros S [A B C D]. constructor; [exact A|eapply users_same; eassumption| |].
  - destruct (started st); [exact C|]. destruct C as (e & C1 & C2). exists e. split; [exact C1|]. eapply live_same; eassumption.
  - destruct (started st); [|exact D]. destruct D as (e & C1 & C2). exists e. split; [exact C1|]. eapply live_same; eassumption.
Qed.
Lemma shown_fund s hs : inv s hs -> shown (r_mode s) GFundamental = true.
Proof. intros [A _ _ _ _ _]. destruct (r_mode s); try reflexivity. contradiction. Qed.
Lemma call_ok s hs p st c : inv s hs -> together s p st -> plainCall c ->
  match during1 (r_mode s) (y s) st c with
  | Some (st', h) => exists t p', doCall s p c = Some (t, p') /\ inv t (hs ++ h) /\ same s t /\ together t p' st'
  | None => doCall s p c = None
  end.
Proof.
  intros I T P. pose proof T as [T1 T2 T3 T4]. pose proof (shown_fund s hs I) as Sf. destruct c as [n| |n w|w|w]; cbn [during1 doCall].
  - destruct (hasSlash n) eqn:Sl; [unfold newEvent; rewrite Sl; reflexivity|]. destruct (newEvent_ok s hs n GFundamental false I Sl) as (t & e & -> & I1 & S1 & L1). cbn [bind]. rewrite Sf in I1. unfold opening in I1. rewrite andb_false_r in I1. cbn [app] in I1.
    eexists. eexists. split; [reflexivity|]. split; [exact I1|]. split; [exact S1|]. destruct (together_same _ _ _ _ S1 T) as [U1 U2 U3 U4]. constructor; try assumption. cbn [p_user sections]. constructor; assumption.
  - inversion T2 as [E1 E2|e n u r L R E1 E2]; [reflexivity|]. destruct (destroy_ok s hs e n _ _ I L) as (t & -> & I1 & S1 & _). cbn [bind]. rewrite Sf in I1. eexists. eexists. split; [reflexivity|]. split; [exact I1|]. split; [exact S1|].
    destruct (together_same _ _ _ _ S1 T) as [U1 U2 U3 U4]. constructor; try assumption. cbn [p_user sections]. eapply users_same; eassumption.
  - destruct P as [P1 P2]. destruct (during_ok s hs n GAPI false w P1 P2 I) as (t & -> & I1 & S1 & _). cbn [bind]. exists t, p. split; [reflexivity|]. split; [exact I1|]. split; [exact S1|]. eapply together_same; eassumption.
  - rewrite T1. destruct (started st) eqn:St; [reflexivity|]. inversion T2 as [E1 E2|e n u r L R E1 E2]; [|reflexivity]. destruct T3 as (e & -> & L). cbn [destroyOption].
    destruct (destroy_ok s hs e _ _ _ I L) as (s1 & -> & I1 & S1 & _). cbn [bind]. rewrite Sf in I1. destruct (during_ok s1 _ "initialize" GFundamental true w eq_refl P I1) as (s2 & -> & I2 & S2 & _). cbn [bind]. pose proof (same_trans _ _ _ S1 S2) as S12.
    destruct (newEvent_ok s2 _ "solver.advance" GFundamental true I2 eq_refl) as (t & a & -> & I3 & S3 & L3). cbn [bind]. eexists. eexists. split; [reflexivity|].
    rewrite (s_mode _ _ S12), Sf, (y_same _ _ S12), (s_mode _ _ S1), (y_same _ _ S1), <- !app_assoc in I3. split; [exact I3|]. split; [eapply same_trans; eassumption|]. constructor; cbn [p_phase p_user p_init p_advance started sections]; try reflexivity; [constructor|]. exists a. auto.
  - rewrite T1. destruct (started st) eqn:St; [|reflexivity]. inversion T2 as [E1 E2|e n u r L R E1 E2]; [|reflexivity]. destruct T4 as (a & -> & L).
    destruct (stop_ok s hs a _ _ _ I L) as (s1 & a1 & -> & I1 & S1 & L1 & _). cbn [bind]. rewrite Sf in I1. destruct (during_ok s1 _ "advance" GFundamental true w eq_refl P I1) as (s2 & -> & I2 & S2 & _). cbn [bind]. pose proof (same_trans _ _ _ S1 S2) as S12.
    destruct (start_ok s2 _ a1 _ _ _ I2 (live_same _ _ _ _ _ _ _ S2 L1)) as (t & a2 & -> & I3 & S3 & L3). cbn [bind]. eexists. eexists. split; [reflexivity|].
    rewrite (s_mode _ _ S12), Sf, (y_same _ _ S12), (s_mode _ _ S1), (y_same _ _ S1), <- !app_assoc in I3. split; [exact I3|]. split; [eapply same_trans; eassumption|]. constructor; cbn [p_phase p_user p_init p_advance]; rewrite ?St; try reflexivity; [rewrite <- E2; constructor|exact T3|]. exists a2. auto.
Qed.
Lemma calls_ok cs : forall s hs p st, inv s hs -> together s p st -> Forall plainCall cs ->
  match duringAll (r_mode s) (y s) st cs with
  | Some (st', h) => exists t p', doCalls s p cs = Some (t, p') /\ inv t (hs ++ h) /\ same s t /\ together t p' st'
  | None => doCalls s p cs = None
  end.
Proof.
  induction cs as [|c cs IH]; intros s hs p st I T P; cbn [duringAll doCalls].
  - exists s, p. split; [reflexivity|]. rewrite app_nil_r. split; [exact I|]. split; [apply same_refl|exact T].
  - inversion P as [|? ? P1 P2]; subst. pose proof (call_ok s hs p st c I T P1) as H. destruct (during1 _ _ st c) as [[st1 h1]|]; [|rewrite H; reflexivity]. destruct H as (s1 & p1 & -> & I1 & S1 & T1). cbn [bind].
    specialize (IH s1 _ p1 st1 I1 T1 P2). rewrite (s_mode _ _ S1), (y_same _ _ S1) in IH. destruct (duringAll _ _ st1 cs) as [[st2 h2]|]; [|exact IH]. destruct IH as (t & p' & E & I2 & S2 & T2). exists t, p'. split; [exact E|]. rewrite <- app_assoc in I2. split; [exact I2|]. split; [eapply same_trans; eassumption|exact T2].
Qed.
Lemma destroyAll_ok l : forall s hs ns, inv s hs -> Forall2 (fun e n => live s e n GFundamental false true) l ns -> exists t, destroyAll s l = Some t /\ inv t (hs ++ map Closes ns) /\ same s t.
Proof.
  induction l as [|e l IH]; intros s hs ns I F; inversion F as [E1 E2|? n ? r L R E1 E2]; subst; cbn [destroyAll map].
  - exists s. rewrite app_nil_r. split; [reflexivity|]. split; [exact I|apply same_refl].
  - destruct (destroy_ok s hs e n _ _ I L) as (s1 & -> & I1 & S1 & _). cbn [bind]. rewrite (shown_fund s hs I) in I1. destruct (IH s1 _ r I1 (users_same _ _ _ _ S1 R)) as (t & E & I2 & S2). exists t. split; [exact E|]. rewrite <- app_assoc in I2. split; [exact I2|]. eapply same_trans; eassumption.
Qed.
Lemma finalize_ok s hs p st w : inv s hs -> together s p st -> plain w ->
  exists t p' f, finalize s p w = Some (t, p') /\ r_files t = f :: tl (r_files s) /\ reads f = Some (hs ++ atEnd (r_mode s) (y s) st w) /\ ascends 0 (ticks f) (r_clock t) /\
    r_running t = false /\ r_stream t = Closed /\ r_finalized t = true /\ p_phase p' = Finalized /\ p_user p' = [].
Proof.
  intros I T P. pose proof T as [T1 T2 T3 T4]. pose proof (shown_fund s hs I) as Sf. unfold finalize. rewrite T1. assert (Ph : forall A (x z : A), match (if started st then Initialized else Constructed) with Finalized => x | _ => z end = z) by (destruct (started st); reflexivity). rewrite Ph.
  destruct (destroyAll_ok _ s hs _ I T2) as (s1 & -> & I1 & S1). cbn [bind].
  assert (A : exists s2, destroyOption s1 (p_advance p) = Some s2 /\ inv s2 (hs ++ map Closes (sections st) ++ (if started st then [Closes "solver.advance"] else [])) /\ same s s2).
  { destruct (started st).
    - destruct T4 as (a & -> & L). cbn [destroyOption]. destruct (destroy_ok s1 _ a _ _ _ I1 (live_same _ _ _ _ _ _ _ S1 L)) as (s2 & -> & I2 & S2 & _). exists s2. split; [reflexivity|]. rewrite (s_mode _ _ S1), Sf, <- app_assoc in I2. split; [exact I2|eapply same_trans; eassumption].
    - rewrite T4. exists s1. split; [reflexivity|]. rewrite app_nil_r. auto. }
  destruct A as (s2 & -> & I2 & S2). cbn [bind]. destruct (during_ok s2 _ "finalize" GFundamental false w eq_refl P I2) as (s3 & -> & I3 & S3 & _). cbn [bind]. pose proof (same_trans _ _ _ S2 S3) as S23.
  unfold finalizeRegistry. pose proof I3 as [M3 R3 _ [N1 N2] G3 _]. rewrite N1, N2. cbn [orb negb]. unfold stopBackend. assert (NO : isOff (r_mode s3) = false) by (destruct (r_mode s3); try reflexivity; contradiction). rewrite NO, R3. cbn [orb negb].
  destruct (put_ok (tick s3) _ _ (Ends (r_global s3) (r_clock s3)) (Closes "_GLOBAL") (before_tick s3 _ I3) G3 ltac:(cbn; lia)) as (s4 & -> & I4 & S4 & _). cbn [bind].
  destruct (inv_flush s4 _ I4) as (s5 & -> & I5 & S5 & Q & _). cbn [bind]. destruct I5 as [_ _ _ _ _ (f & o & E & E1 & E2)]. rewrite Q, app_nil_r in E1, E2.
  eexists. eexists. exists f. split; [reflexivity|]. cbn [setPhase setNames setOutput r_files r_running r_stream r_finalized r_clock p_phase p_user].
  assert (S05 : same s s5). { eapply same_trans; [exact S23|]. eapply same_trans; [apply (inv_tick s3 _ I3)|]. eapply same_trans; [exact S4|exact S5]. }
  split; [rewrite E; f_equal; pose proof (s_old _ _ S05) as O; rewrite E in O; exact O|]. split; [|split; [exact E2|auto]].
  unfold reads. rewrite E1. cbn [option_map snd]. f_equal. unfold atEnd. rewrite (s_mode _ _ S2), (y_same _ _ S2). rewrite <- !app_assoc. reflexivity.
Qed.

(** ** Construction *)
Definition early (mpi : bool) : nat := if mpi then 10 else 7.
Lemma begin_ok s mpi parallel c : r_running s = false -> modeOf c <> Off -> maxOf c = 0 \/ early mpi <= maxOf c ->
  exists t e, constructBegin s mpi parallel c = Some (t, e) /\
    inv t ([Opens "_GLOBAL"; Opens "construction"] ++ (if mpi then [Opens "com.initializeMPI"; Closes "com.initializeMPI"] else []) ++ [Opens "configure"; Closes "configure"] ++ section (modeOf c) (parallel && syncOf c) "startProfilingBackend" GDefault false Finish) /\
    live t e "construction" GFundamental false true /\ r_mode t = modeOf c /\ y t = parallel && syncOf c /\ tl (r_files t) = r_files s /\ r_max t = maxOf c.
Proof.
  intros R M X. destruct s as [md mx pl sy gl ii fi ru st fs dc qu ck]. cbn [r_running] in R. subst ru.
  assert (G : exists k, maxOf c = 0 \/ maxOf c = early mpi + k) by (destruct X as [X|X]; [exists 0; left; exact X|exists (maxOf c - early mpi); right; lia]). clear X. destruct G as [k X].
  destruct c as [[[m max] sync]|]; cbn [modeOf maxOf syncOf] in *.
  - destruct X as [X|X]; [|destruct k as [|[|[|k]]]]; subst max; destruct m; try contradiction; destruct mpi, parallel, sync;
    (eexists; eexists; split; [cbv; reflexivity|]; split; [constructor; cbn [r_mode r_running r_stream r_initialized r_finalized]; [congruence|reflexivity|reflexivity|split; reflexivity|reflexivity|];
      eexists; eexists; split; [reflexivity|]; split; [cbv; reflexivity|cbn; lia]|]; split; [constructor; [reflexivity|reflexivity|reflexivity|reflexivity|discriminate]|]; repeat split).
  - destruct mpi, parallel;
    (eexists; eexists; split; [cbv; reflexivity|]; split; [constructor; cbn [r_mode r_running r_stream r_initialized r_finalized]; [congruence|reflexivity|reflexivity|split; reflexivity|reflexivity|];
      eexists; eexists; split; [reflexivity|]; split; [cbv; reflexivity|cbn; lia]|]; split; [constructor; [reflexivity|reflexivity|reflexivity|reflexivity|discriminate]|]; repeat split).
Qed.
Lemma construct_ok s mpi parallel c w : r_running s = false -> modeOf c <> Off -> maxOf c = 0 \/ early mpi <= maxOf c -> plain w ->
  exists t p, construct s mpi parallel c w = Some (t, p) /\ inv t (atStart (modeOf c) (parallel && syncOf c) mpi w) /\ together t p (Status false []) /\ r_mode t = modeOf c /\ y t = parallel && syncOf c /\ tl (r_files t) = r_files s /\ r_max t = maxOf c.
Proof.
  intros R M X P. destruct (begin_ok s mpi parallel c R M X) as (s1 & e & E & I1 & L1 & M1 & Y1 & O1 & X1). unfold construct. rewrite E. cbn [bind].
  destruct (perform_ok w s1 _ e _ _ _ P I1 L1) as (s2 & -> & I2 & S2). cbn [bind]. destruct (stop_ok s2 _ e _ _ _ I2 (live_same _ _ _ _ _ _ _ S2 L1)) as (s3 & e3 & -> & I3 & S3 & _ & _). cbn [bind].
  destruct (newEvent_ok s3 _ "solver.initialize" GFundamental true I3 eq_refl) as (t & i & -> & I4 & S4 & L4). cbn [bind]. pose proof (shown_fund _ _ I1) as Sf. pose proof (same_trans _ _ _ S2 S3) as S23. pose proof (same_trans _ _ _ S23 S4) as S24.
  eexists. eexists. split; [reflexivity|]. rewrite (s_mode _ _ S23), (s_mode _ _ S2), Sf, (y_same _ _ S23), M1, Y1, <- !app_assoc in I4. split; [exact I4|].
  split; [constructor; cbn; auto; exists i; auto|]. rewrite (s_mode _ _ S24), (y_same _ _ S24), (s_old _ _ S24), (s_max _ _ S24). auto.
Qed.

(** ** Nesting *)
Lemma nests_app l1 : forall open l2, nests open (l1 ++ l2) = match nests open l1 with Some o => nests o l2 | None => None end.
Proof.
  induction l1 as [|h l1 IH]; intros open l2; cbn [app nests]; [reflexivity|]. destruct h as [n|n|n k v]; [apply IH| |].
  - destruct open as [|x o]; [reflexivity|]. destruct (String.eqb n x); [apply IH|reflexivity].
  - destruct (existsb _ open); [apply IH|reflexivity].
Qed.
Lemma nests_opening open b n sync : nests open (opening b n sync) = Some (n :: open).
Proof. unfold opening. destruct (b && sync); cbn [app nests]; [rewrite String.eqb_refl|]; reflexivity. Qed.
Lemma nests_happens m b w : forall n g open, (shown m g = true -> In n open) -> nests open (happens m b n g w) = Some open.
Proof.
  induction w as [|k v w IH|n' g' sync i IHi w IH]; intros n g open H; cbn [happens]; [reflexivity| |].
  - rewrite nests_app. destruct (shown m g) eqn:Sh; cbn [nests]; [|apply IH; congruence]. replace (existsb (String.eqb n) open) with true; [apply IH; auto|]. symmetry. apply existsb_exists. exists n. split; [auto|apply String.eqb_refl].
  - rewrite !nests_app. destruct (shown m g') eqn:Sh.
    + rewrite nests_opening, nests_app, IHi by (intros _; left; reflexivity). rewrite nests_app. cbn [nests]. rewrite String.eqb_refl. apply IH, H.
    + cbn [nests]. rewrite nests_app, IHi by congruence. cbn [app]. apply IH, H.
Qed.
Lemma nests_section m b n g sync w open : nests open (section m b n g sync w) = Some open.
Proof.
  unfold section. cbn [happens]. rewrite !nests_app. destruct (shown m g) eqn:Sh.
  - rewrite nests_opening, nests_app, nests_happens by (intros _; left; reflexivity). cbn [app nests]. rewrite String.eqb_refl. reflexivity.
  - cbn [nests]. rewrite nests_app, nests_happens by congruence. reflexivity.
Qed.
Definition stackOf (st : status) : list string := sections st ++ [if started st then "solver.advance" else "solver.initialize"; "_GLOBAL"].
Lemma nests_start m b mpi w : m <> Off -> nests [] (atStart m b mpi w) = Some (stackOf (Status false [])).
Proof.
  intros M. unfold atStart. rewrite nests_app. cbn [nests]. rewrite nests_app. assert (E : nests ["construction"; "_GLOBAL"] (if mpi then [Opens "com.initializeMPI"; Closes "com.initializeMPI"] else []) = Some ["construction"; "_GLOBAL"]) by (destruct mpi; reflexivity).
  rewrite E, nests_app. cbn [nests]. rewrite String.eqb_refl, nests_app, nests_section, nests_app, nests_happens by (intros _; left; reflexivity). rewrite nests_app. cbn [nests]. rewrite String.eqb_refl, nests_opening. reflexivity.
Qed.
Lemma nests_call m b st c st' h : during1 m b st c = Some (st', h) -> nests (stackOf st) h = Some (stackOf st').
Proof.
  destruct c as [n| |n w|w|w]; cbn [during1].
  - destruct (hasSlash n); [discriminate|]. intros [= <- <-]. reflexivity.
  - destruct (sections st) as [|n r] eqn:E; [discriminate|]. intros [= <- <-]. unfold stackOf. rewrite E. cbn [app nests sections started]. rewrite String.eqb_refl. reflexivity.
  - intros [= <- <-]. apply nests_section.
  - destruct (started st) eqn:S; [discriminate|]. destruct (sections st) eqn:E; [|discriminate]. intros [= <- <-]. unfold stackOf. rewrite S, E. cbn [app nests]. rewrite String.eqb_refl, nests_app, nests_section, nests_opening. reflexivity.
  - destruct (started st) eqn:S; [|discriminate]. destruct (sections st) eqn:E; [|discriminate]. intros [= <- <-]. unfold stackOf. rewrite S, E. cbn [app nests]. rewrite String.eqb_refl, nests_app, nests_section, nests_opening. reflexivity.
Qed.
Lemma nests_calls m b cs : forall st st' h, duringAll m b st cs = Some (st', h) -> nests (stackOf st) h = Some (stackOf st').
Proof.
  induction cs as [|c cs IH]; intros st st' h; cbn [duringAll]; [intros [= <- <-]; reflexivity|]. destruct (during1 m b st c) as [[st1 h1]|] eqn:E; [|discriminate]. destruct (duringAll m b st1 cs) as [[st2 h2]|] eqn:E2; [|discriminate]. intros [= <- <-].
  rewrite nests_app, (nests_call _ _ _ _ _ _ E). apply IH, E2.
Qed.
Lemma nests_end m b st w : nests (stackOf st) (atEnd m b st w) = if started st then Some [] else None.
Proof.
  unfold atEnd, stackOf. rewrite nests_app. assert (E : forall l o, nests (l ++ o) (map Closes l) = Some o) by (induction l as [|x l IH]; intros o; cbn [app map nests]; [reflexivity|rewrite String.eqb_refl; apply IH]).
  rewrite E, nests_app. destruct (started st); cbn [nests]; [rewrite String.eqb_refl|]; rewrite nests_app, nests_section; reflexivity.
Qed.

(** ** Profiling that is switched off, and files that are closed *)
(** nothing is written *)
Definition silent (s : registry) : Prop := r_mode s = Off \/ r_stream s <> Open.
Definition kept (s t : registry) : Prop := r_files t = r_files s /\ r_mode t = r_mode s /\ (r_stream s <> Open -> r_stream t <> Open).
Lemma kept_refl s : kept s s. Proof. split; [reflexivity|]. auto. Qed.
Lemma kept_trans s t u : kept s t -> kept t u -> kept s u. Proof. intros (A & B & C) (D & E & G). split; [congruence|]. split; [congruence|auto]. Qed.
Lemma kept_silent s t : kept s t -> silent s -> silent t. Proof. intros (_ & B & C) [S|S]; [left; congruence|right; auto]. Qed.
Lemma kept_tick s : kept s (tick s). Proof. split; [reflexivity|]. split; [reflexivity|auto]. Qed.
Lemma kept_name s n : let (t, i) := nameToID s n in kept s t.
Proof. unfold nameToID. destruct (index n (r_dict s)); [apply kept_refl|]. split; [reflexivity|]. split; [reflexivity|auto]. Qed.
Lemma kept_flush s t : silent s -> flush s = Some t -> kept s t.
Proof.
  intros [S|S]; unfold flush; [rewrite S; cbn [isOff orb]; intros [= <-]; apply kept_refl|]. destruct (_ || _); [intros [= <-]; apply kept_refl|].
  destruct (r_stream s) eqn:E; try discriminate; try contradiction; intros [= <-]; (split; [reflexivity|]); (split; [reflexivity|]); cbn; congruence.
Qed.
Lemma kept_put s e t : silent s -> put s e = Some t -> kept s t.
Proof.
  intros S. unfold put. destruct (isOff (r_mode s)); [discriminate|]. cbv zeta. set (s' := setNames s (r_dict s) (r_queue s ++ [e])). assert (K : kept s s') by (split; [reflexivity|]; split; [reflexivity|auto]).
  destruct (_ && _); [|intros [= <-]; exact K]. intros H. eapply kept_trans; [exact K|]. apply kept_flush; [eapply kept_silent; eassumption|exact H].
Qed.
Lemma kept_critical s e t : putCritical s e = Some t -> kept s t.
Proof. unfold putCritical. destruct (isOff (r_mode s)); [discriminate|]. intros [= <-]. split; [reflexivity|]. split; [reflexivity|auto]. Qed.
Lemma kept_start s e t e' : silent s -> start s e = Some (t, e') -> kept s t.
Proof.
  intros S. unfold start. destruct (e_running e); [discriminate|]. cbv zeta. destruct (negb _); [intros [= <- <-]; apply kept_refl|]. destruct (_ && _).
  - cbn [e_sid]. destruct (e_sid e) as [i|]; [|discriminate]. cbn [bind]. destruct (putCritical (tick s) _) as [s1|] eqn:E1; [|discriminate]. cbn [bind]. destruct (putCritical (tick s1) _) as [s2|] eqn:E2; [|discriminate]. cbn [bind]. destruct (put s2 _) as [s3|] eqn:E3; [|discriminate]. intros [= <- <-].
    assert (K : kept s s2). { eapply kept_trans; [apply kept_tick|]. eapply kept_trans; [eapply kept_critical, E1|]. eapply kept_trans; [apply kept_tick|]. eapply kept_critical, E2. }
    eapply kept_trans; [exact K|]. eapply kept_put; [eapply kept_silent; eassumption|exact E3].
  - destruct (put (tick s) _) as [s3|] eqn:E3; [|discriminate]. intros [= <- <-]. eapply kept_trans; [apply kept_tick|]. eapply kept_put; [eapply kept_silent; [apply kept_tick|exact S]|exact E3].
Qed.
Lemma kept_new s n g b t e : silent s -> newEvent s n g b = Some (t, e) -> kept s t.
Proof.
  intros S. unfold newEvent. destruct (hasSlash n); [discriminate|]. pose proof (kept_name s n) as K1. destruct (nameToID s n) as [s1 id]. destruct (b && r_parallel s1).
  - pose proof (kept_name s1 (n ++ ".sync")%string) as K2. destruct (nameToID s1 _) as [s2 sid]. intros H. pose proof (kept_trans _ _ _ K1 K2) as K. eapply kept_trans; [exact K|]. eapply kept_start; [eapply kept_silent; eassumption|exact H].
  - intros H. eapply kept_trans; [exact K1|]. eapply kept_start; [eapply kept_silent; eassumption|exact H].
Qed.
Lemma kept_stop s e t e' : silent s -> stop s e = Some (t, e') -> kept s t.
Proof.
  intros S. unfold stop. cbv zeta. destruct (negb _); [discriminate|]. destruct (accepting _ _); [|intros [= <- <-]; apply kept_tick]. destruct (put (tick s) _) as [s3|] eqn:E3; [|discriminate]. intros [= <- <-].
  eapply kept_trans; [apply kept_tick|]. eapply kept_put; [eapply kept_silent; [apply kept_tick|exact S]|exact E3].
Qed.
Lemma kept_destroy s e t : silent s -> destroy s e = Some t -> kept s t.
Proof. intros S. unfold destroy. destruct (e_running e); [|intros [= <-]; apply kept_refl]. destruct (stop s e) as [[u e']|] eqn:E; [|discriminate]. intros [= <-]. eapply kept_stop; eassumption. Qed.
Lemma kept_data s e k v t : silent s -> addData s e k v = Some t -> kept s t.
Proof.
  intros S. unfold addData. cbv zeta. destruct (negb _); [discriminate|]. destruct (accepting _ _); [|intros [= <-]; apply kept_tick]. pose proof (kept_name (tick s) k) as K. destruct (nameToID (tick s) k) as [s1 d]. intros H.
  pose proof (kept_trans _ _ _ (kept_tick s) K) as K1. eapply kept_trans; [exact K1|]. eapply kept_put; [eapply kept_silent; eassumption|exact H].
Qed.
Lemma kept_perform w : forall s e t, silent s -> perform s e w = Some t -> kept s t.
Proof.
  induction w as [|k v w IH|n g b i IHi w IH]; intros s e t S; cbn [perform].
  - intros [= <-]. apply kept_refl.
  - destruct (addData s e k v) as [s1|] eqn:E; [|discriminate]. cbn [bind]. intros H. pose proof (kept_data _ _ _ _ _ S E) as K. eapply kept_trans; [exact K|]. eapply IH; [eapply kept_silent; eassumption|exact H].
  - destruct (newEvent s n g b) as [[s1 e1]|] eqn:E; [|discriminate]. cbn [bind]. destruct (perform s1 e1 i) as [s2|] eqn:E2; [|discriminate]. cbn [bind]. destruct (destroy s2 e1) as [s3|] eqn:E3; [|discriminate]. cbn [bind]. intros H.
    pose proof (kept_new _ _ _ _ _ _ S E) as K1. pose proof (kept_silent _ _ K1 S) as S1. pose proof (IHi _ _ _ S1 E2) as K2. pose proof (kept_silent _ _ K2 S1) as S2. pose proof (kept_destroy _ _ _ S2 E3) as K3. pose proof (kept_silent _ _ K3 S2) as S3.
    eapply kept_trans; [exact K1|]. eapply kept_trans; [exact K2|]. eapply kept_trans; [exact K3|]. eapply IH; eassumption.
Qed.
Lemma kept_during s n g b w t : silent s -> during s n g b w = Some t -> kept s t.
Proof.
  intros S. unfold during. destruct (newEvent s n g b) as [[s1 e1]|] eqn:E; [|discriminate]. cbn [bind]. destruct (perform s1 e1 w) as [s2|] eqn:E2; [|discriminate]. cbn [bind]. destruct (stop s2 e1) as [[s3 e3]|] eqn:E3; [|discriminate]. cbn [bind]. intros H.
  pose proof (kept_new _ _ _ _ _ _ S E) as K1. pose proof (kept_silent _ _ K1 S) as S1. pose proof (kept_perform _ _ _ _ S1 E2) as K2. pose proof (kept_silent _ _ K2 S1) as S2. pose proof (kept_stop _ _ _ _ S2 E3) as K3. pose proof (kept_silent _ _ K3 S2) as S3.
  eapply kept_trans; [exact K1|]. eapply kept_trans; [exact K2|]. eapply kept_trans; [exact K3|]. eapply kept_destroy; eassumption.
Qed.
Lemma kept_option s e t : silent s -> destroyOption s e = Some t -> kept s t.
Proof. intros S. destruct e as [e|]; [apply kept_destroy, S|]. intros [= <-]. apply kept_refl. Qed.
Lemma kept_call s p c t p' : silent s -> doCall s p c = Some (t, p') -> kept s t.
Proof.
  intros S. destruct c as [n| |n w|w|w]; cbn [doCall].
  - destruct (newEvent s n _ _) as [[s1 e]|] eqn:E; [|discriminate]. intros [= <- <-]. eapply kept_new; eassumption.
  - destruct (p_user p) as [|e u]; [discriminate|]. destruct (destroy s e) as [s1|] eqn:E; [|discriminate]. intros [= <- <-]. eapply kept_destroy; eassumption.
  - destruct (during s n _ _ w) as [s1|] eqn:E; [|discriminate]. intros [= <- <-]. eapply kept_during; eassumption.
  - destruct (p_phase p); try discriminate. destruct (p_user p); [|discriminate]. destruct (destroyOption s (p_init p)) as [s1|] eqn:E1; [|discriminate]. cbn [bind]. destruct (during s1 _ _ _ w) as [s2|] eqn:E2; [|discriminate]. cbn [bind]. destruct (newEvent s2 _ _ _) as [[s3 a]|] eqn:E3; [|discriminate]. intros [= <- <-].
    pose proof (kept_option _ _ _ S E1) as K1. pose proof (kept_silent _ _ K1 S) as S1. pose proof (kept_during _ _ _ _ _ _ S1 E2) as K2. pose proof (kept_silent _ _ K2 S1) as S2. eapply kept_trans; [exact K1|]. eapply kept_trans; [exact K2|]. eapply kept_new; eassumption.
  - destruct (p_phase p); try discriminate. destruct (p_user p); [|discriminate]. destruct (p_advance p) as [a|]; [|discriminate]. destruct (stop s a) as [[s1 a1]|] eqn:E1; [|discriminate]. cbn [bind]. destruct (during s1 _ _ _ w) as [s2|] eqn:E2; [|discriminate]. cbn [bind]. destruct (start s2 a1) as [[s3 a3]|] eqn:E3; [|discriminate]. intros [= <- <-].
    pose proof (kept_stop _ _ _ _ S E1) as K1. pose proof (kept_silent _ _ K1 S) as S1. pose proof (kept_during _ _ _ _ _ _ S1 E2) as K2. pose proof (kept_silent _ _ K2 S1) as S2. eapply kept_trans; [exact K1|]. eapply kept_trans; [exact K2|]. eapply kept_start; eassumption.
Qed.
Lemma kept_calls cs : forall s p t p', silent s -> doCalls s p cs = Some (t, p') -> kept s t.
Proof.
  induction cs as [|c cs IH]; intros s p t p' S; cbn [doCalls]; [intros [= <- <-]; apply kept_refl|]. destruct (doCall s p c) as [[s1 p1]|] eqn:E; [|discriminate]. cbn [bind]. intros H. pose proof (kept_call _ _ _ _ _ S E) as K. eapply kept_trans; [exact K|]. eapply IH; [eapply kept_silent; eassumption|exact H].
Qed.
Lemma kept_all l : forall s t, silent s -> destroyAll s l = Some t -> kept s t.
Proof.
  induction l as [|e l IH]; intros s t S; cbn [destroyAll]; [intros [= <-]; apply kept_refl|]. destruct (destroy s e) as [s1|] eqn:E; [|discriminate]. cbn [bind]. intros H. pose proof (kept_destroy _ _ _ S E) as K. eapply kept_trans; [exact K|]. eapply IH; [eapply kept_silent; eassumption|exact H].
Qed.
Lemma off_finalize s p w t p' : r_mode s = Off -> finalize s p w = Some (t, p') -> r_files t = r_files s.
Proof.
  intros M. assert (S : silent s) by (left; exact M). unfold finalize. assert (Q : forall x : option (registry * participant), match p_phase p with Finalized => None | _ => x end = Some (t, p') -> x = Some (t, p')) by (destruct (p_phase p); [auto|auto|discriminate]). intros H. apply Q in H. clear Q.
  destruct (destroyAll s _) as [s1|] eqn:E1; [|discriminate]. cbn [bind] in H. destruct (destroyOption s1 _) as [s2|] eqn:E2; [|discriminate]. cbn [bind] in H. destruct (during s2 _ _ _ w) as [s3|] eqn:E3; [|discriminate]. cbn [bind] in H.
  pose proof (kept_all _ _ _ S E1) as K1. pose proof (kept_silent _ _ K1 S) as S1. pose proof (kept_option _ _ _ S1 E2) as K2. pose proof (kept_silent _ _ K2 S1) as S2. pose proof (kept_during _ _ _ _ _ _ S2 E3) as K3.
  pose proof (kept_trans _ _ _ (kept_trans _ _ _ K1 K2) K3) as (A & B & _). unfold finalizeRegistry, stopBackend in H. rewrite B, M in H. cbn [isOff orb] in H. destruct (_ || _); cbn [bind] in H; injection H as <- <-; exact A.
Qed.
Lemma off_begin s mpi parallel max sync t e : r_running s = false -> constructBegin s mpi parallel (Some (Off, max, sync)) = Some (t, e) -> r_files t = r_files s /\ r_mode t = Off.
Proof.
  intros R. destruct s as [md mx pl sy gl ii fi ru st fs dc qu ck]. cbn [r_running] in R. subst ru. destruct mpi; intros H; cbv in H; injection H as <- <-; split; reflexivity.
Qed.
