From Coq Require Import ZArith Bool List Lia Arith Sorted Permutation.
From Verif Require Import M_Net M_Time M_Wave M_Cpl M_Comp S_Prog S_Cpl S_Comp P_Prog P_Cpl P_CplRun P_Net P_Comp P_Comp2 M_Fleet S_Fleet P_Sched P_FleetPlan P_Fleet P_FleetRun.
Import ListNotations.
Open Scope Z_scope.

(** * Trees *)
Definition tt1 : timetable := Timetable (fun _ => 0) (fun _ => 1) (fun _ => -1) 2.
Definition touch (i : nat) (x : coupling) : bool := (cp_first x =? i)%nat || (cp_second x =? i)%nat.
Definition joins (i j : nat) (x : coupling) : bool := ((cp_first x =? i)%nat && (cp_second x =? j)%nat) || ((cp_first x =? j)%nat && (cp_second x =? i)%nat).
Definition pairOf (e : msgEv) (i j : nat) : bool := ((ev_src e =? i)%nat && (ev_dst e =? j)%nat) || ((ev_src e =? j)%nat && (ev_dst e =? i)%nat).

Lemma combine_filter {A} (f : A -> bool) : forall (l : list A) (k : list nat), length k = length l -> map snd (filter (fun p => f (snd p)) (combine k l)) = filter f l.
Proof.
  induction l as [|x l IH]; intros [|a k] H; try discriminate; [reflexivity|]. cbn. injection H as H. destruct (f x); cbn; rewrite IH by exact H; reflexivity.
Qed.
Lemma mine_snd cs i : map snd (mine cs i) = filter (touch i) cs.
Proof. unfold mine, touch. apply (combine_filter (fun x => (cp_first x =? i)%nat || (cp_second x =? i)%nat)). apply seq_length. Qed.
Lemma flat_snd {B} (f : nat * coupling -> list B) (h : coupling -> list B) cs i : (forall p, f p = h (snd p)) -> flat_map f (mine cs i) = flat_map h (filter (touch i) cs).
Proof. intros H. rewrite <- mine_snd. generalize (mine cs i). induction l as [|p l IH]; cbn; [reflexivity|]. rewrite H, IH. reflexivity. Qed.
Lemma filter_flat {A B} (f : A -> list B) (P : B -> bool) (Q : A -> bool) l : (forall x e, In x l -> In e (f x) -> P e = Q x) -> filter P (flat_map f l) = flat_map f (filter Q l).
Proof.
  induction l as [|x l IH]; intros H; cbn [flat_map filter]; [reflexivity|]. rewrite filter_app, IH by (intros; apply H; [right|]; assumption).
  assert (G : filter P (f x) = if Q x then f x else []).
  { assert (Hx : forall e, In e (f x) -> P e = Q x) by (intros; apply H; [left; reflexivity|assumption]). revert Hx. generalize (f x). induction l0 as [|e r IHr]; intros Hx; cbn [filter]; [destruct (Q x); reflexivity|].
    rewrite (Hx e (or_introl eq_refl)). rewrite IHr by (intros; apply Hx; right; assumption). destruct (Q x); reflexivity. }
  rewrite G. destruct (Q x); reflexivity.
Qed.
Lemma filter_comm {A} (f h : A -> bool) l : filter f (filter h l) = filter h (filter f l).
Proof. induction l as [|x l IH]; cbn; [reflexivity|]. destruct (h x) eqn:Hx; cbn; destruct (f x) eqn:Fx; cbn; rewrite ?Hx, IH; reflexivity. Qed.
Lemma between_pair x e i j : cp_first x <> cp_second x -> between x e -> pairOf e i j = joins i j x.
Proof.
  unfold between, pairOf, joins. intros _ [[-> ->]|[-> ->]]; [reflexivity|]. rewrite orb_comm. f_equal; apply andb_comm.
Qed.
(** the messages between two participants are those of their couplings *)
Lemma pair_plan cs i j N : (forall x, In x cs -> cp_first x <> cp_second x) ->
  pair ev_src ev_dst i j (plan tt1 cs i N) = plan tt1 (filter (joins i j) cs) i N.
Proof.
  intros Hne.
  assert (G : forall f : nat * coupling -> list msgEv, (forall p, f p = f (0%nat, snd p)) -> (forall p e, In e (f p) -> between (snd p) e) ->
     filter (fun e => pairOf e i j) (flat_map f (mine cs i)) = flat_map f (mine (filter (joins i j) cs) i)).
  { intros f H1 H2. rewrite !(flat_snd f (fun x => f (0%nat, x))) by exact H1. rewrite filter_comm. apply filter_flat. intros x e Hx He. apply filter_In in Hx. apply between_pair; [apply Hne, Hx|]. exact (H2 (0%nat, x) e He). }
  assert (B1 : forall b p e, In e (earlyBlock tt1 i b p) -> between (snd p) e). { intros b p e H. apply (block_between tt1). right. exists b. unfold earlyBlock in H. destruct (waits i (snd p)); auto. }
  assert (B2 : forall b m p e, In e (lateBlock tt1 i b m p) -> between (snd p) e). { intros b m p e H. apply (block_between tt1). right. unfold lateBlock in H. destruct (waits i (snd p)); [destruct m; [exists (b + 1)|destruct H]|exists b]; auto. }
  assert (B3 : forall p e, In e (startBlock tt1 i p) -> between (snd p) e). { intros p e H. apply (block_between tt1). unfold startBlock in H. apply in_app_iff in H as [H|H]; [left; exact H|]. right. exists 0. destruct (waits i (snd p)); [auto|destruct H]. }
  unfold plan. change (pair ev_src ev_dst i j) with (filter (fun e => pairOf e i j)). rewrite filter_app. f_equal.
  - apply G; [reflexivity|exact B3].
  - assert (W : forall m b, filter (fun e => pairOf e i j) (windows tt1 cs i m b) = windows tt1 (filter (joins i j) cs) i m b).
    { induction m as [|m IH]; intros b; cbn [windows]; [reflexivity|]. rewrite !filter_app, IH. f_equal; [|f_equal]; (apply G; [reflexivity|]); intros p e H; [exact (B1 _ p e H)|exact (B2 _ _ p e H)]. }
    apply W.
Qed.
Lemma tree_one cs i j : tree cs -> i <> j -> (length (filter (joins i j) cs) <= 1)%nat.
Proof.
  intros T N. induction T as [|x cs T IH Ne New]; cbn [filter]; [cbn; lia|]. destruct (joins i j x) eqn:J; [|exact IH]. cbn [length].
  assert (filter (joins i j) cs = []) as ->; [|cbn; lia].
  assert (Hf : forall y, In y cs -> joins i j y = false).
  { intros y Hy. apply not_true_is_false. intros Jy. unfold joins in *. rewrite !orb_true_iff, !andb_true_iff, !Nat.eqb_eq in *. destruct New as [New|New]; destruct (New y Hy); intuition congruence. }
  clear -Hf. induction cs as [|y cs IH]; cbn; [reflexivity|]. rewrite (Hf y (or_introl eq_refl)). apply IH. intros; apply Hf; right; assumption.
Qed.
Lemma one_sorted cs i N : (length cs <= 1)%nat -> StronglySorted before (plan tt1 cs i N).
Proof.
  intros H. assert (L : length (mine cs i) = 0%nat \/ length (mine cs i) = 1%nat).
  { rewrite <- (map_length snd), mine_snd. assert (length (filter (touch i) cs) <= length cs)%nat by (clear; induction cs as [|x cs IH]; cbn; [lia|]; destruct (touch i x); cbn; lia). lia. }
  assert (K : let l := mine cs i in StronglySorted Z.lt (map (early tt1 i) l ++ map (late tt1 i) l) /\ (forall p q, In p l -> In q l -> late tt1 i p < early tt1 i q + tt_period tt1) /\
    StronglySorted Z.lt (flat_map (at_start tt1 i) l) /\ (forall t q, In t (flat_map (at_start tt1 i) l) -> In q l -> t < early tt1 i q)).
  { cbn zeta. destruct (mine cs i) as [|p [|q l]]; cbn [length] in L; try lia; cbn [map app flat_map].
    - repeat split; try constructor; intros ? ? [].
    - split; [|split; [|split]].
      + repeat constructor. unfold early, late. destruct (waits i (snd p)); cbn; lia.
      + intros p0 q [<-|[]] [<-|[]]. unfold early, late. destruct (waits i (snd p)); cbn; lia.
      + unfold at_start. destruct (initialized (snd p)), (waits i (snd p)); cbn; repeat constructor.
      + intros t q Ht [<-|[]]. unfold at_start, early in *. destruct (initialized (snd p)), (waits i (snd p)); cbn in *; intuition lia. }
  destruct K as (K1 & K2 & K3 & K4). apply plan_sorted; assumption.
Qed.
Definition edges (cs : list coupling) : list (nat * nat) := map (fun x => (cp_first x, cp_second x)) cs.
Lemma tree_forest cs : tree cs -> forest (edges cs).
Proof.
  induction 1 as [|x cs T IH Ne New]; cbn [edges map]; constructor; auto.
  destruct New as [New|New]; [right|left]; intros a b H; apply in_map_iff in H as (y & E & Hy); injection E as <- <-; apply New, Hy.
Qed.
Lemma msgEv_dec (x y : msgEv) : {x = y} + {x <> y}.
Proof. decide equality; first [apply Z.eq_dec|apply Nat.eq_dec]. Qed.

(** * Levels *)
Section Levels.
Variables (lv : nat -> Z) (cs : list coupling).
Hypothesis HL : levelled lv cs.
Hypothesis HI : initial_first cs.
Let C := Z.of_nat (length cs).
Definition lowest : Z := fold_right (fun x m => Z.min (lv (cp_first x)) m) 0 cs.
Lemma lowest_le x : In x cs -> lowest <= lv (cp_first x).
Proof. unfold lowest. clear. induction cs as [|y l IH]; [intros []|]. cbn [fold_right]. intros [->|H]; [lia|]. specialize (IH H). lia. Qed.
Definition base (s : nat) : Z := match nth_error cs s with Some x => lv (cp_first x) * C + Z.of_nat s | None => 0 end.
Definition ttl : timetable := Timetable base (fun s => base s + C) (fun s => (lowest - 1) * C + Z.of_nat s) (2 * C).
Lemma number_nth {A} : forall (l : list A) k s x, In (s, x) (combine (seq k (length l)) l) -> (k <= s)%nat /\ nth_error l (s - k) = Some x.
Proof.
  induction l as [|y l IH]; intros k s x H; [destruct H|]. cbn [length seq combine] in H. destruct H as [H|H]; [injection H as -> ->; rewrite Nat.sub_diag; auto|].
  destruct (IH (S k) s x H) as (H1 & H2). split; [lia|]. replace (s - k)%nat with (S (s - S k)) by lia. exact H2.
Qed.
Lemma mine_nth i p : In p (mine cs i) -> nth_error cs (fst p) = Some (snd p) /\ Z.of_nat (fst p) < C /\ (cp_first (snd p) = i \/ cp_second (snd p) = i).
Proof.
  intros H. apply mine_in in H as (H & H2). destruct p as [s x]. destruct (number_nth cs 0 s x H) as (_ & H1). rewrite Nat.sub_0_r in H1. split; [exact H1|]. split; [|exact H2]. cbn [fst]. unfold C.
  assert (s < length cs)%nat by (apply nth_error_Some; congruence). lia.
Qed.
Lemma combine_sorted {A} : forall (l : list A) k, StronglySorted (fun p q : nat * A => (fst p < fst q)%nat) (combine (seq k (length l)) l).
Proof.
  induction l as [|y l IH]; intros k; cbn [length seq combine]; constructor; [apply IH|]. apply Forall_forall. intros [s x] H. apply number_nth in H. cbn. lia.
Qed.
Lemma ssorted_filter {A} (R : A -> A -> Prop) (f : A -> bool) l : StronglySorted R l -> StronglySorted R (filter f l).
Proof. induction 1 as [|a l H IH F]; cbn; [constructor|]. destruct (f a); [|exact IH]. constructor; [exact IH|]. rewrite Forall_forall in *. intros x Hx. apply filter_In in Hx. apply F, Hx. Qed.
Lemma mine_sorted i : StronglySorted (fun p q => (fst p < fst q)%nat) (mine cs i).
Proof. apply ssorted_filter, combine_sorted. Qed.
Lemma sorted_map {A} (R : A -> A -> Prop) (f : A -> Z) l : StronglySorted R l -> (forall a b, In a l -> In b l -> R a b -> f a < f b) -> StronglySorted Z.lt (map f l).
Proof.
  induction 1 as [|a l H IH F]; intros Hf; cbn; constructor.
  - apply IH. intros; apply Hf; auto; right; assumption.
  - apply Forall_map. rewrite Forall_forall in *. intros b Hb. apply Hf; [left; reflexivity|right; exact Hb|apply F, Hb].
Qed.
Lemma early_level i p : In p (mine cs i) -> early ttl i p = lv i * C + Z.of_nat (fst p).
Proof.
  intros H. destruct (mine_nth i p H) as (H1 & _ & H2). assert (Hx : In (snd p) cs) by (eapply nth_error_In; exact H1). specialize (HL _ Hx). unfold early, waits. cbn [ttl tt_data tt_answer]. unfold base. rewrite H1.
  destruct (cp_kind (snd p)); [destruct (Nat.eqb_spec (cp_second (snd p)) i)|]; destruct H2; subst; try congruence; first [lia|rewrite HL; lia|rewrite e in HL; lia|nia].
Qed.
Lemma late_level i p : cp_first (snd p) <> cp_second (snd p) -> In p (mine cs i) -> late ttl i p = (lv i + 1) * C + Z.of_nat (fst p).
Proof.
  intros Ne H. destruct (mine_nth i p H) as (H1 & _ & H2). assert (Hx : In (snd p) cs) by (eapply nth_error_In; exact H1). specialize (HL _ Hx). unfold late, waits. cbn [ttl tt_data tt_answer tt_period]. unfold base. rewrite H1.
  destruct (cp_kind (snd p)); [destruct (Nat.eqb_spec (cp_second (snd p)) i)|]; destruct H2; subst; try congruence; first [lia|rewrite HL; lia|rewrite e in HL; lia|nia].
Qed.
Lemma data_level i p : In p (mine cs i) -> waits i (snd p) = true -> base (fst p) = (lv i - 1) * C + Z.of_nat (fst p).
Proof.
  intros H W. destruct (mine_nth i p H) as (H1 & _ & _). assert (Hx : In (snd p) cs) by (eapply nth_error_In; exact H1). specialize (HL _ Hx). unfold base, waits in *. rewrite H1. destruct (cp_kind (snd p)); [|discriminate]. apply Nat.eqb_eq in W. subst i. lia.
Qed.
Lemma base_low i p : In p (mine cs i) -> lowest * C <= base (fst p).
Proof.
  intros H. destruct (mine_nth i p H) as (H1 & _ & _). assert (Hx : In (snd p) cs) by (eapply nth_error_In; exact H1). pose proof (lowest_le _ Hx). unfold base. rewrite H1. assert (0 <= C) by (unfold C; lia). nia.
Qed.
Hypothesis Hne : forall x, In x cs -> cp_first x <> cp_second x.
Lemma level_kept : kept ttl cs.
Proof.
  intros i l.
  assert (Hn : forall p, In p l -> cp_first (snd p) <> cp_second (snd p)) by (intros p Hp; apply Hne; eapply mine_coupling; exact Hp).
  assert (Early : forall p, In p l -> early ttl i p = lv i * C + Z.of_nat (fst p)) by (intros; apply early_level; assumption).
  assert (Late : forall p, In p l -> late ttl i p = (lv i + 1) * C + Z.of_nat (fst p)) by (intros; apply late_level; auto).
  assert (Lt : forall p, In p l -> Z.of_nat (fst p) < C) by (intros p Hp; apply (mine_nth i p Hp)).
  assert (Low : forall p, In p l -> lowest <= lv i).
  { intros p Hp. destruct (mine_nth i p Hp) as (H1 & _ & H2). assert (Hx : In (snd p) cs) by (eapply nth_error_In; exact H1). pose proof (lowest_le _ Hx). specialize (HL _ Hx). destruct H2 as [<-|<-]; [assumption|]. destruct (cp_kind (snd p)); lia. }
  split; [|split; [|split]].
  - apply sorted_app.
    + apply sorted_map with (R := fun p q => (fst p < fst q)%nat); [apply mine_sorted|]. intros a b Ha Hb H. rewrite (Early a Ha), (Early b Hb). lia.
    + apply sorted_map with (R := fun p q => (fst p < fst q)%nat); [apply mine_sorted|]. intros a b Ha Hb H. rewrite (Late a Ha), (Late b Hb). lia.
    + intros x y Hx Hy. apply in_map_iff in Hx as (p & <- & Hp). apply in_map_iff in Hy as (q & <- & Hq). rewrite (Early p Hp), (Late q Hq). specialize (Lt p Hp). lia.
  - intros p q Hp Hq. rewrite (Late p Hp), (Early q Hq). cbn [ttl tt_period]. specialize (Lt p Hp). lia.
  - assert (Sub : forall r, (exists r0, l = r0 ++ r) -> StronglySorted Z.lt (flat_map (at_start ttl i) r)).
    { induction r as [|p r IH]; intros (r0 & E0); cbn [flat_map]; [constructor|].
      assert (Hp : In p l) by (rewrite E0; apply in_elt). assert (Hr : forall q, In q r -> In q l) by (intros q Hq; rewrite E0; apply in_app_iff; right; right; exact Hq).
      assert (Inc : forall q, In q r -> (fst p < fst q)%nat). { pose proof (mine_sorted i) as So. fold l in So. rewrite E0 in So. apply sorted_app_inv in So as (_ & So & _). inversion So as [|? ? _ F]; subst. rewrite Forall_forall in F. exact F. }
      apply sorted_app; [|apply IH; exists (r0 ++ [p]); rewrite <- app_assoc; exact E0|].
      - unfold at_start. cbn [ttl tt_initial tt_data]. destruct (initialized (snd p)); cbn [app]; [|destruct (waits i (snd p)); repeat constructor].
        destruct (waits i (snd p)) eqn:W; repeat constructor. pose proof (base_low i p Hp). specialize (Lt p Hp). lia.
      - intros x y Hx Hy. apply in_flat_map in Hy as (q & Hq & Hy). specialize (Inc q Hq). pose proof (Lt p Hp) as Lp. pose proof (Lt q (Hr q Hq)) as Lq0.
        unfold at_start in Hx, Hy. cbn [ttl tt_initial tt_data] in Hx, Hy. apply in_app_iff in Hx as [Hx|Hx], Hy as [Hy|Hy].
        + destruct (initialized (snd p)); [|destruct Hx]. destruct (initialized (snd q)); [|destruct Hy]. destruct Hx as [<-|[]], Hy as [<-|[]]. lia.
        + destruct (initialized (snd p)); [|destruct Hx]. destruct (waits i (snd q)) eqn:W; [|destruct Hy]. destruct Hx as [<-|[]], Hy as [<-|[]]. pose proof (base_low i q (Hr q Hq)). lia.
        + destruct (waits i (snd p)) eqn:W; [|destruct Hx]. destruct (initialized (snd q)) eqn:I0; [|destruct Hy]. exfalso. destruct (mine_nth i p Hp) as (P1 & _ & _). destruct (mine_nth i q (Hr q Hq)) as (Q1 & _ & Q2).
          destruct (HI i _ _ _ _ P1 Q1 Inc W I0). tauto.
        + destruct (waits i (snd p)) eqn:W; [|destruct Hx]. destruct (waits i (snd q)) eqn:W'; [|destruct Hy]. destruct Hx as [<-|[]], Hy as [<-|[]]. rewrite (data_level i p Hp W), (data_level i q (Hr q Hq) W'). lia. }
    apply Sub. exists []. reflexivity.
  - intros t q Ht Hq. apply in_flat_map in Ht as (p & Hp & Ht). rewrite (Early q Hq). pose proof (Lt p Hp). pose proof (Low p Hp). unfold at_start in Ht. cbn [ttl tt_initial tt_data] in Ht. apply in_app_iff in Ht as [Ht|Ht].
    + destruct (initialized (snd p)); [|destruct Ht]. destruct Ht as [<-|[]]. nia.
    + destruct (waits i (snd p)) eqn:W; [|destruct Ht]. destruct Ht as [<-|[]]. rewrite (data_level i p Hp W). lia.
Qed.
End Levels.

(** * Executions *)
Section Final.
Context {V : Type}.
Variables (gnone vzero : V).
Notation cst := (cst (V:=V)).
Notation env := (env (V:=V)).
Variables (n : nat) (eps w : Z) (T M : option Z) (cs : list coupling).
Hypothesis WC : well_configured n eps w T M cs.
Variable Es : nat -> nat -> env.
Variable step : nat -> cst -> Z.
Hypothesis Hstep : forall i s, exact_step eps (composition cs i) s (step i s).
Notation body := (fleetLoop gnone Es step cs).

Definition fine_s (c : net (M:=msg V) (S:=cst)) : Prop := some_error c \/ all_finished body c \/ exists l c', sstep body l c c'.
Definition fine_a (x : net (M:=msg V) (S:=cst) * chans (M:=msg V)) : Prop :=
  some_error (fst x) \/ (all_finished body (fst x) /\ forall i j, (i < n)%nat -> (j < n)%nat -> i <> j -> chget n i j (snd x) = []) \/ exists l x', astep body l x x'.

Section W.
Variables (tt : timetable) (W : (nat -> list msgEv) -> Prop).
Hypothesis W_tail : forall R R' i e l, W R -> R i = e :: l -> (forall a, R' a = if (a =? i)%nat then l else R a) -> W R'.
Hypothesis W_next : forall R, W R -> own ev_src ev_dst n R -> (exists i, (i < n)%nat /\ R i <> []) -> exists i e l, (i < n)%nat /\ R i = e :: l /\ forall j, j = ev_src e \/ j = ev_dst e -> In e (R j) -> exists l', R j = e :: l'.
Hypothesis W_plan : forall N, W (fun i => plan tt cs i N).
Hypothesis W_match : forall N i j, (0 < N)%nat -> i <> j -> way i j (plan tt cs j N) = way i j (plan tt cs i N).
Notation Inv := (P_FleetRun.Inv eps w T M cs tt).
Lemma fleet_ok : exists R, ok ev_src ev_dst Inv n W (fleet gnone vzero Es cs n) R (fun _ _ => []).
Proof.
  destruct (number n eps w T M cs WC) as (N & HN & Hc). exists (fun i => plan tt cs i N). split.
  - unfold fleet. rewrite map_length, seq_length. reflexivity.
  - intros i p Hp. unfold fleet in Hp. rewrite nth_error_map in Hp. destruct (nth_error (seq 0 n) i) as [k|] eqn:Ek; [|discriminate]. injection Hp as <-.
    assert (k = i) as ->. { assert (Hi : (i < n)%nat) by (rewrite <- (seq_length n 0); apply nth_error_Some; congruence). rewrite nth_error_nth' with (d := 0%nat) in Ek by (rewrite seq_length; exact Hi). rewrite seq_nth in Ek by exact Hi. injection Ek as <-. reflexivity. }
    destruct (inv_start gnone vzero n eps w T M cs WC tt Es i N Hc) as (L1 & L2 & E1 & E2). exists L1, L2. auto.
  - apply W_plan.
  - intros i e Hi He. apply plan_own in He as (x & Hx & B & Own); [|exact HN]. destruct (wc_couplings _ _ _ _ _ _ WC x Hx) as (A1 & A2 & A3 & _). unfold between in B. destruct B as [[-> ->]|[-> ->]]; intuition congruence.
  - intros i j Hi Hj Ne. cbn [app]. apply W_match; assumption.
Qed.
Lemma fleet_blocking c : reaches (sstep body) (fleet gnone vzero Es cs n) c -> fine_s c.
Proof.
  intros R. unfold fine_s. eapply sched_blocking with (Inv := Inv) (W := W) (n := n); [|exact W_tail|exact W_next|exact fleet_ok|exact R].
  intros i s l H. exact (inv_loop gnone n eps w T M cs WC tt Es step Hstep i s l H).
Qed.
Lemma fleet_buffered x : reaches (astep body) (fleet gnone vzero Es cs n, emptych n) x -> fine_a x.
Proof.
  intros R. unfold fine_a. eapply sched_buffered with (Inv := Inv) (W := W) (n := n); [|exact W_tail|exact W_next| |exact R].
  - intros i s l H. exact (inv_loop gnone n eps w T M cs WC tt Es step Hstep i s l H).
  - destruct fleet_ok as (R0 & K). split; [cbn [snd]; apply repeat_length|]. exists R0, (fun _ _ => []). split; [exact K|]. intros i j Hi Hj Ne. cbn [snd]. unfold chget, emptych. rewrite nth_repeat. reflexivity.
Qed.
End W.
Theorem kept_fine tt : kept tt cs -> (forall c, reaches (sstep body) (fleet gnone vzero Es cs n) c -> fine_s c) /\ (forall x, reaches (astep body) (fleet gnone vzero Es cs n, emptych n) x -> fine_a x).
Proof.
  intros K. assert (H : forall N, by_time ev_t ev_k n (fun i => plan tt cs i N)). { intros N i Hi. destruct (K i) as (K1 & K2 & K3 & K4). apply plan_sorted; assumption. }
  assert (HM : forall N i j, (0 < N)%nat -> i <> j -> way i j (plan tt cs j N) = way i j (plan tt cs i N)) by (intros N i j HN _; apply plan_match; assumption).
  split; intros c; [apply (fleet_blocking tt (by_time ev_t ev_k n))|apply (fleet_buffered tt (by_time ev_t ev_k n))]; auto; first [intros R R' i e l; apply by_time_tail|intros R; apply by_time_next].
Qed.
Theorem tree_fine cs' : Permutation cs' cs -> tree cs' -> (forall c, reaches (sstep body) (fleet gnone vzero Es cs n) c -> fine_s c) /\ (forall x, reaches (astep body) (fleet gnone vzero Es cs n, emptych n) x -> fine_a x).
Proof.
  intros Pm Tr. assert (Hne : forall x, In x cs -> cp_first x <> cp_second x) by (intros x Hx; apply (wc_couplings _ _ _ _ _ _ WC x Hx)).
  assert (One : forall i j, i <> j -> (length (filter (joins i j) cs) <= 1)%nat).
  { intros i j N. replace (length (filter (joins i j) cs)) with (length (filter (joins i j) cs')); [apply tree_one; assumption|]. apply Permutation_length. clear -Pm. induction Pm; cbn; auto; repeat match goal with |- context [joins i j ?x] => destruct (joins i j x) end; eauto using Permutation; constructor. }
  assert (So : forall N i j, i <> j -> StronglySorted before (pair ev_src ev_dst i j (plan tt1 cs i N))) by (intros N i j Nij; rewrite pair_plan by exact Hne; apply one_sorted, One, Nij).
  assert (Own : forall N i e, (0 < N)%nat -> In e (plan tt1 cs i N) -> (ev_src e = i \/ ev_dst e = i) /\ ev_src e <> ev_dst e /\ adj (edges cs') (ev_src e) (ev_dst e)).
  { intros N i e HN He. apply plan_own in He as (x & Hx & B & O); [|exact HN]. specialize (Hne x Hx). assert (Hx' : In x cs') by (eapply Permutation_in; [symmetry; exact Pm|exact Hx]).
    assert (Ed : In (cp_first x, cp_second x) (edges cs')) by (apply (in_map (fun x => (cp_first x, cp_second x))); exact Hx'). unfold between, adj in *. destruct B as [[-> ->]|[-> ->]]; intuition congruence. }
  assert (HP : forall N i, plan tt1 cs i N = [] \/ (0 < N)%nat \/ N = 0%nat) by (intros; destruct N; [right; right; reflexivity|right; left; lia]). clear HP.
  assert (H : forall N, by_pair ev_src ev_dst ev_t ev_k n (edges cs') (fun i => plan tt1 cs i N)).
  { intros N i Hi. split.
    - intros e He. destruct N as [|N]; [|apply (Own (S N) i e); [lia|exact He]]. apply (Own 1%nat i e); [lia|]. unfold plan in *. cbn [windows] in *. rewrite app_nil_r in He. apply in_app_iff. left. exact He.
    - intros j. destruct (Nat.eq_dec i j) as [->|Nij]; [|apply So, Nij].
      replace (pair ev_src ev_dst j j (plan tt1 cs j N)) with (@nil msgEv); [constructor|]. symmetry. rewrite pair_plan by exact Hne. replace (filter (joins j j) cs) with (@nil coupling); [clear; unfold plan; cbn; induction N as [|N IH]; [reflexivity|]; generalize 0; assert (forall m b, windows tt1 [] j m b = []) as Z0 by (induction m; intros; cbn; auto); intros; apply Z0|].
      clear -Hne. induction cs as [|x l IH]; [reflexivity|]. cbn [filter]. unfold joins at 1. specialize (Hne x (or_introl eq_refl)) as Nx. destruct (Nat.eqb_spec (cp_first x) j), (Nat.eqb_spec (cp_second x) j); cbn [andb orb]; try congruence; apply IH; intros; apply Hne; right; assumption. }
  assert (HM : forall N i j, (0 < N)%nat -> i <> j -> way i j (plan tt1 cs j N) = way i j (plan tt1 cs i N)).
  { intros N i j HN Nij. assert (Wp : forall l a b, a = i /\ b = j \/ a = j /\ b = i -> way i j l = way i j (pair ev_src ev_dst a b l)).
    { clear. intros l a b Hab. induction l as [|e l IH]; [reflexivity|]. unfold way, pair in *. cbn [filter]. destruct (Nat.eqb_spec (ev_src e) i) as [E1|E1], (Nat.eqb_spec (ev_dst e) j) as [E2|E2]; cbn [andb].
      - destruct Hab as [[-> ->]|[-> ->]]; rewrite E1, E2, !Nat.eqb_refl; cbn [andb orb filter]; rewrite ?orb_true_r; cbn [filter]; rewrite E1, E2, !Nat.eqb_refl; cbn [andb]; f_equal; exact IH.
      - rewrite IH. destruct (_ || _); [|reflexivity]. cbn [filter]. destruct (Nat.eqb_spec (ev_dst e) j); [congruence|]. rewrite andb_false_r. reflexivity.
      - rewrite IH. destruct (_ || _); [|reflexivity]. cbn [filter]. destruct (Nat.eqb_spec (ev_src e) i); [congruence|]. reflexivity.
      - rewrite IH. destruct (_ || _); [|reflexivity]. cbn [filter]. destruct (Nat.eqb_spec (ev_src e) i); [congruence|]. reflexivity. }
    apply sorted_unique.
    - rewrite (Wp _ j i) by auto. apply sorted_filter, So. congruence.
    - rewrite (Wp _ i j) by auto. apply sorted_filter, So. congruence.
    - intros e. unfold way. rewrite !filter_In, !andb_true_iff, !Nat.eqb_eq. split; intros (X & H1 & H2); (split; [|auto]); (eapply plan_both; [exact HN| |exact X]); auto. }
  pose proof (tree_forest cs' Tr) as Fo.
  split; intros c; [apply (fleet_blocking tt1 (by_pair ev_src ev_dst ev_t ev_k n (edges cs')))|apply (fleet_buffered tt1 (by_pair ev_src ev_dst ev_t ev_k n (edges cs')))]; auto; first [intros R R' i e l; apply by_pair_tail|intros R; apply by_pair_next; [exact msgEv_dec|exact Fo]].
Qed.
End Final.
