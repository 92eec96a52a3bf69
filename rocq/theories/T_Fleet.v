(** C71: several participants, coupled by any number of explicit coupling schemes. *)
From Coq Require Import ZArith Bool List Lia Arith Sorted Permutation.
From Verif Require Import M_Net M_Time M_Wave M_Cpl M_Comp S_Prog S_Cpl S_Comp M_Fleet S_Fleet P_Net P_NetExecN P_FleetEnd.
Import ListNotations.
Open Scope Z_scope.

(** Nobody waits forever: as long as no participant stops with an error, either all have finished the coupling
    and every message was received, or somebody can go on.  Both if a send waits for the receiver and if it does not. *)
Definition never_stuck {V} (gnone vzero : V) (n : nat) (cs : list coupling) (Es : nat -> nat -> env (V:=V)) (step : nat -> cst (V:=V) -> Z) : Prop :=
  let body := fleetLoop gnone Es step cs in
  (forall c, reaches (sstep body) (fleet gnone vzero Es cs n) c -> some_error c \/ all_finished body c \/ exists l c', sstep body l c c') /\
  (forall c q, reaches (astep body) (fleet gnone vzero Es cs n, emptych n) (c, q) ->
     some_error c \/ (all_finished body c /\ forall i j, (i < n)%nat -> (j < n)%nat -> i <> j -> chget n i j q = []) \/ exists l x', astep body l (c, q) x').

Section T.
Context {V : Type}.
Variables (gnone vzero : V).
Variables (n : nat) (eps w : Z) (T M : option Z) (cs : list coupling) (Es : nat -> nat -> env (V:=V)) (step : nat -> cst (V:=V) -> Z).

(** If there is a timetable that everybody can keep, whatever the schemes are and in whatever order they are configured *)
Theorem C71_timetable tt : well_configured n eps w T M cs -> (forall i s, exact_step eps (composition cs i) s (step i s)) ->
  kept tt cs -> never_stuck gnone vzero n cs Es step.
Proof. intros WC Hs K. destruct (kept_fine gnone vzero n eps w T M cs WC Es step Hs tt K) as [A B]. split; [exact A|]. intros c q R. exact (B (c, q) R). Qed.

(** If serial couplings lead from one level to the next and parallel couplings stay on a level, and initial data is
    exchanged before waiting: any number of couplings, any order otherwise *)
Theorem C71_levels lv : well_configured n eps w T M cs -> (forall i s, exact_step eps (composition cs i) s (step i s)) ->
  levelled lv cs -> initial_first cs -> never_stuck gnone vzero n cs Es step.
Proof.
  intros WC Hs L I. apply (C71_timetable (ttl lv cs) WC Hs). apply level_kept; [exact L|exact I|]. intros x Hx. apply (wc_couplings _ _ _ _ _ _ WC x Hx).
Qed.

(** If the couplings form trees: any schemes, any initial data, any order *)
Theorem C71_trees cs' : well_configured n eps w T M cs -> (forall i s, exact_step eps (composition cs i) s (step i s)) ->
  Permutation cs' cs -> tree cs' -> never_stuck gnone vzero n cs Es step.
Proof. intros WC Hs Pm Tr. destruct (tree_fine gnone vzero n eps w T M cs WC Es step Hs cs' Pm Tr) as [A B]. split; [exact A|]. intros c q R. exact (B (c, q) R). Qed.
End T.
Print Assumptions C71_timetable.
Print Assumptions C71_levels.
Print Assumptions C71_trees.

(** ** Examples: windows of 10, up to time 25 *)
Definition side_conf (first : bool) (partner : nat) (s r : list dspec) : conf := Conf 1 false first false false (Some 25) None (Some 10) 1 None [] partner s r.
Definition mk (k : kind) (i j : nat) (sA sB : list dspec) : coupling := Coupling k i j (side_conf true j sA sB) (side_conf false i sB sA).
Definition plain := DSpec false false false.
Definition with_init := DSpec true true false.
Definition ex_env (i k : nat) : env (V:=Z) := Env (fun _ => 10) (fun s n => (th_time (s_time s), 0)) (fun _ => (0, 0)) (fun _ => []) (fun _ _ _ _ x => x).
(** the largest step, or shorter ones for participant 1 *)
Definition ex_step (cs : list coupling) (i : nat) (s : cst (V:=Z)) : Z :=
  match cMaxTimeStepSize (composition cs i) s with Some m => if (i =? 1)%nat && (6 <? m) then 4 else m | None => 10 end.
Lemma ex_step_ok cs i s : exact_step 1 (composition cs i) s (ex_step cs i s).
Proof. unfold exact_step, ex_step. destruct (cMaxTimeStepSize (composition cs i) s) as [m|]; [|exact I]. destruct ((i =? 1)%nat && (6 <? m)) eqn:E; [|left; reflexivity]. apply andb_true_iff in E as [_ E]. apply Z.ltb_lt in E. lia. Qed.
Definition good (n : nat) (x : coupling) : bool := (cp_first x <? n)%nat && (cp_second x <? n)%nat && negb (cp_first x =? cp_second x)%nat.
Lemma configured n l : forallb (fun p => good n (mk (fst (fst p)) (fst (snd (fst p))) (snd (snd (fst p))) [] [])) l = true ->
  well_configured n 1 10 (Some 25) None (map (fun p => mk (fst (fst p)) (fst (snd (fst p))) (snd (snd (fst p))) (fst (snd p)) (snd (snd p))) l).
Proof.
  intros G. constructor; [lia|intros t H; injection H as <-; lia|discriminate|left; discriminate|].
  intros x H. apply in_map_iff in H as (p & <- & Hp). rewrite forallb_forall in G. specialize (G p Hp). unfold good in G. rewrite !andb_true_iff, !Nat.ltb_lt, negb_true_iff, Nat.eqb_neq in G. cbn in G. destruct G as [[G1 G2] G3].
  cbn. repeat (split; [assumption || reflexivity|]). intros c [-> | ->]; unfold fixed, wf_method; cbn; repeat split; try reflexivity; try discriminate; lia.
Qed.
Notation c2 k i j a b := ((k, (i, j)), (a, b)).

(** a diamond: 0 -> 1, 0 -> 2 with initial data, 1 -> 3, 2 -> 3, and 1 and 2 in parallel *)
Definition diamond := [mk Serial 0 1 [plain] [plain]; mk Serial 0 2 [plain] [with_init]; mk Serial 1 3 [plain; plain] []; mk Serial 2 3 [plain] [plain]; mk Parallel 2 1 [plain] [plain]].
Example ex_diamond : well_configured 4 1 10 (Some 25) None diamond /\ levelled (fun i => match i with O => 0 | S (S (S _)) => 2 | _ => 1 end) diamond /\ initial_first diamond.
Proof.
  split; [apply (configured 4 [c2 Serial 0 1 [plain] [plain]; c2 Serial 0 2 [plain] [with_init]; c2 Serial 1 3 [plain; plain] []; c2 Serial 2 3 [plain] [plain]; c2 Parallel 2 1 [plain] [plain]]%nat); reflexivity|]. split.
  - intros x H. cbn in H. repeat (destruct H as [<-|H]; [reflexivity|]). destruct H.
  - intros i a x b y Ha Hb Hab W I0. destruct b as [|[|[|[|[|b]]]]]; cbn in Hb; try (destruct b; discriminate); injection Hb as <-; try discriminate I0.
    destruct a as [|a]; [|lia]. injection Ha as <-. unfold waits in W. cbn in W. destruct i as [|[|i]]; try discriminate W. cbn. lia.
Qed.
Definition all_over (cs : list coupling) (windows : nat) (c : net (M:=msg Z) (S:=cst (V:=Z))) : bool :=
  forallb (fun ip => match snd ip with PRet s => negb (cOngoing (composition cs (fst ip)) s) && forallb (fun e => s_windows e =? Z.of_nat windows + 1) (cx_expl s) | _ => false end) (combine (seq 0 (length c)) c).
Example ex_diamond_blocking : all_over diamond 3 (runN (fleetLoop 0 ex_env (ex_step diamond) diamond) 200 (fleet 0 0 ex_env diamond 4)) = true.
Proof. vm_compute. reflexivity. Qed.
Example ex_diamond_buffered : all_over diamond 3 (fst (arunN (fleetLoop 0 ex_env (ex_step diamond) diamond) 100 [3; 1; 0; 2]%nat (fleet 0 0 ex_env diamond 4, emptych 4))) = true.
Proof. vm_compute. reflexivity. Qed.

(** a tree of five participants, initial data after waiting *)
Definition branch := [mk Serial 0 1 [plain] [plain]; mk Parallel 1 2 [with_init] [with_init]; mk Serial 3 1 [plain] [with_init]; mk Serial 2 4 [plain] []].
Definition branch' := [mk Serial 0 1 [plain] [plain]; mk Serial 3 1 [plain] [with_init]; mk Parallel 1 2 [with_init] [with_init]; mk Serial 2 4 [plain] []].
Example ex_branch : well_configured 5 1 10 (Some 25) None branch /\ Permutation branch' branch /\ tree branch'.
Proof.
  split; [apply (configured 5 [c2 Serial 0 1 [plain] [plain]; c2 Parallel 1 2 [with_init] [with_init]; c2 Serial 3 1 [plain] [with_init]; c2 Serial 2 4 [plain] []]%nat); reflexivity|]. split; [apply perm_skip, perm_swap|].
  repeat (apply tree_cons; [|cbn; lia|right; intros y H; cbn in H; repeat (destruct H as [<-|H]; [cbn; lia|]); destruct H]). constructor.
Qed.
Example ex_branch_blocking : all_over branch 3 (runN (fleetLoop 0 ex_env (ex_step branch) branch) 200 (fleet 0 0 ex_env branch 5)) = true.
Proof. vm_compute. reflexivity. Qed.

(** a triangle of serial couplings works if it is configured in this order *)
Definition triangle := [mk Serial 0 1 [plain] [plain]; mk Serial 0 2 [plain] [plain]; mk Serial 1 2 [plain] [plain]].
Definition triangle_times := Timetable (fun s => nth s [0; 2; 6] 0) (fun s => nth s [4; 8; 11] 0) (fun _ => 0) 10.
Example ex_triangle : well_configured 3 1 10 (Some 25) None triangle /\ kept triangle_times triangle.
Proof.
  split; [apply (configured 3 [c2 Serial 0 1 [plain] [plain]; c2 Serial 0 2 [plain] [plain]; c2 Serial 1 2 [plain] [plain]]%nat); reflexivity|].
  intros [|[|[|i]]]; cbn; (split; [repeat constructor|split; [|split; [repeat constructor|]]]); intros; repeat match goal with H : _ \/ _ |- _ => destruct H | H : False |- _ => destruct H end; subst; cbn; reflexivity.
Qed.
Example ex_triangle_blocking : all_over triangle 3 (runN (fleetLoop 0 ex_env (ex_step triangle) triangle) 200 (fleet 0 0 ex_env triangle 3)) = true.
Proof. vm_compute. reflexivity. Qed.

(** ** What the hypotheses exclude *)
Definition clean {M S} (c : net (M:=M) (S:=S)) : bool := forallb (fun p => match p with PErr _ => false | _ => true end) c.
Lemma clean_ok {M S} (c : net (M:=M) (S:=S)) : clean c = true -> ~ some_error c.
Proof. intros H (i & e & E). apply nth_error_In in E. unfold clean in H. rewrite forallb_forall in H. specialize (H _ E). discriminate H. Qed.
(** a deadlock if sends wait for the receiver *)
Definition blocks (cs : list coupling) (n : nat) : Prop :=
  exists c, let body := fleetLoop 0 ex_env (ex_step cs) cs in
    reaches (sstep body) (fleet 0 0 ex_env cs n) c /\ ~ some_error c /\ ~ all_finished body c /\ forall l c', ~ sstep body l c c'.
(** a deadlock even if they do not *)
Definition starves (cs : list coupling) (n : nat) : Prop :=
  exists x, let body := fleetLoop 0 ex_env (ex_step cs) cs in
    reaches (astep body) (fleet 0 0 ex_env cs n, emptych n) x /\ ~ some_error (fst x) /\ ~ all_finished body (fst x) /\ forall l x', ~ astep body l x x'.
Lemma blocks_run cs n fuel : (let c := runN (fleetLoop 0 ex_env (ex_step cs) cs) fuel (fleet 0 0 ex_env cs n) in stuckN (fleetLoop 0 ex_env (ex_step cs) cs) c && clean c) = true -> blocks cs n.
Proof.
  cbn zeta. rewrite andb_true_iff. intros [H C]. exists (runN (fleetLoop 0 ex_env (ex_step cs) cs) fuel (fleet 0 0 ex_env cs n)). cbn zeta.
  destruct (stuckN_ok _ _ H) as (A & B). split; [apply runN_sound|]. split; [apply clean_ok, C|]. auto.
Qed.
Lemma starves_run cs n fuel : (let x := arunN (fleetLoop 0 ex_env (ex_step cs) cs) fuel (seq 0 n) (fleet 0 0 ex_env cs n, emptych n) in astuckN (fleetLoop 0 ex_env (ex_step cs) cs) x && clean (fst x)) = true -> starves cs n.
Proof.
  cbn zeta. rewrite andb_true_iff. intros [H C]. exists (arunN (fleetLoop 0 ex_env (ex_step cs) cs) fuel (seq 0 n) (fleet 0 0 ex_env cs n, emptych n)). cbn zeta.
  destruct (astuckN_ok _ _ H) as (A & B). split; [apply arunN_sound|]. split; [apply clean_ok, C|]. auto.
Qed.
(** A ring of serial couplings: everybody waits in initialize. *)
Definition ring := [mk Serial 0 1 [plain] [plain]; mk Serial 1 2 [plain] [plain]; mk Serial 2 0 [plain] [plain]].
Theorem C71_ring_refuted : exists n cs, well_configured n 1 10 (Some 25) None cs /\ (forall i s, exact_step 1 (composition cs i) s (ex_step cs i s)) /\ blocks cs n /\ starves cs n.
Proof.
  exists 3%nat, ring. split; [apply (configured 3 [c2 Serial 0 1 [plain] [plain]; c2 Serial 1 2 [plain] [plain]; c2 Serial 2 0 [plain] [plain]]%nat); reflexivity|]. split; [apply ex_step_ok|].
  split; [apply (blocks_run ring 3 100)|apply (starves_run ring 3 100)]; vm_compute; reflexivity.
Qed.
(** The same couplings in another order: the triangle above deadlocks if sends wait for the receiver. *)
Definition triangle' := [mk Serial 0 1 [plain] [plain]; mk Serial 1 2 [plain] [plain]; mk Serial 0 2 [plain] [plain]].
Theorem C71_order_refuted : exists n cs cs', well_configured n 1 10 (Some 25) None cs /\ Permutation cs cs' /\ (exists tt, kept tt cs) /\ blocks cs' n.
Proof.
  exists 3%nat, triangle, triangle'. split; [apply ex_triangle|]. split; [apply perm_skip, perm_swap|]. split; [exists triangle_times; apply ex_triangle|].
  apply (blocks_run triangle' 3 100). vm_compute. reflexivity.
Qed.
(** Levels alone do not suffice: participant 1 waits for its first window before it sends initial data. *)
Definition after_wait := [mk Serial 0 1 [plain] [plain]; mk Parallel 2 1 [plain] [with_init]; mk Serial 0 2 [plain] [with_init]].
Theorem C71_initial_data_refuted : exists n cs lv, well_configured n 1 10 (Some 25) None cs /\ levelled lv cs /\ blocks cs n /\ starves cs n.
Proof.
  exists 3%nat, after_wait, (fun i => match i with O => 0 | _ => 1 end).
  split; [apply (configured 3 [c2 Serial 0 1 [plain] [plain]; c2 Parallel 2 1 [plain] [with_init]; c2 Serial 0 2 [plain] [with_init]]%nat); reflexivity|].
  split; [intros x H; cbn in H; repeat (destruct H as [<-|H]; [reflexivity|]); destruct H|].
  split; [apply (blocks_run after_wait 3 100)|apply (starves_run after_wait 3 100)]; vm_compute; reflexivity.
Qed.
Print Assumptions C71_ring_refuted.
Print Assumptions C71_order_refuted.
Print Assumptions C71_initial_data_refuted.
