(** From canonical rounds to all schedules of two participants. *)
From Coq Require Import ZArith Bool List Lia.
From Verif Require Import M_Net M_Time M_Wave M_Cpl S_Prog S_Cpl S_Net P_Prog P_Net P_Pair P_Log.
Import ListNotations.

Open Scope nat_scope.
Section Lift.
Context {V : Type}.
Variables (gnone vzero : V).
Notation st := (st (V:=V)).
Variables (k : kind) (cA cB : conf) (EA EB : env (V:=V)).
Notation body := (couple gnone k cA cB EA EB).
Notation sstep := (sstep body).
Notation astep := (astep body).

Lemma body_grows i s p : body i s = Some p -> gp s p.
Proof.
  unfold couple. destruct i as [|[|i]]; [apply g_loop|apply g_loop|discriminate].
Qed.

(** [gp s0] of a process is preserved by every step *)
Lemma gp_sstep l c c' i p s0 : sstep l c c' -> nth_error c i = Some p -> gp s0 p ->
  exists p', nth_error c' i = Some p' /\ gp s0 p'.
Proof.
  intros St Hp G. inversion St as [a b m ka kb c0 N Ha Hb|a s q c0 Ha Hb]; subst.
  - assert (La : a < length c) by (eapply nth_error_lt, Ha). assert (Lb : b < length c) by (eapply nth_error_lt, Hb).
    destruct (Nat.eq_dec b i) as [->|Nb].
    + rewrite nth_upd_eq by (rewrite upd_length; exact Lb). exists (kb m). split; [reflexivity|].
      assert (p = PRecv a kb) as -> by congruence. intros s' R. apply G. exists m. exact R.
    + rewrite nth_upd_ne by exact Nb. destruct (Nat.eq_dec a i) as [->|Na].
      * rewrite nth_upd_eq by exact La. exists ka. split; [reflexivity|].
        assert (p = PSend b m ka) as -> by congruence. intros s' R. apply G. exact R.
      * rewrite nth_upd_ne by exact Na. exists p. auto.
  - assert (La : a < length c) by (eapply nth_error_lt, Ha).
    destruct (Nat.eq_dec a i) as [->|Na].
    + rewrite nth_upd_eq by exact La. exists q. split; [reflexivity|].
      assert (p = PRet s) as -> by congruence. intros s' R. eapply grows_trans; [apply G; reflexivity|].
      eapply body_grows; eassumption.
    + rewrite nth_upd_ne by exact Na. exists p. auto.
Qed.

Lemma gp_astep l x x' i p s0 : astep l x x' -> nth_error (fst x) i = Some p -> gp s0 p ->
  exists p', nth_error (fst x') i = Some p' /\ gp s0 p'.
Proof.
  intros St Hp G. inversion St as [a b m ka c0 q N Lb Ha|a b m ka c0 q r N Lb Ha Hq|a s p0 c0 q Ha Hb]; subst l x x'; cbn [fst] in *;
  assert (La : a < length c0) by (eapply nth_error_lt, Ha);
  (destruct (Nat.eq_dec a i) as [->|Na]; [|rewrite nth_upd_ne by exact Na; exists p; auto]);
  rewrite nth_upd_eq by exact La; (eexists; split; [reflexivity|]).
  - assert (p = PSend b m ka) as -> by congruence. intros s' R. apply G. exact R.
  - assert (p = PRecv b ka) as -> by congruence. intros s' R. apply G. exists m. exact R.
  - assert (p = PRet s) as -> by congruence. intros s' R. eapply grows_trans; [apply G; reflexivity|].
    eapply body_grows; eassumption.
Qed.

Lemma gp_srun w : forall c c' i p s0, lrun sstep w c c' -> nth_error c i = Some p -> gp s0 p ->
  exists p', nth_error c' i = Some p' /\ gp s0 p'.
Proof.
  induction w as [|l w IH]; intros c c' i p s0 R Hp G; inversion R as [|l0 w0 x1 x2 x3 R1 R2]; subst.
  - exists p. auto.
  - destruct (gp_sstep _ _ _ _ _ _ R1 Hp G) as (p' & H1 & H2). eapply IH; eassumption.
Qed.
Lemma gp_arun w : forall x x' i p s0, lrun astep w x x' -> nth_error (fst x) i = Some p -> gp s0 p ->
  exists p', nth_error (fst x') i = Some p' /\ gp s0 p'.
Proof.
  induction w as [|l w IH]; intros x x' i p s0 R Hp G; inversion R as [|l0 w0 x1 x2 x3 R1 R2]; subst.
  - exists p. auto.
  - destruct (gp_astep _ _ _ _ _ _ R1 Hp G) as (p' & H1 & H2). eapply IH; eassumption.
Qed.

Lemma same_or_covered w : forall c c' i, lrun sstep w c c' -> nth_error c' i = nth_error c i \/ covers w i.
Proof.
  induction w as [|(a, b) w IH]; intros c c' i R; inversion R as [|l0 w0 x1 x2 x3 R1 R2]; subst.
  - left. reflexivity.
  - destruct (Nat.eq_dec a i) as [->|Na]; [right; exists i, b; cbn; auto|].
    destruct (Nat.eq_dec b i) as [->|Nb]; [right; exists a, i; cbn; auto|].
    destruct (IH _ _ i R2) as [H|H]; [left|right; apply covers_cons, H].
    rewrite H. eapply sstep_other; eassumption.
Qed.

(** comparable logs *)
Definition common {A} (l l' : list A) : Prop := exists m, prefix l m /\ prefix l' m.
Definition alike (sA sB : st) : Prop :=
  common (s_hist sA) (s_hist sB) /\ common (s_sent sA) (s_rcvd sB) /\ common (s_sent sB) (s_rcvd sA).
(** all states the process was in before grow into [s] *)
Definition bounded_by (p : proc (msg V) st) (s : st) : Prop := forall s0, gp s0 p -> grows s0 s.

Variable K : net (M:=msg V) (S:=st) -> Prop.
Hypothesis HK : forall c, K c -> all_finished body c \/
  exists w c', lrun sstep w c c' /\ K c' /\
    forall i p, nth_error c i = Some p -> ~ finished body i p -> covers w i.
Hypothesis Hstart : exists w k0, lrun sstep w (start gnone vzero k cA cB EA EB) k0 /\ K k0.
Hypothesis Hbound : forall c, K c -> exists p q sA sB, c = [p; q] /\ bounded_by p sA /\ bounded_by q sB /\ alike sA sB.
Hypothesis Hfin : forall sA sB, K [PRet sA; PRet sB] -> all_finished body [PRet sA; PRet sB] -> agree_fully sA sB.

Definition K' (c : net (M:=msg V) (S:=st)) : Prop := K c \/ exists w k0, lrun sstep w c k0 /\ K k0.

Lemma HK' c : K' c -> all_finished body c \/
  exists w c', lrun sstep w c c' /\ K' c' /\
    forall i p, nth_error c i = Some p -> ~ finished body i p -> covers w i.
Proof.
  intros [H|(w & k0 & R & H)].
  - destruct (HK c H) as [F|(w & c' & R & Kc & Cv)]; [left; exact F|right]. exists w, c'.
    split; [exact R|]. split; [left; exact Kc|exact Cv].
  - right. destruct (HK k0 H) as [F|(w2 & c' & R2 & Kc & Cv)].
    + exists w, k0. split; [exact R|]. split; [left; exact H|]. intros i p Hp Nf.
      destruct (same_or_covered _ _ _ i R) as [Q|Q]; [|exact Q]. exfalso. apply Nf. apply F. rewrite Q. exact Hp.
    + exists (w ++ w2), c'. split; [eapply lrun_app; eassumption|]. split; [left; exact Kc|].
      intros i p Hp Nf. destruct (same_or_covered _ _ _ i R) as [Q|Q]; [|apply covers_app_l, Q].
      apply covers_app_r. apply (Cv i p); [rewrite Q; exact Hp|exact Nf].
Qed.

Lemma alike_agree sA sB tA tB : grows sA tA -> grows sB tB -> alike tA tB -> agree sA sB.
Proof.
  intros (A1 & A2 & A3) (B1 & B2 & B3) ((m1 & P1 & Q1) & (m2 & P2 & Q2) & (m3 & P3 & Q3)).
  split; [|split]; intros n x y H1 H2.
  - exact (prefix_nth _ _ m1 n x y (prefix_trans _ _ _ A1 P1) (prefix_trans _ _ _ B1 Q1) H1 H2).
  - exact (prefix_nth _ _ m2 n x y (prefix_trans _ _ _ A2 P2) (prefix_trans _ _ _ B3 Q2) H1 H2).
  - exact (prefix_nth _ _ m3 n x y (prefix_trans _ _ _ B2 P3) (prefix_trans _ _ _ A3 Q3) H1 H2).
Qed.

Lemma to_K c : K' c -> exists w k0, lrun sstep w c k0 /\ K k0.
Proof. intros [H|H]; [exists [], c; split; [constructor|exact H]|exact H]. Qed.

Lemma gp_self (s : st) : gp s (PRet s).
Proof. apply gp_ret, grows_refl. Qed.

Theorem lift_correct : coupling_correct gnone vzero k cA cB EA EB.
Proof.
  assert (S0 : K' (start gnone vzero k cA cB EA EB)) by (right; exact Hstart).
  split.
  - intros c R. constructor.
    + eapply (sync_no_error body K' HK'); eassumption.
    + eapply (sync_progress body K' HK'); eassumption.
    + intros sA sB ->. destruct (sync_completes body K' HK' _ _ S0 R) as (k1 & (w1 & R1) & Hk1).
      destruct (to_K _ Hk1) as (w2 & k2 & R2 & Hk2). pose proof (lrun_app _ _ _ _ _ _ R1 R2) as R3.
      destruct (Hbound _ Hk2) as (p & q & tA & tB & -> & BA & BB & Al).
      destruct (gp_srun _ _ _ 0 _ sA R3 eq_refl (gp_self sA)) as (p' & E1 & G1). injection E1 as <-.
      destruct (gp_srun _ _ _ 1 _ sB R3 eq_refl (gp_self sB)) as (q' & E2 & G2). injection E2 as <-.
      eapply alike_agree; [apply BA, G1|apply BB, G2|exact Al].
    + intros sA sB -> F. destruct (sync_completes body K' HK' _ _ S0 R) as (k1 & (w1 & R1) & Hk1).
      destruct (to_K _ Hk1) as (w2 & k2 & R2 & Hk2). pose proof (lrun_app _ _ _ _ _ _ R1 R2) as R3.
      destruct (w1 ++ w2) as [|l w].
      * inversion R3; subst. apply Hfin; assumption.
      * inversion R3; subst. exfalso. eapply finished_no_sstep; eassumption.
  - intros x R. change 2 with (length (start gnone vzero k cA cB EA EB)) in R. constructor.
    + eapply (async_no_error body K' HK'); eassumption.
    + destruct (async_progress body K' HK' _ _ S0 R) as [(F & _)|Q]; [left; exact F|right; exact Q].
    + intros sA sB Hx. destruct (async_completes body K' HK' _ _ S0 R) as (k1 & (w1 & R1) & Hk1).
      destruct (to_K _ Hk1) as (w2 & k2 & R2 & Hk2).
      destruct (Hbound _ Hk2) as (p & q & tA & tB & -> & BA & BB & Al).
      assert (Q : forall i s, nth_error (fst x) i = Some (PRet s) -> exists p', nth_error [p; q] i = Some p' /\ gp s p').
      { intros i s Hi. destruct (gp_arun _ _ _ i _ s R1 Hi (gp_self s)) as (p1 & E1 & G1). cbn [fst] in E1.
        eapply gp_srun; eassumption. }
      destruct (Q 0 sA) as (p' & E1 & G1); [rewrite Hx; reflexivity|]. injection E1 as <-.
      destruct (Q 1 sB) as (q' & E2 & G2); [rewrite Hx; reflexivity|]. injection E2 as <-.
      eapply alike_agree; [apply BA, G1|apply BB, G2|exact Al].
    + intros sA sB Hx F. destruct (async_completes body K' HK' _ _ S0 R) as (k1 & (w1 & R1) & Hk1).
      assert (Q : fst x = k1).
      { destruct (async_progress body K' HK' _ _ S0 R) as [(_ & Em)|(l & x' & St)].
        - destruct w1 as [|l w1]; inversion R1 as [|l0 w0 x1 x2 x3 Ra Rb]; subst; [reflexivity|].
          exfalso. destruct x as (c, ch). cbn [fst snd] in *. subst ch. eapply finished_no_astep; eassumption.
        - exfalso. destruct x as (c, ch). cbn [fst] in *. inversion St as [a b m ka c0 q N Lb Ha|a b m ka c0 q r N Lb Ha Hq|a s p0 c0 q Ha Hb]; subst;
          destruct (F _ _ Ha) as (s' & E1 & E2); congruence. }
      subst k1. destruct (to_K _ Hk1) as (w2 & k2 & R2 & Hk2). rewrite Hx in *.
      destruct w2 as [|l w]; inversion R2; subst.
      * apply Hfin; assumption.
      * exfalso. eapply finished_no_sstep; eassumption.
Qed.
End Lift.
