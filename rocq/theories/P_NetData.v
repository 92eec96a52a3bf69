(** Time stamps of received data (C19). *)
From Coq Require Import ZArith Bool List Lia.
From Verif Require Import M_Net M_Time M_Wave M_Cpl S_Prog P_Prog.
Import ListNotations.
Open Scope Z_scope.

Lemma override_in {X} eps (w : wave X) t (x : X) w' : w_override eps w t x = Some w' ->
  exists u, In (u, x) w' /\ Z.abs (u - t) <= eps.
Proof.
  revert w'. induction w as [|(u, y) r IH]; intros w' H; [discriminate H|]. cbn [w_override] in H.
  destruct (equals eps u t) eqn:E.
  - injection H as <-. exists u. split; [left; reflexivity|]. apply Z.leb_le in E. exact E.
  - destruct (w_override eps r t x) as [r'|]; [|discriminate H]. injection H as <-.
    destruct (IH r' eq_refl) as (u' & A & B). exists u'. split; [right; exact A|exact B].
Qed.
Lemma set_in {X} eps (w : wave X) t (x : X) w' : 0 <= eps -> w_set eps w t x = Some w' ->
  exists u, In (u, x) w' /\ Z.abs (u - t) <= eps.
Proof.
  intros E H. unfold w_set in H. destruct w as [|(u, y) r].
  - injection H as <-. exists t. split; [left; reflexivity|]. rewrite Z.sub_diag. exact E.
  - destruct (smallerEquals eps u t); [|discriminate H].
    destruct (w_override eps ((u, y) :: r) t x) as [w1|] eqn:O.
    + injection H as <-. eapply override_in, O.
    + destruct (smaller eps _ t); [|discriminate H]. injection H as <-. exists t.
      split; [apply (in_or_app ((u, y) :: r) [(t, x)]); right; left; reflexivity|]. rewrite Z.sub_diag. exact E.
Qed.

Section Data.
Context {V : Type}.
Variable gnone : V.
Notation st := (st (V:=V)).

Definition near (eps t : Z) (d : dspec) (w : wave (smp V)) : Prop :=
  d_sub d = false -> exists u x, In (u, x) w /\ Z.abs (u - t) <= eps.

Lemma recvAll_near eps now from ds : 0 <= eps -> forall ws r, returns (recvAll gnone eps now from ds ws) r -> Forall2 (near eps now) ds r.
Proof.
  intros E. induction ds as [|d ds IH]; intros ws r H; destruct ws as [|w ws]; cbn [recvAll] in H; try contradiction H.
  - cbn in H. subst. constructor.
  - apply returns_bind in H as (w' & H1 & H2). apply returns_bind in H2 as (r' & H2 & H3). cbn in H3. subst r.
    constructor; [|eapply IH, H2]. intros Hd. unfold recvOne in H1. rewrite Hd in H1.
    apply returns_bind in H1 as (vs & _ & H1). apply returns_bind in H1 as (gs & _ & H1).
    destruct vs as [|v [|]]; try contradiction H1; destruct gs as [|g [|]]; try contradiction H1.
    destruct (w_set eps w now (v, g)) as [w1|] eqn:S; [|contradiction H1]. cbn in H1. subst w1.
    destruct (set_in _ _ _ _ _ E S) as (u & A & B). exists u, (v, g). auto.
Qed.

Lemma receive_stamps c (s s' : st) : 0 <= c_eps c -> returns (receiveData gnone c s) s' ->
  s_rcvd s' = s_rcvd s ++ [viewsOf gnone (c_recv c) (s_recv s')] /\
  forall n d w, nth_error (c_recv c) n = Some d -> nth_error (s_recv s') n = Some w -> d_sub d = false ->
  exists u x, In (u, x) w /\ Z.abs (u - th_time (s_time s)) <= c_eps c.
Proof.
  intros E H. unfold receiveData in H. apply returns_bind in H as (r & H & Q). cbn in Q. subst s'. cbn. split; [reflexivity|].
  apply recvAll_near in H; [|exact E]. clear -H. induction H as [|d w ds r F1 F2 IH]; intros n d' w' Hd Hw Hs; [destruct n; discriminate Hd|].
  destruct n as [|n]; cbn in Hd, Hw; [injection Hd as <-; injection Hw as <-; apply F1, Hs|eapply IH; eassumption].
Qed.

Lemma receive_end_stamps c (s s' : st) w : 0 <= c_eps c -> s_next s = Some w -> returns (receiveDataForWindowEnd gnone c s) s' ->
  s_rcvd s' = s_rcvd s ++ [viewsOf gnone (c_recv c) (s_recv s')] /\
  forall n d wv, nth_error (c_recv c) n = Some d -> nth_error (s_recv s') n = Some wv -> d_sub d = false ->
  exists u x, In (u, x) wv /\ Z.abs (u - (th_time (s_time s) + w)) <= c_eps c.
Proof.
  intros E N H. unfold receiveDataForWindowEnd in H. rewrite N in H. apply returns_bind in H as (s1 & H & Q). cbn in Q. subst s'.
  destruct (receive_stamps _ _ _ E H) as (A & B). split; [exact A|]. intros n d wv H1 H2 H3. destruct (B n d wv H1 H2 H3) as (u & x & P & Q).
  exists u, x. split; [exact P|]. unfold th_time, th_progressBy in *. cbn in Q. replace (u - (th_start (s_time s) + th_prog (s_time s) + w)) with (u - (th_start (s_time s) + (th_prog (s_time s) + w))) by lia. exact Q.
Qed.
End Data.
