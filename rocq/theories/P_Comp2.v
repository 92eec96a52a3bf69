From Coq Require Import ZArith Bool List Lia.
From Verif Require Import M_Net M_Time M_Wave M_Cpl M_Comp S_Prog S_Cpl S_Comp P_Prog P_Cpl P_CplRun P_Comp.
Import ListNotations.
Open Scope Z_scope.

(** * Time arithmetic of a composition *)
Section Arith.
Variables (eps w : Z) (T : option Z).
Hypothesis Heps : 0 <= eps < w.
(** time from the start of the [b]-th window to its end *)
Definition lim (b : Z) : Z := match T with None => w | Some t => Z.min w (t - b * w) end.
Definition left_ (b : Z) : Prop := match T with None => True | Some t => eps < t - b * w end.
(** time after the implicit scheme's window *)
Definition after (b : Z) : Z := if Z.abs (lim b - w) <=? eps then (b + 1) * w else b * w + lim b.

Lemma lim_pos b : left_ b -> eps < lim b <= w.
Proof. unfold left_, lim. destruct T; lia. Qed.
Lemma lim_full b : left_ (b + 1) -> lim b = w.
Proof. unfold left_, lim. destruct T; lia. Qed.
Lemma until_lim b p : th_untilWindowEnd (TH T (b * w) p) w = lim b - p.
Proof. unfold th_untilWindowEnd, th_untilProgress, th_untilTime, lim. destruct T; cbn [th_max th_prog th_start]; lia. Qed.
Lemma until_n b n A t : 0 < n -> A <= b < A + n -> b * w <= t -> lim b - (t - b * w) <= th_untilWindowEnd (TH T (A * w) (t - A * w)) (n * w).
Proof.
  intros Hn HA Ht. assert ((b + 1) * w <= (A + n) * w) by (apply Z.mul_le_mono_nonneg_r; lia).
  unfold th_untilWindowEnd, th_untilProgress, th_untilTime, lim. destruct T; cbn [th_max th_prog th_start]; lia.
Qed.
Lemma complete_i b h : left_ b -> th_completeTimeWindow eps (TH T (b * w) (lim b)) w = Some h -> h = TH T (after b) 0.
Proof.
  intros L H. unfold th_completeTimeWindow, equals, after in *. cbn [th_prog th_start th_max] in H. destruct (Z.abs (lim b - w) <=? eps).
  - injection H as <-. f_equal. lia.
  - destruct (th_reachedEnd _ _); [|discriminate]. injection H as <-. reflexivity.
Qed.
(** the coupling goes on after the window, or it has ended *)
Lemma after_cases b : left_ b -> (left_ (b + 1) /\ after b = (b + 1) * w /\ lim b = w) \/ (exists t, T = Some t /\ t - eps <= after b <= t + eps /\ b * w + lim b <= after b).
Proof.
  unfold left_, after, lim. destruct T as [t|]; intros L.
  - destruct (Z_lt_le_dec eps (t - (b + 1) * w)).
    + left. replace (Z.min w (t - b * w)) with w by lia. rewrite Z.sub_diag. cbn. destruct (Z.leb_spec 0 eps); [auto|lia].
    + right. exists t. split; [reflexivity|]. destruct (Z.leb_spec (Z.abs (Z.min w (t - b * w) - w)) eps); lia.
  - left. rewrite Z.sub_diag. cbn. destruct (Z.leb_spec 0 eps); [auto|lia].
Qed.
Lemma after_le b : left_ b -> b * w + lim b <= after b.
Proof. intros L. pose proof (lim_pos b L). unfold after. destruct (_ <=? _); lia. Qed.
(** an explicit scheme at the end of the implicit scheme's window *)
Lemma reached_n b n A : 0 < n -> A <= b < A + n -> left_ b ->
  let h := TH T (A * w) (b * w + lim b - A * w) in
  th_reachedEndOfWindow eps h (n * w) = false -> left_ (b + 1) /\ b + 1 < A + n.
Proof.
  intros Hn HA L h H. pose proof (lim_pos b L) as P. unfold th_reachedEndOfWindow, equals in H. apply Z.leb_gt in H.
  unfold h, th_untilWindowEnd, th_untilProgress, th_untilTime in H. unfold left_, lim in *.
  destruct (Z.eq_dec (A + n) (b + 1)) as [Q|Q].
  - assert ((A + n) * w = (b + 1) * w) by congruence. destruct T; cbn [th_max th_prog th_start] in H; lia.
  - assert ((b + 2) * w <= (A + n) * w) by (apply Z.mul_le_mono_nonneg_r; lia). destruct T; cbn [th_max th_prog th_start] in H; [|split; [exact I|lia]]. lia.
Qed.
Lemma reached_done b n A h' : 0 < n -> A <= b < A + n -> left_ b ->
  let h := TH T (A * w) (b * w + lim b - A * w) in
  th_completeTimeWindow eps h (n * w) = Some h' -> 
  (left_ (b + 1) /\ A + n = b + 1 /\ h' = TH T ((b + 1) * w) 0) \/
  (exists t, T = Some t /\ Z.abs (t - after b) <= eps /\ Z.abs (th_time h' - after b) <= eps).
Proof.
  intros Hn HA L h H. pose proof (lim_pos b L) as P. unfold th_completeTimeWindow, equals in H. cbn [h th_prog th_start th_max] in H.
  destruct (Z.leb_spec (Z.abs (b * w + lim b - A * w - n * w)) eps) as [Q|Q].
  - injection H as <-. destruct (Z.eq_dec (A + n) (b + 1)) as [R|R].
    + assert (R' : (A + n) * w = (b + 1) * w) by congruence. destruct (after_cases b L) as [(L1 & A1 & _)|(t & E & A1 & A2)].
      * left. split; [exact L1|]. split; [exact R|]. f_equal. lia.
      * right. exists t. split; [exact E|]. split; [lia|]. unfold th_time, after. cbn [th_start th_prog].
        destruct (Z.leb_spec (Z.abs (lim b - w)) eps); lia.
    + exfalso. assert ((b + 2) * w <= (A + n) * w) by (apply Z.mul_le_mono_nonneg_r; lia). lia.
  - unfold h, th_reachedEnd in H. clear h. cbn [th_max] in H. destruct T as [t|] eqn:ET; [|discriminate]. unfold th_untilTime in H. cbn [th_start th_prog] in H.
    unfold equals in H. destruct (Z.leb_spec (Z.abs (- (A * w + (b * w + lim b - A * w) - t) - 0)) eps) as [R|R]; [|discriminate H]. injection H as <-.
    right. exists t. split; [reflexivity|]. unfold th_time. cbn [th_start th_prog]. unfold after. destruct (Z.leb_spec (Z.abs (lim b - w)) eps); [|lia].
    assert (lim b <= t - b * w) by (unfold lim; rewrite ET; lia). unfold left_ in L. rewrite ET in L. lia.
Qed.
End Arith.

Section P.
Context {V : Type}.
Variables (gnone vzero : V).
Notation st := (st (V:=V)).
Notation env := (env (V:=V)).
Notation prog := (proc (msg V)).
Notation cst := (cst (V:=V)).

(** * Loops over the explicit schemes *)
Section Each.
Variables (f : nat -> scheme -> st -> prog st).
Lemma each_does (P Q : scheme -> st -> Prop) :
  (forall m c s tr s', P c s -> does (f m c s) tr s' -> Q c s') ->
  forall cs ss n tr ss', Forall2 P cs ss -> does (each f n cs ss) tr ss' -> Forall2 Q cs ss'.
Proof.
  intros H. induction cs as [|c cs IH]; intros ss n tr ss' F D; inversion F as [|c0 s0 cs0 ss0 Pc Pr]; subst; cbn [each] in D.
  - destruct D as (_ & <-). constructor.
  - db D t1 t2 s' D1. db D t3 t4 r D2. cbn in D. destruct D as (_ & <-). constructor; eauto.
Qed.
Lemma each_starts (P : scheme -> st -> Prop) (R : scheme -> io (msg V) -> Prop) :
  (forall m c s tr, P c s -> starts (f m c s) tr -> forall e, In e tr -> R c e) ->
  forall cs ss n tr, Forall2 P cs ss -> starts (each f n cs ss) tr -> forall e, In e tr -> exists c, In c cs /\ R c e.
Proof.
  intros H. induction cs as [|c cs IH]; intros ss n tr F S e He; inversion F as [|c0 s0 cs0 ss0 Pc Pr]; subst; cbn [each] in S.
  - destruct tr; contradiction.
  - apply starts_bind in S. destruct S as [S|(t1 & t2 & s' & -> & D & S)].
    + exists c. split; [left; reflexivity|eapply H; eauto].
    + rewrite in_app_iff in He. destruct He as [He|He].
      * exists c. split; [left; reflexivity|]. eapply H; eauto. eapply does_starts; eauto.
      * apply starts_bind in S. destruct S as [S|(t3 & t4 & r & -> & D1 & S)].
        -- destruct (IH _ _ _ Pr S e He) as (c' & I & R'). exists c'. split; [right; exact I|exact R'].
        -- assert (t4 = []) by (destruct t4; [reflexivity|contradiction]). subst t4. rewrite app_nil_r in He.
           destruct (IH _ _ _ Pr (does_starts _ _ _ D1) e He) as (c' & I & R'). exists c'. split; [right; exact I|exact R'].
Qed.
Lemma each_quiet (P : scheme -> st -> Prop) : (forall m c s tr, P c s -> starts (f m c s) tr -> tr = []) ->
  forall cs ss n tr, Forall2 P cs ss -> starts (each f n cs ss) tr -> tr = [].
Proof.
  intros H cs ss n tr F S. destruct tr as [|e tr]; [reflexivity|].
  destruct (each_starts P (fun _ _ => False)) with (cs := cs) (ss := ss) (n := n) (tr := e :: tr) (e := e) as (? & _ & []); auto; [|left; reflexivity].
  intros m c s tr0 Pc S0 e0 He. apply H in S0; [subst; destruct He|exact Pc].
Qed.
Lemma silent_each : (forall m c s, silent (f m c s)) -> forall cs ss n, silent (each f n cs ss).
Proof. intros H. induction cs as [|c cs IH]; intros [|s ss] n; cbn [each]; try exact I. apply silent_bind; [apply H|]. intros. apply silent_bind; [apply IH|]. intros; exact I. Qed.
End Each.
Lemma Forall2_impl {A B} (P Q : A -> B -> Prop) l r : (forall a b, P a b -> Q a b) -> Forall2 P l r -> Forall2 Q l r.
Proof. intros H. induction 1; constructor; auto. Qed.
Lemma Forall2_mapr {A B} (P : A -> B -> Prop) (g : B -> B) l r : (forall a b, P a b -> P a (g b)) -> Forall2 P l r -> Forall2 P l (map g r).
Proof. intros H. induction 1; constructor; auto. Qed.
Lemma Forall2_const {A B} (P : A -> B -> Prop) (g : A -> B) (l : list A) : (forall a, In a l -> P a (g a)) -> Forall2 P l (map g l).
Proof. induction l; cbn; constructor; auto. Qed.

(** what does not happen before the end of a window *)
Lemma first1_quiet E k c s tr : reachedEndOfTimeWindow c s = false -> starts (first1 gnone E (k, c) s) tr -> tr = [].
Proof.
  intros R S. unfold first1, firstExchange in S. cbn [fst snd] in S. apply starts_bind in S. destruct S as [S|(t1 & t2 & a & -> & D & S)].
  - eapply silent_starts; [apply silent_complete|exact S].
  - pose proof (silent_does _ _ _ (silent_complete s) D) as (_ & ->). apply does_returns in D. apply check_spec in D. destruct D as (-> & _).
    match type of S with context [reachedEndOfTimeWindow c ?x] => change (reachedEndOfTimeWindow c x) with (reachedEndOfTimeWindow c s) in S end. rewrite R in S.
    destruct t2; [reflexivity|contradiction].
Qed.
Lemma second1_quiet E k c s tr : reachedEndOfTimeWindow c s = false -> starts (second1 gnone E (k, c) s) tr -> tr = [].
Proof.
  intros R S. unfold second1, secondExchange in S. cbn [fst snd] in S. apply starts_bind in S. destruct S as [S|(t1 & t2 & a & -> & D & S)].
  - eapply silent_starts; [apply silent_complete|exact S].
  - pose proof (silent_does _ _ _ (silent_complete s) D) as (_ & ->). apply does_returns in D. apply check_spec in D. destruct D as (-> & _).
    apply starts_bind in S. destruct S as [S|(t3 & t4 & u & -> & D1 & S)].
    + eapply silent_starts; [|exact S]. apply silent_assert.
    + pose proof (silent_does _ _ _ (silent_assert _ _) D1) as (_ & ->).
      match type of S with context [reachedEndOfTimeWindow c ?x] => change (reachedEndOfTimeWindow c x) with (reachedEndOfTimeWindow c s) in S end. rewrite R in S.
      destruct t4; [reflexivity|contradiction].
Qed.
Lemma does_add c dt (s s' : st) tr : does (addComputedTime c dt s) tr s' -> tr = [] /\ s' = set_s_time (th_progressBy dt (s_time s)) s /\ isCouplingOngoing c s = true.
Proof.
  intros D. pose proof (silent_does _ _ _ (silent_add c dt s) D) as (_ & ->). split; [reflexivity|]. unfold addComputedTime in D.
  apply does_returns in D. rb D. rb D. cbn in D. apply ret_assert in H. split; [congruence|exact H].
Qed.

(** * The composition *)
Section Compat.
Variables (eps w : Z) (T : option Z) (cc : cconf) (ki : kind) (ci : conf).
Hypothesis Heps : 0 <= eps < w.
Hypothesis Hmax : forall t, T = Some t -> eps < t.
Hypothesis Hi : cc_impl cc = Some (ki, ci).
Hypothesis Himp : c_implicit ci = true.
Hypothesis Hfix : fixed ki ci w.
Hypothesis Hie : c_eps ci = eps.
Hypothesis HiT : c_maxTime ci = T.
Hypothesis Hsome : cc_expl cc <> [].
Hypothesis Hex : forall k c, In (k, c) (cc_expl cc) -> c_implicit c = false /\ c_eps c = eps /\ c_maxTime c = T /\ exists n, 0 < n /\ fixed k c (n * w).
Notation lim := (lim w T).
Notation left_ := (left_ eps w T).
Notation after := (after eps w T).

(** the implicit scheme within the [b]-th window *)
Definition im_at (b p : Z) (i : st) : Prop := s_time i = TH T (b * w) p /\ s_windows i = b + 1 /\ sized w i.
(** an explicit scheme in the [a]-th of its windows, which contains the [b]-th one *)
Definition ex_base (b n a : Z) (c : scheme) (e : st) : Prop :=
  0 < n /\ fixed (fst c) (snd c) (n * w) /\ c_implicit (snd c) = false /\ c_eps (snd c) = eps /\ a * n <= b < a * n + n /\ sized (n * w) e.
Definition ex_at (b t : Z) (c : scheme) (e : st) : Prop :=
  exists n a, ex_base b n a c e /\ s_time e = TH T (a * n * w) (t - a * n * w) /\ s_windows e = a + 1.
(** the same after firstExchange *)
Definition ex_mid (b t : Z) (c : scheme) (e : st) : Prop :=
  exists n a, ex_base b n a c e /\ s_time e = TH T (a * n * w) (t - a * n * w) /\ s_compl e = false /\
    s_windows e = a + 1 + (if reachedEndOfTimeWindow (snd c) e then 1 else 0).
Definition ex_end (t : Z) (c : scheme) (e : st) : Prop :=
  Z.abs (timeOf e - t) <= eps /\ sized (match c_tws (snd c) with Some x => x | None => 0 end) e.
Definition ex_fin (b t : Z) (c : scheme) (e : st) : Prop := 
  Z.abs (timeOf e - t) <= eps /\ (c_tws (snd c) = Some w -> s_windows e = b + 1).

Lemma im_reached b p i : im_at b p i -> reachedEndOfTimeWindow ci i = (Z.abs (lim b - p) <=? eps).
Proof.
  intros (A & _ & S & _). unfold reachedEndOfTimeWindow. rewrite S, A. unfold th_reachedEndOfWindow. rewrite until_lim by exact Heps. unfold equals. rewrite Hie, Z.sub_0_r. reflexivity.
Qed.
Lemma ex_early b p c e : eps < lim b - p -> 0 <= p -> ex_at b (b * w + p) c e -> reachedEndOfTimeWindow (snd c) e = false.
Proof.
  intros Hp Hp0 (n & a & (Hn & F & I & Ec & A & S & _) & Te & _). unfold reachedEndOfTimeWindow. rewrite S, Te. unfold th_reachedEndOfWindow, equals. rewrite Ec. apply Z.leb_gt.
  pose proof (until_n eps w T Heps b n (a * n) (b * w + p) Hn A ltac:(lia)) as Q. lia.
Qed.
(** steps *)
Lemma ex_step b t dt c e : ex_at b t c e -> ex_at b (t + dt) c (set_s_time (th_progressBy dt (s_time e)) e).
Proof.
  intros (n & a & B & Te & W). exists n, a. split; [exact B|]. split; [|exact W]. cbn. rewrite Te. unfold th_progressBy. cbn. f_equal. lia.
Qed.
Lemma ex_first (E : env) b t c e tr e' : ex_at b t c e -> does (first1 gnone E c e) tr e' -> ex_mid b t c e'.
Proof.
  intros (n & a & (Hn & F & I & Ec & A & S) & Te & W) D. destruct c as (k, c). cbn [fst snd] in *. pose proof (first1_ok gnone _ _ _ _ _ _ _ F S D) as (T1 & S1 & C1 & X).
  exists n, a. split; [unfold ex_base; auto 10|]. split; [congruence|]. split; [exact C1|]. cbn [snd]. rewrite (reached_eq c e e') by (destruct S, S1; congruence).
  destruct (reachedEndOfTimeWindow c e); [lia|]. destruct X; lia.
Qed.
Lemma ex_first_early (E : env) b p c e tr e' : eps < lim b - p -> 0 <= p -> ex_at b (b * w + p) c e -> does (first1 gnone E c e) tr e' -> ex_at b (b * w + p) c e'.
Proof.
  intros Hp Hp0 X D. pose proof (ex_early b p c e Hp Hp0 X) as R. destruct X as (n & a & (Hn & F & I & Ec & A & S) & Te & W). destruct c as (k, c). cbn [fst snd] in *.
  pose proof (first1_ok gnone _ _ _ _ _ _ _ F S D) as (T1 & S1 & C1 & X). rewrite R in X. destruct X as (X & _).
  exists n, a. split; [unfold ex_base; auto 10|]. split; congruence.
Qed.
Lemma ex_mid_early b p c e : eps < lim b - p -> 0 <= p -> ex_mid b (b * w + p) c e -> ex_at b (b * w + p) c e /\ reachedEndOfTimeWindow (snd c) e = false.
Proof.
  intros Hp Hp0 (n & a & B & Te & C & W). assert (R : reachedEndOfTimeWindow (snd c) e = false).
  { destruct B as (Hn & F & I & Ec & A & S & _). unfold reachedEndOfTimeWindow. rewrite S, Te. unfold th_reachedEndOfWindow, equals. rewrite Ec. apply Z.leb_gt.
    pose proof (until_n eps w T Heps b n (a * n) (b * w + p) Hn A ltac:(lia)) as Q. lia. }
  split; [|exact R]. exists n, a. split; [exact B|]. split; [exact Te|]. rewrite R in W. lia.
Qed.
Lemma ex_second_early (E : env) b p c e tr e' : eps < lim b - p -> 0 <= p -> ex_mid b (b * w + p) c e -> does (second1 gnone E c e) tr e' -> ex_at b (b * w + p) c e'.
Proof.
  intros Hp Hp0 X D. destruct (ex_mid_early b p c e Hp Hp0 X) as ((n & a & (Hn & F & I & Ec & A & S) & Te & W) & R). destruct c as (k, c). cbn [fst snd] in *.
  pose proof (second1_ok gnone _ _ _ _ _ _ _ F S D) as (S1 & C1 & Y). rewrite R in Y. destruct Y as (Y & _ & Y' & _).
  exists n, a. split; [unfold ex_base; auto 10|]. split; congruence.
Qed.
(** at the end of the implicit scheme's window *)
Lemma ex_second (E : env) b c e tr e' : left_ b -> ex_mid b (b * w + lim b) c e -> does (second1 gnone E c e) tr e' ->
  (left_ (b + 1) /\ ex_at (b + 1) ((b + 1) * w) c e') \/ ((exists t, T = Some t /\ Z.abs (t - after b) <= eps) /\ ex_fin (b + 1) (after b) c e').
Proof.
  intros L (n & a & (Hn & F & I & Ec & A & S) & Te & C & W) D. destruct c as (k, c). cbn [fst snd] in *.
  pose proof (second1_ok gnone _ _ _ _ _ _ _ F S D) as (S1 & _ & Y).
  pose proof F as (_ & _ & Ft). 
  assert (N : c_tws c = Some w -> n = 1). { intros Q. rewrite Q in Ft. injection Ft as Ft. assert (n * w = 1 * w) by lia. apply Z.mul_cancel_r in H; lia. }
  destruct (reachedEndOfTimeWindow c e) eqn:R.
  - destruct Y as (Y & Z). rewrite I in Y. cbn in Y. rewrite Y in Z. destruct Z as (Z & Z'). rewrite Ec, Te in Z.
    destruct (reached_done eps w T Heps b n (a * n) _ Hn A L Z) as [(L1 & Q1 & Q2)|(t & Q1 & Q2 & Q3)].
    + left. split; [exact L1|]. exists n, (a + 1). split; [unfold ex_base; cbn [fst snd]; split; [exact Hn|]; split; [exact F|]; split; [exact I|]; split; [exact Ec|]; split; [lia|exact S1]|].
      split; [|lia]. rewrite Q2. replace ((a + 1) * n) with (b + 1) by lia. f_equal. lia.
    + right. split; [exists t; auto|]. split; [exact Q3|]. intros Q. cbn [snd] in Q. apply N in Q. subst n. rewrite Z', W. lia.
  - destruct Y as (Y & _ & Y' & _). assert (R' : th_reachedEndOfWindow eps (TH T (a * n * w) (b * w + lim b - a * n * w)) (n * w) = false).
    { unfold reachedEndOfTimeWindow in R. destruct S as (S & _). rewrite S, Te, Ec in R. exact R. }
    destruct (reached_n eps w T Heps b n (a * n) Hn A L R') as (L1 & Q). left. split; [exact L1|]. exists n, a.
    split; [unfold ex_base; cbn [fst snd]; split; [exact Hn|]; split; [exact F|]; split; [exact I|]; split; [exact Ec|]; split; [lia|exact S1]|]. split; [|lia]. rewrite Y, Te. f_equal.
    rewrite (lim_full eps w T Heps b L1). lia.
Qed.

(** states between two calls *)
Inductive CInv (s : cst) : Prop :=
| ci_going b p i : cx_impl s = Some i -> left_ b -> 0 <= p < lim b - eps -> im_at b p i ->
    Forall2 (ex_at b (if cx_hold s then b * w + lim b else b * w + p)) (cc_expl cc) (cx_expl s) ->
    (cx_hold s = true -> s_compl i = false) -> CInv s
| ci_done b i t : cx_impl s = Some i -> cx_hold s = false -> T = Some t -> th_max (s_time i) = T -> Z.abs (t - timeOf i) <= eps ->
    s_windows i = b + 1 -> Forall2 (ex_fin b (timeOf i)) (cc_expl cc) (cx_expl s) -> CInv s.
(** states of advance() before the exchange *)
Definition Mid (s : cst) (b p : Z) (i : st) : Prop :=
  cx_impl s = Some i /\ left_ b /\ 0 <= p /\ (p < lim b - eps \/ (p = lim b /\ cx_hold s = true)) /\ im_at b p i /\
  Forall2 (ex_at b (if cx_hold s then b * w + lim b else b * w + p)) (cc_expl cc) (cx_expl s).

Lemma least_fold l : forall a, match fold_left (fun a b => match a, b with None, x => x | x, None => x | Some x, Some y => Some (Z.min x y) end) l a with
  | Some m => (a = Some m \/ In (Some m) l) /\ (forall x, a = Some x \/ In (Some x) l -> m <= x)
  | None => a = None /\ forall x, ~ In (Some x) l end.
Proof.
  induction l as [|o l IH]; intros a; cbn [fold_left].
  - destruct a as [a|]; [|split; [reflexivity|auto]]. split; [auto|]. intros x [E|[]]. injection E as ->. lia.
  - specialize (IH (match a, o with None, x => x | x, None => x | Some x, Some y => Some (Z.min x y) end)).
    destruct (fold_left _ l _) as [m|].
    + destruct IH as (A & B). split.
      * destruct A as [A|A]; [|right; right; exact A]. destruct a as [x|], o as [y|]; [|left; exact A|right; left; exact A|discriminate].
        injection A as <-. destruct (Z.min_spec x y) as [(_ & ->)|(_ & ->)]; [left; reflexivity|right; left; reflexivity].
      * intros x Hx. destruct Hx as [Hx|[Hx|Hx]].
        -- subst a. destruct o as [y|]; [|apply B; auto]. specialize (B (Z.min x y) (or_introl eq_refl)). lia.
        -- subst o. destruct a as [y|]; [|apply B; auto]. specialize (B (Z.min y x) (or_introl eq_refl)). lia.
        -- apply B. auto.
    + destruct IH as (A & B). destruct a, o; try discriminate. split; [reflexivity|]. intros x [E|E]; [discriminate|]. apply (B x E).
Qed.
Lemma leastOf_in l x : In (Some x) l -> exists m, leastOf l = Some m /\ m <= x /\ In (Some m) l.
Proof.
  intros H. pose proof (least_fold l None) as F. unfold leastOf. destruct (fold_left _ l None) as [m|].
  - destruct F as ([F|F] & G); [discriminate|]. exists m. auto.
  - destruct F as (_ & F). destruct (F x H).
Qed.
Lemma in_combine_2 {A B} (P : A -> B -> Prop) l r a b : Forall2 P l r -> In (a, b) (combine l r) -> P a b.
Proof. induction 1; cbn; [intros []|]. intros [E|E]; [injection E as -> ->; assumption|auto]. Qed.

Lemma max_step s b p i dt : cx_impl s = Some i -> left_ b -> 0 <= p < lim b - eps -> im_at b p i ->
  Forall2 (ex_at b (if cx_hold s then b * w + lim b else b * w + p)) (cc_expl cc) (cx_expl s) ->
  cOngoing cc s = true -> 0 < dt -> exact_step eps cc s dt -> dt = lim b - p \/ dt < lim b - p - eps.
Proof.
  intros Ei L P Hm F O D X. unfold exact_step, cMaxTimeStepSize in X. unfold cOngoing in O. rewrite Hi, Ei in O. cbn [snd] in O.
  assert (Mi : getMaxTimeStepSize ci i = Some (lim b - p)).
  { destruct Hm as (Ht & _ & S & _). unfold getMaxTimeStepSize. rewrite O, S, Ht, until_lim by exact Heps. reflexivity. }
  match type of X with context [leastOf ?y] => set (l := y) in X end. assert (I0 : In (Some (lim b - p)) l).
  { unfold l, active. rewrite Hi, Ei. cbn [map fst snd]. left. exact Mi. }
  destruct (leastOf_in l _ I0) as (m & El & Hle & Him). rewrite El in X.
  assert (m = lim b - p \/ m = 0).
  { unfold l, active in Him. rewrite Hi, Ei in Him. cbn [map fst snd] in Him. destruct Him as [Him|Him]; [left; congruence|].
    destruct (cx_hold s); [destruct Him|]. apply in_map_iff in Him. destruct Him as ((c & e) & Eg & Ic). cbn [fst snd] in Eg.
    pose proof (in_combine_2 _ _ _ _ _ F Ic) as (n & a & (Hn & Fx & I & Ec & A & S & _) & Te & W).
    unfold getMaxTimeStepSize in Eg. destruct (isCouplingOngoing (snd c) e); [|right; congruence].
    rewrite S, Te in Eg. injection Eg as Eg. pose proof (until_n eps w T Heps b n (a * n) (b * w + p) Hn A ltac:(lia)). left. lia. }
  lia.
Qed.

Lemma add_ok dt s tr r : CInv s -> cOngoing cc s = true -> 0 < dt -> exact_step eps cc s dt -> does (cAddComputedTime cc dt s) tr r ->
  tr = [] /\ exists b p i, Mid (fst r) b p i /\ (cx_hold (fst r) = false -> cx_hold s = false).
Proof.
  intros J O D X H. destruct J as [b p i Ei L P Hm F C|b i t Ei Eh ET Em Ht W F].
  2:{ exfalso. unfold cOngoing in O. rewrite Hi, Ei in O. cbn [snd] in O. unfold isCouplingOngoing in O. apply andb_true_iff in O. destruct O as (_ & O).
      apply negb_true_iff in O. unfold th_reachedEnd in O. rewrite Em, ET in O. unfold equals, th_untilTime in O. apply Z.leb_gt in O. unfold timeOf, th_time in Ht. rewrite Hie in O. lia. }
  pose proof (max_step s b p i dt Ei L P Hm F O D X) as Hd. unfold cAddComputedTime, isImplicit in H. rewrite Hi in H. cbn [negb] in H.
  db H t1 t2 s1 D1. unfold onImpl in D1. rewrite Hi, Ei in D1. db D1 t3 t4 i' D2. apply does_add in D2. destruct D2 as (-> & -> & _). cbn [snd app] in *.
  cbn in D1. destruct D1 as (-> & <-). cbn [cx_hold cx_impl cx_expl app] in *.
  assert (Hm' : im_at b (p + dt) (set_s_time (th_progressBy dt (s_time i)) i)).
  { destruct Hm as (Q1 & Q2 & Q3). split; [cbn; rewrite Q1; reflexivity|]. split; [exact Q2|exact Q3]. }
  set (i' := set_s_time (th_progressBy dt (s_time i)) i) in *. destruct (cx_hold s) eqn:Eh.
  - destruct H as (-> & <-). split; [reflexivity|]. exists b, (p + dt), i'. cbn [fst cx_hold]. split; [|discriminate]. unfold Mid. cbn [cx_impl cx_hold cx_expl].
    split; [reflexivity|]. split; [exact L|]. split; [lia|]. split; [|split; [exact Hm'|exact F]]. destruct Hd; [right; split; [lia|reflexivity]|left; lia].
  - db H t3 t4 s2 D2. unfold onExpl in D2. db D2 t5 t6 es De. cbn in D2. destruct D2 as (-> & <-). destruct H as (-> & <-).
    assert (F' : Forall2 (ex_at b (b * w + p + dt)) (cc_expl cc) es).
    { revert De. cbn [cx_expl]. apply each_does with (P := ex_at b (b * w + p)); [|exact F]. intros m c x tr0 x' Px Dx. apply does_add in Dx. destruct Dx as (_ & -> & _). apply ex_step. exact Px. }
    assert (t5 = []). { eapply silent_does; [|exact De]. apply silent_each. intros. apply silent_add. } subst t5. split; [reflexivity|].
    unfold ofImpl. rewrite Hi. cbn [cx_impl cx_expl cx_hold fst]. unfold atEnd. cbn [snd]. rewrite (im_reached _ _ _ Hm').
    pose proof (lim_pos eps w T Heps b L). exists b, (p + dt), i'. destruct (Z.leb_spec (Z.abs (lim b - (p + dt))) eps) as [Q|Q].
    + assert (Hd' : dt = lim b - p) by lia. cbn [setHold cx_hold cx_impl cx_expl fst]. split; [|discriminate]. unfold Mid. cbn [setHold cx_hold cx_impl cx_expl].
      split; [reflexivity|]. split; [exact L|]. split; [lia|]. split; [right; split; [lia|reflexivity]|]. split; [exact Hm'|].
      replace (b * w + lim b) with (b * w + p + dt) by lia. exact F'.
    + cbn [cx_hold cx_impl cx_expl fst]. split; [|auto]. unfold Mid. cbn [cx_hold cx_impl cx_expl].
      split; [reflexivity|]. split; [exact L|]. split; [lia|]. split; [left; lia|]. split; [exact Hm'|].
      replace (b * w + (p + dt)) with (b * w + p + dt) by lia. exact F'.
Qed.

Lemma ex_time b t c e : ex_at b t c e -> timeOf e = t.
Proof. intros (n & a & _ & Te & _). unfold timeOf, th_time. rewrite Te. cbn. lia. Qed.
Lemma im_time b p i : im_at b p i -> timeOf i = b * w + p.
Proof. intros (Te & _). unfold timeOf, th_time. rewrite Te. reflexivity. Qed.

Section Exchange.
Variable Es : nat -> env.
(** firstExchange *)
Lemma first_does s b p i tr s3 : Mid s b p i -> does (cFirstExchange gnone Es cc s) tr s3 ->
  exists i3, does (first1 gnone (Es 0%nat) (ki, ci) i) tr i3 /\ cx_impl s3 = Some i3 /\ cx_hold s3 = cx_hold s /\
    Forall2 (ex_at b (if cx_hold s then b * w + lim b else b * w + p)) (cc_expl cc) (cx_expl s3).
Proof.
  intros (Ei & L & Hp & Hc & Hm & F) H. unfold cFirstExchange, isImplicit in H. rewrite Hi in H. cbn [negb] in H. db H t1 t2 s1 D1.
  unfold onImpl in D1. rewrite Hi, Ei in D1. db D1 t3 t4 i3 D2. cbn in D1. destruct D1 as (-> & <-). rewrite app_nil_r. cbn [cx_hold] in H.
  exists i3. destruct (cx_hold s) eqn:Eh.
  - destruct H as (-> & <-). rewrite app_nil_r. cbn. auto.
  - unfold onExpl in H. db H t5 t6 es De. cbn in H. destruct H as (-> & <-). cbn [cx_expl] in De.
    assert (Hp' : eps < lim b - p) by (destruct Hc as [Hc|(_ & Hc)]; [lia|discriminate]).
    assert (t5 = []). { eapply each_quiet; [|exact F|eapply does_starts, De]. 
      intros m (k & c) x tr0 Px S0. apply first1_quiet in S0; [exact S0|]. change c with (snd (k, c)). eapply ex_early; [exact Hp'|exact Hp|exact Px]. }
    subst t5. rewrite !app_nil_r. cbn [cx_impl cx_hold cx_expl]. split; [exact D2|]. split; [reflexivity|]. split; [reflexivity|].
    revert De. apply each_does with (P := ex_at b (b * w + p)); [|exact F]. intros m c x tr0 x' Px Dx. eapply ex_first_early; eauto.
Qed.
Lemma first_starts s b p i tr : Mid s b p i -> starts (cFirstExchange gnone Es cc s) tr -> starts (first1 gnone (Es 0%nat) (ki, ci) i) tr.
Proof.
  intros (Ei & L & Hp & Hc & Hm & F) H. unfold cFirstExchange, isImplicit in H. rewrite Hi in H. cbn [negb] in H.
  assert (A : forall t, starts (onImpl (first1 gnone (Es 0%nat)) cc s) t -> starts (first1 gnone (Es 0%nat) (ki, ci) i) t).
  { intros t H0. unfold onImpl in H0. rewrite Hi, Ei in H0. apply starts_bind in H0. destruct H0 as [H0|(t1 & t2 & a & -> & D & H0)]; [exact H0|].
    destruct t2; [|contradiction]. rewrite app_nil_r. eapply does_starts, D. }
  apply starts_bind in H. destruct H as [H|(t1 & t2 & s1 & -> & D & H)]; [apply A; exact H|].
  assert (t2 = []); [|subst t2; rewrite app_nil_r; apply A; eapply does_starts, D].
  unfold onImpl in D. rewrite Hi, Ei in D. db D t3 t4 i3 D2. cbn in D. destruct D as (-> & <-). cbn [cx_hold] in H.
  destruct (cx_hold s) eqn:Eh; [destruct t2; [reflexivity|contradiction]|].
  assert (Hp' : eps < lim b - p) by (destruct Hc as [Hc|(_ & Hc)]; [lia|discriminate]).
  unfold onExpl in H. apply starts_bind in H. cbn [cx_expl] in H.
  assert (B : forall t, starts (each (fun n => first1 gnone (Es n)) 1 (cc_expl cc) (cx_expl s)) t -> t = []).
  { intros t S0. eapply each_quiet; [|exact F|exact S0].
    intros m (k & c) x tr0 Px S1. apply first1_quiet in S1; [exact S1|]. change c with (snd (k, c)). eapply ex_early; [exact Hp'|exact Hp|exact Px]. }
  destruct H as [H|(t5 & t6 & es & -> & D & H)]; [apply B, H|]. destruct t6; [|contradiction]. rewrite app_nil_r. eapply B, does_starts, D.
Qed.

(** state of the implicit scheme after firstExchange and secondExchange *)
Lemma im_first b p i tr i3 : im_at b p i -> does (first1 gnone (Es 0%nat) (ki, ci) i) tr i3 ->
  s_time i3 = TH T (b * w) p /\ sized w i3 /\ s_compl i3 = false /\ s_windows i3 = b + 1 + (if Z.abs (lim b - p) <=? eps then 1 else 0).
Proof.
  intros Hm D. pose proof (im_reached _ _ _ Hm) as R. destruct Hm as (A & B & S). pose proof (first1_ok gnone _ _ _ _ _ _ _ Hfix S D) as (T1 & S1 & C1 & X).
  rewrite R in X. split; [congruence|]. split; [exact S1|]. split; [exact C1|]. destruct (_ <=? _); [lia|]. destruct X. lia.
Qed.
Lemma im_second b p i3 tr i4 : left_ b -> p < lim b - eps \/ p = lim b -> 
  s_time i3 = TH T (b * w) p -> sized w i3 -> s_windows i3 = b + 1 + (if Z.abs (lim b - p) <=? eps then 1 else 0) ->
  does (second1 gnone (Es 0%nat) (ki, ci) i3) tr i4 ->
  (p < lim b - eps /\ tr = [] /\ im_at b p i4 /\ s_compl i4 = false) \/
  (p = lim b /\ s_compl i4 = false /\ im_at b 0 i4) \/
  (p = lim b /\ s_compl i4 = true /\ s_time i4 = TH T (after b) 0 /\ s_windows i4 = b + 2 /\ sized w i4).
Proof.
  intros L Hp Te S W D. pose proof (second1_ok gnone _ _ _ _ _ _ _ Hfix S D) as (S1 & _ & Y).
  assert (R : reachedEndOfTimeWindow ci i3 = (Z.abs (lim b - p) <=? eps)).
  { unfold reachedEndOfTimeWindow. destruct S as (S & _). rewrite S, Te. unfold th_reachedEndOfWindow. rewrite until_lim by exact Heps. unfold equals. rewrite Hie, Z.sub_0_r. reflexivity. }
  rewrite R in Y. destruct (Z.leb_spec (Z.abs (lim b - p)) eps) as [Q|Q].
  - right. assert (p = lim b) by lia. subst p. destruct Y as (_ & Y). destruct (s_compl i4) eqn:C4.
    + right. destruct Y as (Y & Y'). rewrite Te, Hie in Y. apply complete_i in Y; [|exact L]. split; [reflexivity|]. split; [reflexivity|]. split; [exact Y|]. split; [lia|exact S1].
    + left. destruct Y as (Y & Y'). split; [reflexivity|]. split; [reflexivity|]. split; [rewrite Y, Te; reflexivity|]. split; [lia|exact S1].
  - left. destruct Y as (Y1 & Y2 & Y3 & Y4). split; [lia|]. split; [exact Y4|]. split; [|exact Y2]. split; [congruence|]. split; [lia|exact S1].
Qed.
Lemma front_time s b t e tr : Forall2 (ex_at b t) (cc_expl cc) (cx_expl s) -> does (front s) tr e -> tr = [] /\ timeOf e = t.
Proof.
  intros F H. unfold front in H. destruct F as [|c x cs xs Px Pr]; [destruct H|]. cbn in H. destruct H as (-> & <-). split; [reflexivity|]. eapply ex_time, Px.
Qed.
Lemma silent_front (s : cst) : silent (front s).
Proof. unfold front. destruct (cx_expl s); exact I. Qed.

Lemma second_does s b p i tr1 s3 i3 tr s4 : Mid s b p i -> does (first1 gnone (Es 0%nat) (ki, ci) i) tr1 i3 -> cx_impl s3 = Some i3 -> cx_hold s3 = cx_hold s ->
  Forall2 (ex_at b (if cx_hold s then b * w + lim b else b * w + p)) (cc_expl cc) (cx_expl s3) ->
  does (cSecondExchange gnone Es cc s3) tr s4 -> CInv s4.
Proof.
  intros (Ei & L & Hp & Hc & Hm & _) D1 Ei3 Eh3 F H. pose proof (im_first _ _ _ _ _ Hm D1) as (A1 & A2 & A3 & A4).
  pose proof (lim_pos eps w T Heps b L) as Lp.
  unfold cSecondExchange, isImplicit in H. rewrite Hi in H. cbn [negb] in H. db H t1 t2 s1 D2. unfold onImpl in D2. rewrite Hi, Ei3 in D2. db D2 t3 t4 i4 D3. cbn in D2. destruct D2 as (-> & <-).
  db H t5 t6 e D4. eapply front_time in D4; [|exact F]. destruct D4 as (-> & Ht). cbn [cx_impl cx_hold cx_expl] in H. rewrite Ht in H. rewrite Eh3 in H.
  assert (Hc' : p < lim b - eps \/ p = lim b) by tauto.
  destruct (im_second b p i3 _ i4 L Hc' A1 A2 A4 D3) as [(Q & _ & B & C4)|[(Q & C4 & B)|(Q & C4 & B & B' & S4)]].
  - rewrite (im_time _ _ _ B) in H. destruct (cx_hold s) eqn:Eh.
    + destruct (Z.ltb_spec (b * w + p) (b * w + lim b)); [|lia]. db H t7 t8 u D5. destruct H as (_ & <-).
      eapply ci_going with (b := b) (p := p) (i := i4); cbn [cx_impl cx_hold cx_expl]; auto; try lia.
    + rewrite Z.ltb_irrefl in H. db H t7 t8 s5 D5. db H t9 t10 s6 D6. cbn in H. destruct H as (_ & <-).
      unfold onExpl in D5, D6. db D5 t11 t12 es De. cbn in D5. destruct D5 as (_ & <-). db D6 t13 t14 es' De'. cbn in D6. destruct D6 as (_ & <-). cbn [cx_expl cx_impl cx_hold] in *.
      eapply ci_going with (b := b) (p := p) (i := i4); cbn [cx_impl cx_hold cx_expl setHold]; auto; try lia.
      assert (F1 : Forall2 (ex_mid b (b * w + p)) (cc_expl cc) es).
      { revert De. apply each_does with (P := ex_at b (b * w + p)); [|exact F]. intros m c x tr0 x' Px Dx. eapply ex_first; eauto. }
      revert De'. apply each_does with (P := ex_mid b (b * w + p)); [|exact F1]. intros m c x tr0 x' Px Dx. eapply ex_second_early; eauto; lia.
  - assert (Eh : cx_hold s = true) by (destruct Hc as [Hc|(_ & Hc)]; [lia|exact Hc]). rewrite Eh in *. rewrite (im_time _ _ _ B) in H.
    destruct (Z.ltb_spec (b * w + 0) (b * w + lim b)); [|lia]. db H t7 t8 u D5. destruct H as (_ & <-).
    eapply ci_going with (b := b) (p := 0) (i := i4); cbn [cx_impl cx_hold cx_expl]; auto; try lia.
  - assert (Eh : cx_hold s = true) by (destruct Hc as [Hc|(_ & Hc)]; [lia|exact Hc]). rewrite Eh in *.
    assert (Ti : timeOf i4 = after b) by (unfold timeOf, th_time; rewrite B; cbn; lia). rewrite Ti in H.
    destruct (Z.ltb_spec (after b) (b * w + lim b)) as [X|_]; [pose proof (after_le eps w T Heps b L); lia|].
    db H t7 t8 s5 D5. db H t9 t10 s6 D6. cbn in H. destruct H as (_ & <-).
    unfold onExpl in D5, D6. db D5 t11 t12 es De. cbn in D5. destruct D5 as (_ & <-). db D6 t13 t14 es' De'. cbn in D6. destruct D6 as (_ & <-). cbn [cx_expl cx_impl cx_hold] in *.
    assert (F1 : Forall2 (ex_mid b (b * w + lim b)) (cc_expl cc) es).
    { revert De. apply each_does with (P := ex_at b (b * w + lim b)); [|exact F]. intros m c x tr0 x' Px Dx. eapply ex_first; eauto. }
    destruct (after_cases eps w T Heps b L) as [(L1 & E1 & _)|(t & ET & E1 & _)].
    + eapply ci_going with (b := b + 1) (p := 0) (i := i4); cbn [cx_impl cx_hold cx_expl setHold]; auto; [|split; [rewrite B, E1; reflexivity|split; [lia|exact S4]]| |discriminate].
      * pose proof (lim_pos eps w T Heps (b + 1) L1). lia.
      * revert De'. rewrite Z.add_0_r. apply each_does with (P := ex_mid b (b * w + lim b)); [|exact F1]. intros m c x tr0 x' Px Dx.
        destruct (ex_second _ _ _ _ _ _ L Px Dx) as [(_ & G)|((t & ET & G) & _)]; [exact G|]. exfalso. unfold P_Comp2.left_ in L1. rewrite ET in L1. lia.
    + eapply ci_done with (b := b + 1) (i := i4) (t := t); cbn [cx_impl cx_hold cx_expl setHold]; auto; [rewrite B; reflexivity|lia|lia|].
      rewrite Ti. revert De'. apply each_does with (P := ex_mid b (b * w + lim b)); [|exact F1]. intros m c x tr0 x' Px Dx.
      destruct (ex_second _ _ _ _ _ _ L Px Dx) as [(L1 & _)|(_ & G)]; [|exact G]. exfalso.
      destruct (after_cases eps w T Heps b L) as [(_ & E2 & _)|(t' & ET' & E2 & E3)].
      * unfold P_Comp2.left_ in L1. rewrite ET in L1. lia.
      * pose proof (lim_full eps w T Heps b L1) as Lf. unfold P_Comp2.left_ in L1. rewrite ET in L1.
        assert (after b = (b + 1) * w). { unfold P_Comp2.after. rewrite Lf, Z.sub_diag. cbn. destruct (Z.leb_spec 0 eps); lia. } lia.
Qed.

(** messages of secondExchange *)
Lemma second_starts s b p i tr1 s3 i3 tr : Mid s b p i -> does (first1 gnone (Es 0%nat) (ki, ci) i) tr1 i3 -> cx_impl s3 = Some i3 -> cx_hold s3 = cx_hold s ->
  Forall2 (ex_at b (if cx_hold s then b * w + lim b else b * w + p)) (cc_expl cc) (cx_expl s3) ->
  starts (cSecondExchange gnone Es cc s3) tr ->
  exists ta tb, tr = ta ++ tb /\ starts (second1 gnone (Es 0%nat) (ki, ci) i3) ta /\
    (forall e, In e tb -> exists k c, In (k, c) (cc_expl cc) /\ partnerOf e = c_partner c) /\
    (tb <> [] -> reachedEndOfTimeWindow ci i = true /\ exists i4, does (second1 gnone (Es 0%nat) (ki, ci) i3) ta i4 /\ s_compl i4 = true).
Proof.
  intros (Ei & L & Hp & Hc & Hm & _) D1 Ei3 Eh3 F H. pose proof (im_first _ _ _ _ _ Hm D1) as (A1 & A2 & A3 & A4).
  pose proof (lim_pos eps w T Heps b L) as Lp. assert (Hc' : p < lim b - eps \/ p = lim b) by tauto.
  unfold cSecondExchange, isImplicit in H. rewrite Hi in H. cbn [negb] in H.
  assert (A : forall t, starts (onImpl (second1 gnone (Es 0%nat)) cc s3) t -> starts (second1 gnone (Es 0%nat) (ki, ci) i3) t).
  { intros t H0. unfold onImpl in H0. rewrite Hi, Ei3 in H0. apply starts_bind in H0. destruct H0 as [H0|(t1 & t2 & a & -> & D & H0)]; [exact H0|].
    destruct t2; [|contradiction]. rewrite app_nil_r. eapply does_starts, D. }
  apply starts_bind in H. destruct H as [H|(ta & tb & s1 & -> & D2 & H)].
  { exists tr, []. rewrite app_nil_r. split; [reflexivity|]. split; [apply A, H|]. split; [intros e []|congruence]. }
  unfold onImpl in D2. rewrite Hi, Ei3 in D2. db D2 t3 t4 i4 D3. cbn in D2. destruct D2 as (-> & <-). rewrite app_nil_r.
  exists t3, tb. split; [reflexivity|]. split; [eapply does_starts, D3|].
  assert (Nil : tb = [] -> (forall e, In e tb -> exists k c, In (k, c) (cc_expl cc) /\ partnerOf e = c_partner c) /\
    (tb <> [] -> reachedEndOfTimeWindow ci i = true /\ exists i4, does (second1 gnone (Es 0%nat) (ki, ci) i3) t3 i4 /\ s_compl i4 = true)).
  { intros ->. split; [intros e []|congruence]. }
  apply starts_bind in H. destruct H as [H|(t5 & t6 & e & -> & D4 & H)].
  { apply Nil. eapply silent_starts; [apply silent_front|exact H]. }
  eapply front_time in D4; [|exact F]. destruct D4 as (-> & Ht). cbn [cx_impl cx_hold cx_expl app] in *. rewrite Ht in H.
  match type of H with context [if ?x then _ else _] => destruct x eqn:It end.
  { apply Nil. apply starts_bind in H. destruct H as [H|(t7 & t8 & u & -> & D5 & H)].
    - eapply silent_starts; [|exact H]. apply silent_assert.
    - eapply silent_does in D5; [|apply silent_assert]. destruct D5 as (_ & ->). destruct t8; [reflexivity|contradiction]. }
  apply Z.ltb_ge in It.
  (* the partners of the explicit schemes *)
  assert (G : forall e, In e t6 -> exists k c, In (k, c) (cc_expl cc) /\ partnerOf e = c_partner c).
  { assert (G1 : forall (f : nat -> scheme -> st -> prog st) cs ss n t, (forall m k c x, only (c_partner c) (f m (k, c) x)) -> starts (each f n cs ss) t -> forall e, In e t -> exists k c, In (k, c) cs /\ partnerOf e = c_partner c).
    { clear. intros f cs. induction cs as [|(k, c) cs IH]; intros [|x ss] n t Hf S0 e He; cbn [each] in S0; try (destruct t; contradiction).
      apply starts_bind in S0. destruct S0 as [S0|(t1 & t2 & s' & -> & D & S0)].
      - exists k, c. split; [left; reflexivity|]. eapply only_starts; [apply Hf|exact S0|exact He].
      - apply in_app_or in He. destruct He as [He|He].
        + exists k, c. split; [left; reflexivity|]. eapply only_starts; [apply Hf|eapply does_starts, D|exact He].
        + apply starts_bind in S0. destruct S0 as [S0|(t3 & t4 & r & -> & D1 & S0)].
          * destruct (IH _ _ _ Hf S0 e He) as (k' & c' & I & R). exists k', c'. split; [right; exact I|exact R].
          * destruct t4; [|contradiction]. rewrite app_nil_r in He. destruct (IH _ _ _ Hf (does_starts _ _ _ D1) e He) as (k' & c' & I & R). exists k', c'. split; [right; exact I|exact R]. }
    assert (G2 : forall (f : nat -> scheme -> st -> prog st) x t, (forall m k c y, only (c_partner c) (f m (k, c) y)) -> starts (onExpl f cc x) t -> forall e, In e t -> exists k c, In (k, c) (cc_expl cc) /\ partnerOf e = c_partner c).
    { intros f x t Hf S0 e0 He. unfold onExpl in S0. apply starts_bind in S0. destruct S0 as [S0|(t1 & t2 & s' & -> & D & S0)]; [eapply G1; eauto|].
      destruct t2; [|contradiction]. rewrite app_nil_r in He. eapply G1; [exact Hf|eapply does_starts, D|exact He]. }
    intros e0 He. apply starts_bind in H. destruct H as [H|(t7 & t8 & s5 & -> & D5 & H)].
    { eapply G2; [|exact H|exact He]. intros. apply only_first1. }
    apply in_app_or in He. destruct He as [He|He].
    { eapply G2; [|eapply does_starts, D5|exact He]. intros. apply only_first1. }
    apply starts_bind in H. destruct H as [H|(t9 & t10 & s6 & -> & D6 & H)].
    { eapply G2; [|exact H|exact He]. intros. apply only_second1. }
    destruct t10; [|contradiction]. rewrite app_nil_r in He. eapply G2; [|eapply does_starts, D6|exact He]. intros. apply only_second1. }
  destruct (im_second b p i3 _ i4 L Hc' A1 A2 A4 D3) as [(Q & _ & B & C4)|[(Q & C4 & B)|(Q & C4 & B & B' & S4)]].
  - apply Nil. rewrite (im_time _ _ _ B) in It. destruct (cx_hold s) eqn:Eh; [lia|].
    apply starts_bind in H. destruct H as [H|(t7 & t8 & s5 & -> & D5 & H)].
    { unfold onExpl in H. apply starts_bind in H. cbn [cx_expl] in H. 
      assert (Z0 : forall t, starts (each (fun n => first1 gnone (Es n)) 1 (cc_expl cc) (cx_expl s3)) t -> t = []).
      { intros t. eapply each_quiet; [|exact F]. intros m (k, c) x t0 Px S0. apply first1_quiet in S0; [exact S0|]. change c with (snd (k, c)). eapply ex_early; [| |exact Px]; lia. }
      destruct H as [H|(t7 & t8 & es & -> & D & H)]; [apply Z0, H|]. destruct t8; [|contradiction]. rewrite app_nil_r. eapply Z0, does_starts, D. }
    unfold onExpl in D5. db D5 t11 t12 es De. cbn in D5. destruct D5 as (-> & <-). cbn [cx_expl] in De.
    assert (t11 = []).
    { eapply each_quiet; [|exact F|eapply does_starts, De]. intros m (k, c) x t0 Px S0. apply first1_quiet in S0; [exact S0|]. change c with (snd (k, c)). eapply ex_early; [| |exact Px]; lia. }
    subst t11. cbn [app].
    assert (F1 : Forall2 (ex_mid b (b * w + p)) (cc_expl cc) es).
    { revert De. apply each_does with (P := ex_at b (b * w + p)); [|exact F]. intros m c x tr0 x' Px Dx. eapply ex_first; eauto. }
    assert (Z1 : forall t, starts (each (fun n => second1 gnone (Es n)) 1 (cc_expl cc) es) t -> t = []).
    { intros t. eapply each_quiet; [|exact F1]. intros m (k, c) x t0 Px S0. apply second1_quiet in S0; [exact S0|]. change c with (snd (k, c)). eapply ex_mid_early; [| |exact Px]; lia. }
    unfold onExpl in H. cbn [cx_expl] in H. apply starts_bind in H. destruct H as [H|(t9 & t10 & s6 & -> & D6 & H)].
    { apply starts_bind in H. destruct H as [H|(t17 & t18 & es' & -> & D & H)]; [apply Z1, H|]. destruct t18; [|contradiction]. rewrite app_nil_r. eapply Z1, does_starts, D. }
    destruct t10; [|contradiction]. rewrite app_nil_r. db D6 t17 t18 es' De'. cbn in D6. destruct D6 as (-> & _). rewrite app_nil_r. eapply Z1, does_starts, De'.
  - exfalso. assert (Eh : cx_hold s = true) by (destruct Hc as [Hc|(_ & Hc)]; [lia|exact Hc]). rewrite Eh in It. rewrite (im_time _ _ _ B) in It. lia.
  - split; [exact G|]. intros _. split; [|exists i4; auto]. rewrite (im_reached _ _ _ Hm), Q, Z.sub_diag. apply Z.leb_le. lia.
Qed.
End Exchange.

(** * The rest of advance() *)
Lemma Mid_kept s s' b p i : Mid s b p i -> cx_hold s' = cx_hold s ->
  (forall i0, cx_impl s = Some i0 -> exists i', cx_impl s' = Some i' /\ s_time i' = s_time i0 /\ s_windows i' = s_windows i0 /\ s_tws i' = s_tws i0 /\ s_next i' = s_next i0) ->
  (forall b t, Forall2 (ex_at b t) (cc_expl cc) (cx_expl s) -> Forall2 (ex_at b t) (cc_expl cc) (cx_expl s')) -> exists i', Mid s' b p i'.
Proof.
  intros (Ei & L & Hp & Hc & (M1 & M2 & M3 & M4) & F) Eh Hi' Hf. destruct (Hi' i Ei) as (i' & E' & T1 & W1 & S1 & N1). exists i'. unfold Mid, im_at, sized. rewrite Eh.
  split; [exact E'|]. split; [exact L|]. split; [exact Hp|]. split; [exact Hc|]. split; [|apply Hf, F]. repeat split; congruence.
Qed.
Lemma ex_at_kept b t c (e e' : st) : s_time e' = s_time e -> s_windows e' = s_windows e -> s_tws e' = s_tws e -> s_next e' = s_next e -> ex_at b t c e -> ex_at b t c e'.
Proof. intros T1 W1 S1 N1 (n & a & B & Te & W). exists n, a. unfold ex_base, sized in *. rewrite S1, N1. split; [exact B|]. split; congruence. Qed.
Lemma silent_write e t f : forall (ws : list (wave (smp V))) n, silent (writeAll e t f n ws).
Proof. induction ws as [|x ws IH]; intros n; cbn [writeAll]; [exact I|]. apply silent_bind; [unfold lift; destruct (w_set _ _ _ _); exact I|]. intros. apply silent_bind; [apply IH|]. intros; exact I. Qed.
Lemma silent_before Es b t (s : cst) : silent (cBefore Es cc b t s).
Proof.
  unfold cBefore. destruct (_ || _); [|exact I]. apply silent_bind.
  - unfold onImpl. destruct (cc_impl cc), (cx_impl s); try exact I. apply silent_bind; [|intros; exact I]. apply silent_bind; [apply silent_write|]. intros; exact I.
  - intros a. unfold onExpl. apply silent_bind; [|intros; exact I]. apply silent_each. intros. apply silent_bind; [apply silent_write|]. intros; exact I.
Qed.
Lemma silent_cadd dt (s : cst) : silent (cAddComputedTime cc dt s).
Proof.
  assert (I1 : forall s, silent (onImpl (fun c => addComputedTime (V:=V) (snd c) dt) cc s)).
  { intros x. unfold onImpl. destruct (cc_impl cc), (cx_impl x); try exact I. apply silent_bind; [apply silent_add|]. intros; exact I. }
  assert (I2 : forall s, silent (onExpl (fun _ c => addComputedTime (V:=V) (snd c) dt) cc s)).
  { intros x. unfold onExpl. apply silent_bind; [|intros; exact I]. apply silent_each. intros. apply silent_add. }
  unfold cAddComputedTime. destruct (negb _).
  - apply silent_bind; [apply I2|]. intros; exact I.
  - apply silent_bind; [apply I1|]. intros a. destruct (cx_hold a); [exact I|]. apply silent_bind; [apply I2|]. intros; exact I.
Qed.
Lemma before_mid Es b0 t0 s b p i tr s2 : Mid s b p i -> does (cBefore Es cc b0 t0 s) tr s2 -> tr = [] /\ exists i2, Mid s2 b p i2.
Proof.
  intros M H. split; [eapply silent_does; [apply (silent_before Es b0 t0 s)|exact H]|]. unfold cBefore in H. destruct (_ || _).
  2:{ destruct H as (_ & <-). exists i. exact M. }
  db H t1 t2 s1 D1. unfold onImpl in D1. rewrite Hi in D1. pose proof M as (Ei & _). rewrite Ei in D1. db D1 t3 t4 i' D2. cbn in D1. destruct D1 as (_ & <-).
  db D2 t5 t6 ws D3. cbn in D2. destruct D2 as (_ & <-). unfold onExpl in H. db H t7 t8 es De. cbn in H. destruct H as (_ & <-). cbn [cx_expl cx_impl cx_hold] in *.
  eapply Mid_kept; [exact M|reflexivity| |].
  - intros i0 Q. rewrite Ei in Q. injection Q as <-. eexists. split; [reflexivity|]. repeat split.
  - intros b' t' F. cbn [cx_expl]. revert De. apply each_does with (P := ex_at b' t'); [|exact F]. intros m c x tr0 x' Px Dx. db Dx t9 t10 ws' D4. cbn in Dx. destruct Dx as (_ & <-).
    revert Px. apply ex_at_kept; reflexivity.
Qed.
(** a change of the stored data only *)
Lemma CInv_kept (g : st -> st) s : (forall x, s_time (g x) = s_time x /\ s_windows (g x) = s_windows x /\ s_tws (g x) = s_tws x /\ s_next (g x) = s_next x /\ s_compl (g x) = s_compl x) ->
  forall es, (es = cx_expl s \/ es = map g (cx_expl s)) -> CInv s -> CInv (CSt es (option_map g (cx_impl s)) (cx_hold s)).
Proof.
  intros Hg es He J.
  assert (X : forall P : scheme -> st -> Prop, (forall c x, P c x -> P c (g x)) -> Forall2 P (cc_expl cc) (cx_expl s) -> Forall2 P (cc_expl cc) es).
  { intros P HP F. destruct He as [->| ->]; [exact F|]. apply Forall2_mapr; auto. }
  destruct J as [b p i Ei L P Hm F C|b i t Ei Eh ET Em Ht W F]; destruct (Hg i) as (G1 & G2 & G3 & G4 & G5).
  - eapply ci_going with (b := b) (p := p) (i := g i); cbn [cx_impl cx_hold cx_expl]; auto.
    + rewrite Ei. reflexivity.
    + destruct Hm as (M1 & M2 & M3 & M4). unfold im_at, sized. repeat split; congruence.
    + apply X; [|exact F]. intros c x. destruct (Hg x) as (g1 & g2 & g3 & g4 & _). apply ex_at_kept; assumption.
    + intros Q. rewrite G5. auto.
  - assert (Q : timeOf (g i) = timeOf i) by (unfold timeOf; rewrite G1; reflexivity).
    eapply ci_done with (b := b) (i := g i) (t := t); cbn [cx_impl cx_hold cx_expl]; try congruence.
    + rewrite Ei. reflexivity.
    + rewrite Q. apply X; [|exact F]. intros c x (q1 & q2). destruct (Hg x) as (g1 & g2 & g3 & g4 & _). unfold ex_fin, timeOf. rewrite g1, g2. auto.
Qed.
Lemma silent_cAfter b t (s : cst) : silent (cAfter cc b t s).
Proof.
  unfold cAfter. destruct (negb b); [exact I|]. destruct (cComplete cc s); (apply silent_bind; [apply silent_assert|]); intros _; [destruct (cWindowStart cc s)|]; exact I.
Qed.
Lemma after_inv b0 t0 s tr s' : CInv s -> does (cAfter cc b0 t0 s) tr s' -> CInv s'.
Proof.
  intros J H. unfold cAfter in H. destruct (negb b0); [destruct H as (_ & <-); exact J|]. destruct (cComplete cc s); db H t1 t2 u D.
  - destruct (cWindowStart cc s); [|destruct H]. destruct H as (_ & <-). apply CInv_kept; auto.
  - destruct H as (_ & <-). apply CInv_kept; auto.
Qed.
Lemma ask_inv s : CInv s -> CInv (cAnswer s).
Proof.
  intros J. unfold cAnswer. apply CInv_kept; [|destruct (cx_hold s); auto|exact J]. intros x. unfold answerWrite, answerRead.
  destruct (a_read (s_req x)); cbn; destruct (a_write (s_req x)); cbn; auto.
Qed.

Lemma advance_inv Es dt s s' : CInv s -> exact_step eps cc s dt -> returns (cAdvance gnone Es cc dt s) s' -> CInv s'.
Proof.
  intros J X H. apply returns_does in H. destruct H as (tr & H). unfold cAdvance in H.
  db H t1 t2 u1 D1. db H t3 t4 u2 D2. db H t5 t6 u3 D3. apply does_returns in D1, D3. apply ret_check in D1, D3. apply Z.ltb_lt in D3.
  db H t7 t8 r Da. destruct (add_ok dt s t7 r J D1 D3 X Da) as (_ & b & p & i & M & _).
  db H t9 t10 s2 Db. destruct (before_mid _ _ _ _ _ _ _ _ _ M Db) as (_ & i2 & M2). db H t11 t12 s3 Dc. db H t13 t14 s4 Dd.
  destruct (first_does _ _ _ _ _ _ _ M2 Dc) as (i3 & F1 & E3 & Eh3 & F3). eapply after_inv; [|exact H]. eapply second_does; eauto.
Qed.
Lemma init_inv Es s : returns (cInitialize gnone vzero Es cc) s -> CInv s.
Proof.
  intros H. apply returns_does in H. destruct H as (tr & H). unfold cInitialize in H. db H t1 t2 es De. rewrite Hi in H. db H t3 t4 i Di. cbn in H. destruct H as (_ & <-).
  cbn [fst snd] in Di. apply does_returns in Di. apply initialize_spec in Di; [|right; reflexivity].
  assert (L0 : left_ 0). { unfold P_Comp2.left_. destruct T as [t|] eqn:ET; [|exact I]. specialize (Hmax t eq_refl). lia. }
  pose proof (lim_pos eps w T Heps 0 L0) as Lp.
  assert (SZ : forall k c (x : st) n, fixed k c n -> init_spec c x -> sized n x).
  { intros k c x n F J. destruct (fixed_sets k c n F) as (_ & R). destruct (is_tws c x J R) as (Q1 & Q2). destruct F as (_ & _ & F). unfold sized. split; congruence. }
  eapply ci_going with (b := 0) (p := 0) (i := i); cbn [cx_impl cx_hold cx_expl]; auto; [lia| | |discriminate].
  - split; [rewrite (is_time _ _ Di), HiT; reflexivity|]. split; [apply (is_windows _ _ Di)|]. eapply SZ; [exact Hfix|exact Di].
  - change (0 * w + 0) with 0. revert De.
    apply each_does with (P := fun c x => In c (cc_expl cc) /\ x = answerInit (st0 (snd c))).
    + intros m c x tr0 x' (Ic & ->) Dx. apply does_returns in Dx. apply initialize_spec in Dx; [|right; reflexivity]. destruct c as (k, c). destruct (Hex k c Ic) as (X1 & X2 & X3 & n & Hn & F).
      exists n, 0. cbn [fst snd] in *. unfold ex_base. cbn [fst snd]. split; [repeat match goal with |- _ /\ _ => split end; auto; try lia; eapply SZ; eauto|].
      split; [rewrite (is_time _ _ Dx), X3; f_equal; lia|apply (is_windows _ _ Dx)].
    + apply Forall2_const. auto.
Qed.
Lemma run_inv s : crun gnone vzero (exact_step eps cc) cc s -> CInv s.
Proof. induction 1; [eapply init_inv; eauto|apply ask_inv; assumption|eapply advance_inv; eauto]. Qed.
End Compat.

(** * Explicit schemes only *)
Section OnlyExplicit.
Variables (eps w : Z) (T : option Z) (cc : cconf).
Hypothesis Hi : cc_impl cc = None.
Hypothesis Hex : forall k c, In (k, c) (cc_expl cc) -> c_implicit c = false /\ c_eps c = eps /\ c_maxTime c = T /\ fixed k c w.
Definition ex_same (h : thandler) (n : Z) (b : bool) (c : scheme) (e : st) : Prop :=
  In c (cc_expl cc) /\ s_time e = h /\ s_windows e = n /\ s_compl e = b /\ sized w e.
Definition EInv (s : cst) : Prop := cx_impl s = None /\ exists h n b, Forall2 (ex_same h n b) (cc_expl cc) (cx_expl s).

Lemma ex_same_kept h n b c (e e' : st) : s_time e' = s_time e -> s_windows e' = s_windows e -> s_compl e' = s_compl e -> s_tws e' = s_tws e -> s_next e' = s_next e -> ex_same h n b c e -> ex_same h n b c e'.
Proof. intros T1 W1 C1 S1 N1 (A & B & C & D & E1 & E2). unfold ex_same, sized. repeat split; congruence. Qed.
Lemma e_init Es s : returns (cInitialize gnone vzero Es cc) s -> EInv s.
Proof.
  intros H. apply returns_does in H. destruct H as (tr & H). unfold cInitialize in H. db H t1 t2 es De. rewrite Hi in H. cbn in H. destruct H as (_ & <-).
  split; [reflexivity|]. exists (TH T 0 0), 1, false. cbn [cx_expl]. revert De. apply each_does with (P := fun c x => In c (cc_expl cc) /\ x = answerInit (st0 (snd c))).
  - intros m (k, c) x tr0 x' (Ic & ->) Dx. apply does_returns in Dx. apply initialize_spec in Dx; [|right; reflexivity]. destruct (Hex k c Ic) as (X1 & X2 & X3 & F).
    destruct (fixed_sets k c w F) as (_ & R). destruct (is_tws _ _ Dx R) as (Q1 & Q2). destruct F as (_ & _ & F). cbn [snd] in *.
    unfold ex_same, sized. split; [exact Ic|]. rewrite (is_time _ _ Dx), (is_windows _ _ Dx), (is_compl _ _ Dx), Q1, Q2, X3, F. auto.
  - apply Forall2_const. auto.
Qed.
Lemma e_ask s : EInv s -> EInv (cAnswer s).
Proof.
  intros (A & h & n & b & F). split; [cbn; rewrite A; reflexivity|]. exists h, n, b. cbn [cAnswer cx_expl]. destruct (cx_hold s); [exact F|]. apply Forall2_mapr; [|exact F].
  intros c x. apply ex_same_kept; unfold answerWrite, answerRead; destruct (a_read (s_req x)); cbn; destruct (a_write (s_req x)); reflexivity.
Qed.
Lemma e_advance Es dt s s' : EInv s -> returns (cAdvance gnone Es cc dt s) s' -> EInv s'.
Proof.
  intros (A & h & n & b & F) H. apply returns_does in H. destruct H as (tr & H). unfold cAdvance in H.
  db H t1 t2 u1 D1. db H t3 t4 u2 D2. db H t5 t6 u3 D3. db H t7 t8 r Da. clear D1 D2 D3.
  unfold cAddComputedTime, isImplicit in Da. rewrite Hi in Da. cbn [negb] in Da. db Da t9 t10 s1 D1. cbn in Da. destruct Da as (_ & <-). cbn [fst snd] in H.
  unfold onExpl in D1. db D1 t11 t12 es D2. cbn in D1. destruct D1 as (_ & <-).
  set (h1 := th_progressBy dt h). assert (F1 : Forall2 (ex_same h1 n b) (cc_expl cc) es).
  { revert D2. apply each_does with (P := ex_same h n b); [|exact F]. intros m c x tr0 x' (p1 & p2 & p3 & p4 & p5) Dx. apply does_add in Dx. destruct Dx as (_ & -> & _).
    unfold ex_same. cbn. rewrite p2. auto. }
  db H t13 t14 s2 Db. db H t15 t16 s3 Dc. db H t17 t18 s4 Dd.
  assert (F2 : cx_impl s2 = None /\ Forall2 (ex_same h1 n b) (cc_expl cc) (cx_expl s2)).
  { unfold cBefore in Db. destruct (_ || _); [|destruct Db as (_ & <-); split; [exact A|exact F1]]. db Db t19 t20 s5 D3. unfold onImpl in D3. rewrite Hi in D3. cbn [cx_impl] in D3. rewrite A in D3. cbn in D3. destruct D3 as (_ & <-).
    unfold onExpl in Db. db Db t21 t22 es' D4. cbn in Db. destruct Db as (_ & <-). split; [reflexivity|]. cbn [cx_expl] in *. revert D4. apply each_does with (P := ex_same h1 n b); [|exact F1].
    intros m c x tr0 x' Px Dx. db Dx t23 t24 ws D5. cbn in Dx. destruct Dx as (_ & <-). revert Px. apply ex_same_kept; reflexivity. }
  destruct F2 as (A2 & F2).
  set (re := th_reachedEndOfWindow eps h1 w).
  assert (F3 : cx_impl s3 = None /\ Forall2 (ex_same h1 (if re then n + 1 else n) false) (cc_expl cc) (cx_expl s3)).
  { unfold cFirstExchange, isImplicit in Dc. rewrite Hi in Dc. cbn [negb] in Dc. unfold onExpl in Dc. db Dc t19 t20 es' D4. cbn in Dc. destruct Dc as (_ & <-). split; [exact A2|]. cbn [cx_expl].
    revert D4. apply each_does with (P := ex_same h1 n b); [|exact F2]. intros m (k, c) x tr0 x' (p1 & p2 & p3 & p4 & p5) Dx. destruct (Hex k c p1) as (X1 & X2 & X3 & Fx).
    pose proof (first1_ok gnone _ _ _ _ _ _ _ Fx p5 Dx) as (T1 & S1 & C1 & Y).
    assert (R : reachedEndOfTimeWindow c x = re) by (unfold reachedEndOfTimeWindow, re; destruct p5 as (-> & _); rewrite p2, X2; reflexivity). rewrite R in Y.
    unfold ex_same. split; [exact p1|]. split; [congruence|]. split; [destruct re; [lia|destruct Y; congruence]|]. auto. }
  destruct F3 as (A3 & F3).
  set (h2 := if re then match th_completeTimeWindow eps h1 w with Some x => x | None => h1 end else h1).
  assert (F4 : cx_impl s4 = None /\ Forall2 (ex_same h2 (if re then n + 1 else n) re) (cc_expl cc) (cx_expl s4)).
  { unfold cSecondExchange, isImplicit in Dd. rewrite Hi in Dd. cbn [negb] in Dd. unfold onExpl in Dd. db Dd t19 t20 es' D4. cbn in Dd. destruct Dd as (_ & <-). split; [exact A3|]. cbn [cx_expl].
    revert D4. apply each_does with (P := ex_same h1 (if re then n + 1 else n) false); [|exact F3]. intros m (k, c) x tr0 x' (p1 & p2 & p3 & p4 & p5) Dx. destruct (Hex k c p1) as (X1 & X2 & X3 & Fx).
    pose proof (second1_ok gnone _ _ _ _ _ _ _ Fx p5 Dx) as (S1 & _ & Y).
    assert (R : reachedEndOfTimeWindow c x = re) by (unfold reachedEndOfTimeWindow, re; destruct p5 as (-> & _); rewrite p2, X2; reflexivity). rewrite R in Y.
    unfold ex_same, h2. split; [exact p1|]. destruct re.
    - destruct Y as (Y1 & Y2). rewrite X1 in Y1. cbn in Y1. rewrite Y1 in Y2. destruct Y2 as (Y2 & Y3). rewrite p2, X2 in Y2. rewrite Y2. repeat split; try congruence; apply S1.
    - destruct Y as (Y1 & Y2 & Y3 & _). repeat split; try congruence; apply S1. }
  destruct F4 as (A4 & F4). assert (G : forall s5, cx_impl s5 = None -> (exists g : st -> st, (forall x, s_time (g x) = s_time x /\ s_windows (g x) = s_windows x /\ s_compl (g x) = s_compl x /\ s_tws (g x) = s_tws x /\ s_next (g x) = s_next x) /\ cx_expl s5 = map g (cx_expl s4)) -> EInv s5).
  { intros s5 E5 (g & Hg & Eg). split; [exact E5|]. exists h2, (if re then n + 1 else n), re. rewrite Eg. apply Forall2_mapr; [|exact F4]. intros c x. destruct (Hg x) as (g1 & g2 & g3 & g4 & g5). apply ex_same_kept; assumption. }
  unfold cAfter in H. match type of H with context [negb ?x] => destruct (negb x) end.
  { destruct H as (_ & <-). split; [exact A4|]. eauto. }
  destruct (cComplete cc s4); db H t19 t20 u D3.
  - destruct (cWindowStart cc s4); [|destruct H]. destruct H as (_ & <-). apply G; [cbn; rewrite A4; reflexivity|]. cbn [cx_expl]. eexists. split; [|reflexivity]. intros x. cbn. auto.
  - destruct H as (_ & <-). apply G; [cbn; rewrite A4; reflexivity|]. cbn [cx_expl]. eexists. split; [|reflexivity]. intros x. cbn. auto.
Qed.
Lemma e_run ok s : crun gnone vzero ok cc s -> EInv s.
Proof. induction 1; [eapply e_init; eauto|apply e_ask; assumption|eapply e_advance; eauto]. Qed.
End OnlyExplicit.
End P.
