From Coq Require Import Bool List Ascii String ZArith QArith Lia.
From Verif Require Import M_Value S_Value.
Import ListNotations.
Open Scope nat_scope.
Open Scope char_scope.
Open Scope list_scope.

(** * Characters *)
Definition dv (c : ascii) : Z := (Z.of_nat (nat_of_ascii c) - 48)%Z.
Lemma digit_some c d : digitOf c = Some d -> is_digit c /\ d = dv c.
Proof.
  intros H. split; [|unfold digitOf in H; destruct (_ && _); [injection H as <-; reflexivity|discriminate H]].
  destruct c as [[] [] [] [] [] [] [] []]; vm_compute in H; try discriminate H; unfold is_digit; cbn; auto 12.
Qed.
Ltac digits H := unfold is_digit in H; cbn [In] in H; repeat destruct H as [<-|H]; [..|destruct H].
Lemma is_digit_ok c : is_digit c -> digitOf c = Some (dv c) /\ Ascii.eqb c "," = false /\ Ascii.eqb c "." = false /\ isSpace c = false /\ Ascii.eqb c "/" = false /\ Ascii.eqb c ";" = false.
Proof. intros H. digits H; repeat split; reflexivity. Qed.
Lemma isSpace_ok c : isSpace c = true <-> is_space c.
Proof. unfold isSpace, is_space. rewrite existsb_exists. split; [intros (x & Hx & E); apply Ascii.eqb_eq in E; subst; exact Hx|intros H; exists c; split; [exact H|apply Ascii.eqb_refl]]. Qed.

Definition acc (z : Z) (t : text) : Z := fold_left (fun z c => z * 10 + (Z.of_nat (nat_of_ascii c) - 48))%Z t z.
Definition ne (t : text) : bool := match t with [] => false | _ => true end.
Lemma acc_app z a b : acc z (a ++ b) = acc (acc z a) b. Proof. apply fold_left_app. Qed.
Lemma ne_app a b : ne (a ++ b) = ne a || ne b. Proof. destruct a; reflexivity. Qed.
Lemma ne_true a : ne a = true <-> a <> []. Proof. destruct a; cbn; split; congruence. Qed.
Lemma ne_false a : ne a = false <-> a = []. Proof. destruct a; cbn; split; congruence. Qed.

(** * Running over the parts of a number *)
Lemma scan_int g : forall ds m any frac count fresh eneg e eany r, Forall is_digit ds ->
  scanAll g (ds ++ r) (Scan m any false frac count false fresh eneg e eany) = scanAll g r (Scan (acc m ds) (any || ne ds) false frac (count || ne ds) false fresh eneg e eany).
Proof.
  induction ds as [|c ds IH]; intros m any frac count fresh eneg e eany r F; cbn [app].
  - cbn. rewrite !orb_false_r. reflexivity.
  - inversion F as [|? ? Hc F']; subst. destruct (is_digit_ok c Hc) as (D & C & P & _). cbn [scanAll scanStep]. rewrite C, andb_false_r, P, D. cbn [ne]. rewrite IH by exact F'. rewrite !orb_true_r. reflexivity.
Qed.
Lemma scan_frac g : forall ds m any frac count fresh eneg e eany r, Forall is_digit ds ->
  exists count', scanAll g (ds ++ r) (Scan m any true frac count false fresh eneg e eany) = scanAll g r (Scan (acc m ds) (any || ne ds) true (frac + List.length ds) count' false fresh eneg e eany).
Proof.
  induction ds as [|c ds IH]; intros m any frac count fresh eneg e eany r F; cbn [app].
  - exists count. cbn. rewrite orb_false_r, Nat.add_0_r. reflexivity.
  - inversion F as [|? ? Hc F']; subst. destruct (is_digit_ok c Hc) as (D & C & P & _). cbn [scanAll scanStep]. rewrite C, andb_false_r, P, D. cbn [ne].
    destruct (IH (m * 10 + dv c)%Z true (S frac) true fresh eneg e eany r F') as (count' & E). exists count'. rewrite E, !orb_true_r. cbn [List.length]. rewrite Nat.add_succ_r. reflexivity.
Qed.
Lemma scan_exp g : forall ds m any dec frac count fresh eneg e eany r, Forall is_digit ds ->
  exists fresh', scanAll g (ds ++ r) (Scan m any dec frac count true fresh eneg e eany) = scanAll g r (Scan m any dec frac count true fresh' eneg (acc e ds) (eany || ne ds)).
Proof.
  induction ds as [|c ds IH]; intros m any dec frac count fresh eneg e eany r F; cbn [app].
  - exists fresh. cbn. rewrite orb_false_r. reflexivity.
  - inversion F as [|? ? Hc F']; subst. destruct (is_digit_ok c Hc) as (D & C & P & _). cbn [scanAll scanStep]. rewrite C, andb_false_r, P, D. cbn [ne].
    destruct (IH m any dec frac count false eneg (e * 10 + dv c)%Z true r F') as (fr & E). exists fr. rewrite E, !orb_true_r. reflexivity.
Qed.
Definition separated (g : bool) (gs : list text) : Prop := forall a b c, gs = a ++ b :: c -> c <> [] -> b <> [] /\ g = true.
Lemma separated_tail g d gs : separated g (d :: gs) -> separated g gs.
Proof. intros H a b c E. apply (H (d :: a) b c). rewrite E. reflexivity. Qed.
Lemma scan_groups g : forall gs m any frac count fresh eneg e eany r, gs <> [] -> Forall (Forall is_digit) gs -> separated g gs ->
  exists count', scanAll g (join "," gs ++ r) (Scan m any false frac count false fresh eneg e eany) = scanAll g r (Scan (acc m (List.concat gs)) (any || ne (List.concat gs)) false frac count' false fresh eneg e eany).
Proof.
  induction gs as [|d gs IH]; intros m any frac count fresh eneg e eany r N F S; [congruence|]. inversion F as [|? ? Fd F']; subst. destruct gs as [|d' gs].
  - cbn [join List.concat]. rewrite app_nil_r. exists (count || ne d). apply scan_int, Fd.
  - change (join "," (d :: d' :: gs)) with (d ++ "," :: join "," (d' :: gs)). rewrite <- app_assoc, scan_int by exact Fd. cbn [app scanAll scanStep].
    destruct (S [] d (d' :: gs) eq_refl ltac:(discriminate)) as [Nd ->]. assert (Ed : ne d = true) by (apply ne_true, Nd). rewrite Ed, orb_true_r. cbn [andb negb Ascii.eqb Bool.eqb].
    change (List.concat (d :: d' :: gs)) with (d ++ List.concat (d' :: gs)). rewrite acc_app, ne_app, Ed, !orb_true_r.
    destruct (IH (acc m d) true frac false fresh eneg e eany r ltac:(discriminate) F' (separated_tail _ _ _ S)) as (count' & E). exists count'. exact E.
Qed.

Lemma sign_step : forall (s : text) m any dec frac count e eany g r, is_sign s -> exists fresh, scanAll g (s ++ r) (Scan m any dec frac count true true false e eany) = scanAll g r (Scan m any dec frac count true fresh (negative s) e eany).
Proof. intros s m any dec frac count e eany g r [->|[-> | ->]]; [exists true|exists false|exists false]; destruct g; reflexivity. Qed.

(** * The text behind the sign *)
Definition body (w : written) : text := join "," (w_groups w) ++ frac_text (w_frac w) ++ exp_text (w_exp w).
Lemma mantissa_ne w : ne (mantissa w) = ne (List.concat (w_groups w)) || ne (frac_digits w). Proof. apply ne_app. Qed.
Lemma scan_body g w : like_number g w -> exists x, scanAll g (body w) (Scan 0 false false 0 false false false false 0 false) = Some x /\
  sc_m x = decimal (mantissa w) /\ sc_any x = ne (mantissa w) /\ sc_frac x = List.length (frac_digits w) /\
  match w_exp w with None => sc_sci x = false /\ sc_eneg x = false /\ sc_e x = 0%Z | Some (_, s, t) => sc_sci x = true /\ sc_eneg x = negative s /\ sc_e x = decimal t /\ sc_eany x = ne t end.
Proof.
  intros [L1 L2 L3 L4 L5 L6 L7 L8]. unfold body.
  destruct (scan_groups g (w_groups w) 0 false 0 false false false 0 false (frac_text (w_frac w) ++ exp_text (w_exp w)) L3 L4 L5) as (c1 & E1). rewrite E1. cbn [orb]. clear E1.
  assert (Fr : exists dec c2, scanAll g (frac_text (w_frac w) ++ exp_text (w_exp w)) (Scan (acc 0 (List.concat (w_groups w))) (ne (List.concat (w_groups w))) false 0 c1 false false false 0 false) =
    scanAll g (exp_text (w_exp w)) (Scan (decimal (mantissa w)) (ne (mantissa w)) dec (List.length (frac_digits w)) c2 false false false 0 false)).
  { unfold decimal, mantissa, frac_digits. destruct (w_frac w) as [t|]; cbn [frac_text].
    - cbn [app scanAll scanStep]. replace (g && Ascii.eqb "." ",") with false by (rewrite andb_false_r; reflexivity). cbn [Ascii.eqb Bool.eqb negb andb].
      destruct (scan_frac g t (acc 0 (List.concat (w_groups w))) (ne (List.concat (w_groups w))) 0 c1 false false 0 false (exp_text (w_exp w)) (L6 t eq_refl)) as (c2 & E). exists true, c2. rewrite E, ne_app. fold (acc 0 (List.concat (w_groups w) ++ t)). rewrite acc_app. reflexivity.
    - exists false, c1. cbn [app List.length]. rewrite app_nil_r. reflexivity. }
  destruct Fr as (dec & c2 & ->). destruct (w_exp w) as [[[c s] t]|]; cbn [exp_text].
  - destruct (L7 c s t eq_refl) as (Hc & Hs & Ht & Hm). apply ne_true in Hm. rewrite Hm.
    assert (St : scanStep g c (Scan (decimal (mantissa w)) true dec (List.length (frac_digits w)) c2 false false false 0 false) = Some (Scan (decimal (mantissa w)) true dec (List.length (frac_digits w)) c2 true true false 0 false)).
    { cbn [scanStep]. destruct Hc as [-> | ->]; destruct g; reflexivity. }
    cbn [scanAll]. rewrite St. destruct (sign_step s (decimal (mantissa w)) true dec (List.length (frac_digits w)) c2 0%Z false g t Hs) as (fr & E). rewrite E.
    destruct (scan_exp g t (decimal (mantissa w)) true dec (List.length (frac_digits w)) c2 fr (negative s) 0%Z false [] Ht) as (fr' & E'). rewrite app_nil_r in E'. rewrite E'. cbn [scanAll orb].
    eexists. split; [reflexivity|]. cbn. auto 8.
  - cbn [scanAll]. eexists. split; [reflexivity|]. cbn. auto 8.
Qed.
Lemma body_head g w : like_number g w -> body w = [] \/ exists c r, body w = c :: r /\ (is_digit c \/ c = ".").
Proof.
  intros [L1 L2 L3 L4 L5 L6 L7 L8]. unfold body. destruct (w_groups w) as [|d gs] eqn:Eg; [congruence|]. destruct d as [|c d].
  - destruct gs as [|d' gs]; [|destruct (L5 [] [] (d' :: gs) eq_refl ltac:(discriminate)); congruence]. cbn [join app]. destruct (w_frac w) as [t|] eqn:Ef; cbn [frac_text]; [right; eexists _, _; split; [reflexivity|right; reflexivity]|].
    destruct (w_exp w) as [[[c s] t]|] eqn:Ee; [|left; reflexivity]. exfalso. destruct (L7 c s t eq_refl) as (_ & _ & _ & H). apply H. unfold mantissa, frac_digits. rewrite Eg, Ef. reflexivity.
  - right. inversion L4 as [|? ? Hd _]; subst. inversion Hd; subst. destruct gs; eexists _, _; (split; [reflexivity|left; assumption]).
Qed.
Lemma skip_blank b r : Forall is_space b -> skipSpace (b ++ r) = skipSpace r.
Proof. induction 1 as [|c b Hc F IH]; [reflexivity|]. cbn [app skipSpace]. apply isSpace_ok in Hc. rewrite Hc. exact IH. Qed.
Lemma takeSign_ok s r : is_sign s -> (r = [] \/ exists c t, r = c :: t /\ (is_digit c \/ c = ".")) -> takeSign (s ++ r) = (negative s, r) /\ skipSpace (s ++ r) = s ++ r.
Proof.
  intros [->|[-> | ->]] [->|(c & t & -> & H)]; cbn [app]; try (split; reflexivity). destruct H as [H| ->]; [|split; reflexivity]. digits H; split; reflexivity.
Qed.
Definition converts (w : written) : dbl := Number (if ne (mantissa w) && match w_exp w with None => true | Some (_, _, t) => ne t end then value w else 0%Q).
Theorem parse_like g w : like_number g w -> parseDouble g (text_of w) = Some (converts w).
Proof.
  intros L. pose proof L as [L1 L2 L3 L4 L5 L6 L7 L8]. unfold parseDouble, text_of. fold (body w) in L8 |- *. rewrite skip_blank by exact L1.
  destruct (takeSign_ok (w_sign w) (body w) L2 (body_head g w L)) as [E1 E2]. rewrite E2. destruct (w_sign w ++ body w) as [|c r] eqn:E; [congruence|]. rewrite E1.
  destruct (scan_body g w L) as (x & Ex & X1 & X2 & X3 & X4). rewrite Ex. do 2 f_equal. unfold converted, converts, value, exponent, signed, power10. rewrite X2, X1, X3.
  destruct (w_exp w) as [[[e s] t]|].
  - destruct X4 as (Y1 & Y2 & Y3 & Y4). rewrite Y1, Y2, Y3, Y4. reflexivity.
  - destruct X4 as (Y1 & Y2 & Y3). rewrite Y1, Y2, Y3. reflexivity.
Qed.

(** * What is accepted *)
Lemma shape_digits g : forall s m any dec frac count eneg e eany y, scanAll g s (Scan m any dec frac count true false eneg e eany) = Some y -> Forall is_digit s.
Proof.
  induction s as [|c s IH]; intros m any dec frac count eneg e eany y H; [constructor|]. cbn [scanAll] in H. destruct (scanStep g c _) as [x|] eqn:E; [|discriminate H]. unfold scanStep in E.
  destruct (g && Ascii.eqb c ","); [destruct (negb dec); discriminate E|]. destruct (Ascii.eqb c "."); [destruct (negb dec); discriminate E|]. destruct (digitOf c) as [d|] eqn:D.
  - injection E as <-. constructor; [apply (digit_some c d D)|]. eapply IH, H.
  - cbn [negb] in E. rewrite andb_false_r in E. cbn in E. discriminate E.
Qed.
Lemma shape_exp g s m any dec frac count eneg e eany y : scanAll g s (Scan m any dec frac count true true eneg e eany) = Some y -> exists sg t, s = sg ++ t /\ is_sign sg /\ Forall is_digit t.
Proof.
  intros H. destruct s as [|c s]; [exists [], []; split; [reflexivity|]; split; [left; reflexivity|constructor]|]. cbn [scanAll] in H. destruct (scanStep g c _) as [x|] eqn:E; [|discriminate H]. unfold scanStep in E.
  destruct (g && Ascii.eqb c ","); [destruct (negb dec); discriminate E|]. destruct (Ascii.eqb c "."); [destruct (negb dec); discriminate E|]. destruct (digitOf c) as [d|] eqn:D.
  - injection E as <-. exists [], (c :: s). split; [reflexivity|]. split; [left; reflexivity|]. constructor; [apply (digit_some c d D)|]. eapply shape_digits, H.
  - cbn [negb] in E. rewrite andb_false_r in E. cbn [andb] in E. destruct (Ascii.eqb_spec c "+") as [->|].
    + injection E as <-. exists ["+"], s. split; [reflexivity|]. split; [right; right; reflexivity|]. eapply shape_digits, H.
    + destruct (Ascii.eqb_spec c "-") as [->|]; [|discriminate E]. injection E as <-. exists ["-"], s. split; [reflexivity|]. split; [right; left; reflexivity|]. eapply shape_digits, H.
Qed.
Definition exp_ok (any : bool) (x : option (ascii * text * text)) : Prop := forall c s t, x = Some (c, s, t) -> (c = "e" \/ c = "E") /\ is_sign s /\ Forall is_digit t /\ any = true.
Lemma e_char c : Ascii.eqb c "e" || Ascii.eqb c "E" = true -> c = "e" \/ c = "E".
Proof. intros H. apply orb_true_iff in H as [H|H]; apply Ascii.eqb_eq in H; auto. Qed.
Lemma shape_frac g : forall s m any frac count eneg e eany y, scanAll g s (Scan m any true frac count false false eneg e eany) = Some y -> exists t x, s = t ++ exp_text x /\ Forall is_digit t /\ exp_ok (any || ne t) x.
Proof.
  induction s as [|c s IH]; intros m any frac count eneg e eany y H; [exists [], None; split; [reflexivity|]; split; [constructor|intros c s t E; discriminate E]|]. cbn [scanAll] in H. destruct (scanStep g c _) as [x|] eqn:E; [|discriminate H]. unfold scanStep in E.
  destruct (g && Ascii.eqb c ","); [discriminate E|]. destruct (Ascii.eqb c "."); [discriminate E|]. destruct (digitOf c) as [d|] eqn:D.
  - injection E as <-. apply IH in H as (t & z & -> & F & X). exists (c :: t), z. split; [reflexivity|]. split; [constructor; [apply (digit_some c d D)|exact F]|]. cbn [ne]. rewrite orb_true_r. exact X.
  - cbn [negb andb] in E. rewrite andb_true_r in E. destruct (Ascii.eqb c "e" || Ascii.eqb c "E") eqn:Ce; cbn [andb] in E; [|discriminate E]. destruct any; [|discriminate E]. injection E as <-. apply shape_exp in H as (sg & t & -> & S & F).
    exists [], (Some (c, sg, t)). split; [reflexivity|]. split; [constructor|]. intros c' s' t' E. injection E as <- <- <-. split; [apply e_char, Ce|]. auto.
Qed.
Fixpoint okg (g count : bool) (gs : list text) : bool := match gs with [] => false | [d] => true | d :: r => g && (count || ne d) && okg g false r end.
Lemma shape_int g : forall s m any frac count eneg e eany y, scanAll g s (Scan m any false frac count false false eneg e eany) = Some y ->
  exists gs f x, s = join "," gs ++ frac_text f ++ exp_text x /\ okg g count gs = true /\ Forall (Forall is_digit) gs /\ (forall t, f = Some t -> Forall is_digit t) /\ exp_ok (any || ne (List.concat gs) || match f with Some t => ne t | None => false end) x.
Proof.
  induction s as [|c s IH]; intros m any frac count eneg e eany y H.
  { exists [[]], None, None. split; [reflexivity|]. split; [reflexivity|]. split; [repeat constructor|]. split; [intros t E; discriminate E|intros c s t E; discriminate E]. }
  cbn [scanAll] in H. destruct (scanStep g c _) as [x|] eqn:E; [|discriminate H]. unfold scanStep in E. cbn [negb andb] in E.
  destruct (g && Ascii.eqb c ",") eqn:Cg.
  - destruct count; [|discriminate E]. injection E as <-. apply IH in H as (gs & f & x & -> & O & F & Fr & X). apply andb_true_iff in Cg as [Hg Hc]. apply Ascii.eqb_eq in Hc. subst c.
    exists ([] :: gs), f, x. destruct gs as [|d gs]; [discriminate O|]. split; [reflexivity|]. split; [change (g && true && okg g false (d :: gs) = true); rewrite O, Hg; reflexivity|]. split; [constructor; [constructor|exact F]|]. split; [exact Fr|exact X].
  - destruct (Ascii.eqb_spec c ".") as [->|Np].
    + injection E as <-. apply shape_frac in H as (t & x & -> & F & X). exists [[]], (Some t), x. split; [reflexivity|]. split; [reflexivity|]. split; [repeat constructor|]. split; [intros t' E; injection E as <-; exact F|]. cbn [List.concat ne app]. rewrite orb_false_r. exact X.
    + destruct (digitOf c) as [d|] eqn:D.
      * injection E as <-. apply IH in H as (gs & f & x & -> & O & F & Fr & X). destruct gs as [|d0 gs]; [discriminate O|]. inversion F as [|? ? F0 F']; subst. exists ((c :: d0) :: gs), f, x.
        split; [destruct gs; reflexivity|]. split; [destruct gs as [|d1 gs]; [reflexivity|]; cbn [okg ne] in O |- *; rewrite orb_true_r; exact O|]. split; [constructor; [constructor; [apply (digit_some c d D)|exact F0]|exact F']|]. split; [exact Fr|].
        cbn [List.concat ne app] in X |- *. rewrite orb_true_r. exact X.
      * rewrite andb_true_r in E. destruct (Ascii.eqb c "e" || Ascii.eqb c "E") eqn:Ce; cbn [andb] in E; [|discriminate E]. destruct any; [|discriminate E]. injection E as <-. apply shape_exp in H as (sg & t & -> & S & F).
        exists [[]], None, (Some (c, sg, t)). split; [reflexivity|]. split; [reflexivity|]. split; [repeat constructor|]. split; [intros t' E; discriminate E|]. intros c' s' t' E. injection E as <- <- <-. split; [apply e_char, Ce|]. auto.
Qed.
Lemma okg_separated g : forall gs count, okg g count gs = true -> (count = false -> separated g gs) /\ gs <> [].
Proof.
  induction gs as [|d gs IH]; intros count O; [discriminate O|]. split; [|discriminate]. intros ->. destruct gs as [|d' gs].
  - intros a b c E Nc. destruct a as [|? a]; [injection E as <- <-; congruence|]. destruct a; discriminate E.
  - cbn [okg] in O. apply andb_true_iff in O as [O1 O2]. apply andb_true_iff in O1 as [Og On]. cbn [orb] in On. intros a b c E Nc. destruct a as [|x a]; [injection E as <- <-; split; [apply ne_true, On|exact Og]|]. injection E as <- E. exact (proj1 (IH false O2) eq_refl a b c E Nc).
Qed.
Lemma skip_shape s : exists b, s = b ++ skipSpace s /\ Forall is_space b.
Proof.
  induction s as [|c s (b & E & F)]; [exists []; split; [reflexivity|constructor]|]. cbn [skipSpace]. destruct (isSpace c) eqn:H; [|exists []; split; [reflexivity|constructor]].
  exists (c :: b). cbn. rewrite <- E. split; [reflexivity|]. constructor; [apply isSpace_ok, H|exact F].
Qed.
Lemma takeSign_shape s : exists sg, s = sg ++ snd (takeSign s) /\ is_sign sg.
Proof.
  destruct s as [|c s]; [exists []; split; [reflexivity|left; reflexivity]|]. unfold takeSign. destruct (ascii_dec c "-") as [->|N1]; [exists ["-"]; split; [reflexivity|right; left; reflexivity]|].
  destruct (ascii_dec c "+") as [->|N2]; [exists ["+"]; split; [reflexivity|right; right; reflexivity]|]. exists []. split; [|left; reflexivity].
  destruct c as [[] [] [] [] [] [] [] []]; try reflexivity; exfalso; first [apply N1; reflexivity|apply N2; reflexivity].
Qed.
Theorem parse_accepted g s d : parseDouble g s = Some d -> (Forall is_space s /\ d = Indeterminate) \/ exists w, like_number g w /\ s = text_of w.
Proof.
  unfold parseDouble. destruct (skip_shape s) as (b & E & F). destruct (skipSpace s) as [|c r] eqn:Es.
  - intros H. injection H as <-. left. rewrite E, app_nil_r. auto.
  - intros H. right. destruct (takeSign_shape (c :: r)) as (sg & E1 & Sg). destruct (takeSign (c :: r)) as [neg u]. cbn [snd] in E1. destruct (scanAll g u _) as [y|] eqn:Y; [|discriminate H].
    apply shape_int in Y as (gs & f & x & Eu & O & Fg & Ff & X). destruct (okg_separated g gs false O) as [Sp Ng]. exists (Written b sg gs f x).
    assert (Et : s = text_of (Written b sg gs f x)) by (unfold text_of; cbn [w_blank w_sign w_groups w_frac w_exp]; rewrite <- Eu, <- E1; exact E). split; [|exact Et].
    constructor; cbn [w_blank w_sign w_groups w_frac w_exp]; auto.
    + apply Sp. reflexivity.
    + intros c' s' t' E'. destruct (X c' s' t' E') as (A & B & C & D). split; [exact A|]. split; [exact B|]. split; [exact C|]. apply ne_true. rewrite mantissa_ne. unfold frac_digits. cbn [w_groups w_frac]. destruct f; exact D.
    + rewrite <- Eu, <- E1. discriminate.
Qed.

(** * Integers *)
Lemma extract_digits g : forall ds r count any z, Forall is_digit ds -> extractInt g (ds ++ r) count any z = extractInt g r (count || ne ds) (any || ne ds) (acc z ds).
Proof.
  induction ds as [|c ds IH]; intros r count any z F; cbn [app]; [cbn; rewrite !orb_false_r; reflexivity|]. inversion F as [|? ? Hc F']; subst. destruct (is_digit_ok c Hc) as (D & C & _). cbn [extractInt]. rewrite C, andb_false_r, D, IH by exact F'. cbn [ne]. rewrite !orb_true_r. reflexivity.
Qed.
Lemma extract_groups g : forall gs count any z, gs <> [] -> Forall (Forall is_digit) gs -> separated g gs -> extractInt g (join "," gs) count any z = Some (any || ne (List.concat gs), acc z (List.concat gs)).
Proof.
  induction gs as [|d gs IH]; intros count any z N F S; [congruence|]. inversion F as [|? ? Fd F']; subst. destruct gs as [|d' gs].
  - cbn [join List.concat]. rewrite app_nil_r. rewrite <- (app_nil_r d) at 1. rewrite extract_digits by exact Fd. reflexivity.
  - change (join "," (d :: d' :: gs)) with (d ++ "," :: join "," (d' :: gs)). rewrite extract_digits by exact Fd. destruct (S [] d (d' :: gs) eq_refl ltac:(discriminate)) as [Nd ->]. assert (Ed : ne d = true) by (apply ne_true, Nd). rewrite Ed, !orb_true_r.
    cbn [extractInt andb]. rewrite Ascii.eqb_refl. rewrite IH by (first [discriminate|exact F'|exact (separated_tail _ _ _ S)]). change (List.concat (d :: d' :: gs)) with (d ++ List.concat (d' :: gs)). rewrite acc_app, ne_app, Ed, !orb_true_r. reflexivity.
Qed.
Lemma integer_body w : integer w -> body w = join "," (w_groups w) /\ mantissa w = List.concat (w_groups w).
Proof. intros [E1 E2]. unfold body, mantissa, frac_digits. rewrite E1, E2. cbn. rewrite !app_nil_r. auto. Qed.
Theorem readInt_like g w old : like_number g w -> integer w -> readInt g (text_of w) old = Some (if ne (mantissa w) then clamp (signed (w_sign w) (decimal (mantissa w))) else 0%Z).
Proof.
  intros L I. destruct (integer_body w I) as [Eb Em]. pose proof L as [L1 L2 L3 L4 L5 L6 L7 L8]. unfold readInt, text_of. fold (body w) in L8 |- *. rewrite skip_blank by exact L1.
  destruct (takeSign_ok (w_sign w) (body w) L2 (body_head g w L)) as [E1 E2]. rewrite E2. destruct (w_sign w ++ body w) as [|c r] eqn:E; [congruence|]. rewrite E1, Eb. rewrite (extract_groups g (w_groups w) false false 0 L3 L4 L5). cbn [orb]. rewrite Em. destruct (ne _); reflexivity.
Qed.
Lemma shape_extract g : forall s count any z y, extractInt g s count any z = Some y -> exists gs, s = join "," gs /\ okg g count gs = true /\ Forall (Forall is_digit) gs.
Proof.
  induction s as [|c s IH]; intros count any z y H; [exists [[]]; split; [reflexivity|]; split; [reflexivity|repeat constructor]|]. cbn [extractInt] in H. destruct (g && Ascii.eqb c ",") eqn:Cg.
  - destruct count; [|discriminate H]. apply IH in H as (gs & -> & O & F). apply andb_true_iff in Cg as [Hg Hc]. apply Ascii.eqb_eq in Hc. subst c. exists ([] :: gs). destruct gs as [|d gs]; [discriminate O|]. split; [reflexivity|]. split; [change (g && true && okg g false (d :: gs) = true); rewrite O, Hg; reflexivity|]. constructor; [constructor|exact F].
  - destruct (digitOf c) as [d|] eqn:D; [|discriminate H]. apply IH in H as (gs & -> & O & F). destruct gs as [|d0 gs]; [discriminate O|]. inversion F as [|? ? F0 F']; subst. exists ((c :: d0) :: gs). split; [destruct gs; reflexivity|]. split; [destruct gs as [|d1 gs]; [reflexivity|]; cbn [okg ne] in O |- *; rewrite orb_true_r; exact O|]. constructor; [constructor; [apply (digit_some c d D)|exact F0]|exact F'].
Qed.
Theorem readInt_accepted g s old v : readInt g s old = Some v -> (Forall is_space s /\ v = old) \/ exists w, like_number g w /\ integer w /\ s = text_of w.
Proof.
  unfold readInt. destruct (skip_shape s) as (b & E & F). destruct (skipSpace s) as [|c r] eqn:Es.
  - intros H. injection H as <-. left. rewrite E, app_nil_r. auto.
  - intros H. right. destruct (takeSign_shape (c :: r)) as (sg & E1 & Sg). destruct (takeSign (c :: r)) as [neg u]. cbn [snd] in E1. destruct (extractInt g u _ _ _) as [y|] eqn:Y; [|discriminate H].
    apply shape_extract in Y as (gs & Eu & O & Fg). destruct (okg_separated g gs false O) as [Sp Ng]. exists (Written b sg gs None None).
    assert (Eb : join "," gs ++ frac_text None ++ exp_text None = u) by (cbn; rewrite !app_nil_r; symmetry; exact Eu).
    split; [|split; [split; reflexivity|unfold text_of; cbn [w_blank w_sign w_groups w_frac w_exp]; rewrite Eb, <- E1; exact E]].
    constructor; cbn [w_blank w_sign w_groups w_frac w_exp]; auto.
    + apply Sp. reflexivity.
    + intros t E'. discriminate E'.
    + intros c' s' t' E'. discriminate E'.
    + rewrite Eb, <- E1. discriminate.
Qed.

(** * Fractions and vectors *)
Definition harmless (c : ascii) : Prop := Ascii.eqb c "/" = false /\ Ascii.eqb c ";" = false.
Lemma harmless_digits t : Forall is_digit t -> Forall harmless t.
Proof. apply Forall_impl. intros c H. destruct (is_digit_ok c H) as (_ & _ & _ & _ & A & B). split; assumption. Qed.
Lemma harmless_join gs : Forall (Forall is_digit) gs -> Forall harmless (join "," gs).
Proof.
  induction gs as [|d gs IH]; intros F; [constructor|]. inversion F; subst. destruct gs as [|d' gs]; [apply harmless_digits; assumption|]. change (join "," (d :: d' :: gs)) with (d ++ "," :: join "," (d' :: gs)). apply Forall_app. split; [apply harmless_digits; assumption|]. constructor; [split; reflexivity|]. apply IH. assumption.
Qed.
Lemma harmless_sign s : is_sign s -> Forall harmless s.
Proof. intros [->|[-> | ->]]; repeat constructor. Qed.
Lemma harmless_text g w : like_number g w -> Forall harmless (text_of w).
Proof.
  intros [L1 L2 L3 L4 L5 L6 L7 L8]. unfold text_of. repeat (apply Forall_app; split).
  - revert L1. apply Forall_impl. intros c H. unfold is_space in H. cbn [In] in H. repeat destruct H as [<-|H]; [..|destruct H]; split; reflexivity.
  - apply harmless_sign, L2.
  - apply harmless_join, L4.
  - destruct (w_frac w) as [t|]; [|constructor]. constructor; [split; reflexivity|]. apply harmless_digits, L6. reflexivity.
  - destruct (w_exp w) as [[[c s] t]|]; [|constructor]. destruct (L7 c s t eq_refl) as (Hc & Hs & Ht & _). constructor; [destruct Hc as [-> | ->]; split; reflexivity|]. apply Forall_app. split; [apply harmless_sign, Hs|apply harmless_digits, Ht].
Qed.
Lemma cut_none s : Forall harmless s -> cutAt "/" s = None.
Proof. induction 1 as [|c s [H _] F IH]; [reflexivity|]. cbn [cutAt]. rewrite H, IH. reflexivity. Qed.
Lemma cut_some a b : Forall harmless a -> cutAt "/" (a ++ "/" :: b) = Some (a, b).
Proof. induction 1 as [|c s [H _] F IH]; cbn [cutAt app]; [reflexivity|]. rewrite H, IH. reflexivity. Qed.
Lemma split_one : forall t cur last, Forall harmless t -> t <> [] \/ last = false -> splitCompress t cur last = [rev cur ++ t].
Proof.
  induction t as [|c t IH]; intros cur last F H.
  - cbn. rewrite app_nil_r. reflexivity.
  - inversion F as [|? ? [_ Hc] F']; subst. cbn [splitCompress]. rewrite Hc, IH by (auto; exact F'). cbn [rev]. rewrite <- app_assoc. reflexivity.
Qed.
Lemma split_cons : forall t cur last r, Forall harmless t -> t <> [] -> splitCompress (t ++ ";" :: r) cur last = (rev cur ++ t) :: splitCompress r [] true.
Proof.
  induction t as [|c t IH]; intros cur last r F N; [congruence|]. inversion F as [|? ? [_ Hc] F']; subst. cbn [app splitCompress]. rewrite Hc. destruct t as [|c' t].
  - cbn [app splitCompress]. rewrite Ascii.eqb_refl. reflexivity.
  - rewrite IH by (first [exact F'|discriminate]). cbn [rev]. rewrite <- app_assoc. reflexivity.
Qed.
Lemma split_join : forall ts last, ts <> [] -> Forall (Forall harmless) ts -> Forall (fun t => t <> []) ts -> splitCompress (join ";" ts) [] last = ts.
Proof.
  induction ts as [|t ts IH]; intros last N F Ne; [congruence|]. inversion F; subst. inversion Ne; subst. destruct ts as [|t' ts].
  - cbn [join]. rewrite split_one by auto. reflexivity.
  - change (join ";" (t :: t' :: ts)) with (t ++ ";" :: join ";" (t' :: ts)). rewrite split_cons by assumption. cbn [rev app]. rewrite IH; [reflexivity|discriminate|assumption|assumption].
Qed.
Lemma text_nonempty g w : like_number g w -> text_of w <> [].
Proof. intros L E. unfold text_of in E. apply app_eq_nil in E as [_ E]. exact (ln_something _ _ L E). Qed.
Lemma allSome_map {A B} (f : A -> option B) (h : A -> B) l : (forall x, In x l -> f x = Some (h x)) -> allSome (map f l) = Some (map h l).
Proof. induction l as [|x l IH]; intros H; [reflexivity|]. cbn. rewrite H by (left; reflexivity). rewrite IH by (intros; apply H; right; assumption). reflexivity. Qed.
