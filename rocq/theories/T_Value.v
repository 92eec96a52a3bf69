(** C73: numbers in the configuration are read as they are written. *)
From Coq Require Import Bool List Ascii String ZArith QArith Lia.
From Verif Require Import M_Value S_Value P_Value P_Decode.
Import ListNotations.
Open Scope nat_scope.
Open Scope list_scope.

(** * double *)
(** Every number that is written, with blanks before it, is read exactly, whatever the locale. *)
Theorem C73_double : forall grouping w, like_number grouping w -> is_number w -> parseDouble grouping (text_of w) = Some (Number (value w)).
Proof.
  intros g w L [N1 N2]. rewrite (parse_like g w L). unfold converts. apply ne_true in N1. rewrite N1. cbn [andb]. destruct (w_exp w) as [[[c s] t]|]; [|reflexivity]. specialize (N2 c s t eq_refl). apply ne_true in N2. rewrite N2. reflexivity.
Qed.
(** Nothing else is accepted, except numbers with missing digits, which are 0, and blank texts, which leave the value undefined. *)
Theorem C73_double_accepted : forall grouping s d, parseDouble grouping s = Some d <->
  (Forall is_space s /\ d = Indeterminate) \/
  (exists w, like_number grouping w /\ s = text_of w /\ ((is_number w /\ d = Number (value w)) \/ (~ is_number w /\ d = Number 0))).
Proof.
  intros g s d. split.
  - intros H. destruct (parse_accepted g s d H) as [B|(w & L & ->)]; [left; exact B|right]. exists w. split; [exact L|]. split; [reflexivity|]. rewrite (parse_like g w L) in H. injection H as <-. unfold converts.
    destruct (ne (mantissa w)) eqn:N; cbn [andb].
    + apply ne_true in N. destruct (w_exp w) as [[[c x] t]|] eqn:E; [|left; split; [split; [exact N|intros; congruence]|reflexivity]]. destruct (ne t) eqn:Nt.
      * apply ne_true in Nt. left. split; [|reflexivity]. split; [exact N|]. intros ? ? ? E'. rewrite E in E'. injection E' as <- <- <-. exact Nt.
      * apply ne_false in Nt. right. split; [|reflexivity]. intros [_ H]. exact (H c x t E Nt).
    + apply ne_false in N. right. split; [|reflexivity]. intros [H _]. exact (H N).
  - intros [[B ->]|(w & L & -> & H)].
    + unfold parseDouble. rewrite <- (app_nil_r s), skip_blank by exact B. reflexivity.
    + rewrite (parse_like g w L). unfold converts. destruct H as [[[N1 N2] ->]|[N ->]].
      * apply ne_true in N1. rewrite N1. cbn [andb]. destruct (w_exp w) as [[[c x] t]|]; [|reflexivity]. specialize (N2 c x t eq_refl). apply ne_true in N2. rewrite N2. reflexivity.
      * destruct (ne (mantissa w)) eqn:E; [|reflexivity]. cbn [andb]. destruct (w_exp w) as [[[c x] t]|] eqn:Ex; [destruct (ne t) eqn:Nt; [|reflexivity]|]; exfalso; apply N; (split; [apply ne_true, E|]).
        -- intros ? ? ? E'. rewrite Ex in E'. injection E' as <- <- <-. apply ne_true, Nt.
        -- intros ? ? ? E'. congruence.
Qed.
(** Numbers and fractions of numbers. *)
Theorem C73_fraction : forall grouping a, like_number grouping a -> is_number a -> readDouble grouping (text_of a) = Some (Number (value a)) /\
  forall b, like_number grouping b -> is_number b -> ~ (value b == 0)%Q -> readDouble grouping (text_of a ++ "/"%char :: text_of b) = Some (Number (value a / value b)).
Proof.
  intros g a La Na. split.
  - unfold readDouble. rewrite cut_none by (eapply harmless_text, La). apply C73_double; assumption.
  - intros b Lb Nb Z. unfold readDouble. rewrite cut_some by (eapply harmless_text, La). rewrite !C73_double by assumption. cbn [divided]. destruct (Qeq_bool (value b) 0) eqn:E; [apply Qeq_bool_iff in E; contradiction|reflexivity].
Qed.
(** Vectors: numbers separated by semicolons. *)
Theorem C73_vector : forall grouping ws, ws <> [] -> Forall (like_number grouping) ws -> Forall is_number ws -> readVector grouping (join ";"%char (map text_of ws)) = Some (map (fun w => Number (value w)) ws).
Proof.
  intros g ws N L I. rewrite Forall_forall in L, I. unfold readVector. rewrite split_join.
  - rewrite map_map. apply allSome_map. intros w Hw. apply C73_double; auto.
  - destruct ws; [congruence|discriminate].
  - apply Forall_forall. intros t Ht. apply in_map_iff in Ht as (w & <- & Hw). eapply harmless_text, L, Hw.
  - apply Forall_forall. intros t Ht. apply in_map_iff in Ht as (w & <- & Hw). eapply text_nonempty, L, Hw.
Qed.

(** * int *)
(** Every integer that is written and fits is read exactly, whatever the variable contained. *)
Theorem C73_int : forall grouping w old, like_number grouping w -> integer w -> is_number w -> (INT_MIN <= signed (w_sign w) (decimal (mantissa w)) <= INT_MAX)%Z ->
  readInt grouping (text_of w) old = Some (signed (w_sign w) (decimal (mantissa w))).
Proof.
  intros g w old L I [N _] B. rewrite (readInt_like g w old L I). apply ne_true in N. rewrite N. f_equal. unfold clamp. lia.
Qed.
Theorem C73_int_accepted : forall grouping s old v, readInt grouping s old = Some v <->
  (Forall is_space s /\ v = old) \/
  (exists w, like_number grouping w /\ integer w /\ s = text_of w /\ ((mantissa w <> [] /\ v = clamp (signed (w_sign w) (decimal (mantissa w)))) \/ (mantissa w = [] /\ v = 0%Z))).
Proof.
  intros g s old v. split.
  - intros H. destruct (readInt_accepted g s old v H) as [B|(w & L & I & ->)]; [left; exact B|right]. exists w. split; [exact L|]. split; [exact I|]. split; [reflexivity|]. rewrite (readInt_like g w old L I) in H. injection H as <-. destruct (ne (mantissa w)) eqn:N; [left; split; [apply ne_true, N|reflexivity]|right; split; [apply ne_false, N|reflexivity]].
  - intros [[B ->]|(w & L & I & -> & H)].
    + unfold readInt. rewrite <- (app_nil_r s), skip_blank by exact B. reflexivity.
    + rewrite (readInt_like g w old L I). destruct H as [[N ->]|[N ->]]; [apply ne_true in N; rewrite N; reflexivity|rewrite N; reflexivity].
Qed.

(** The hypothesis of C72 about readers: only blank texts depend on what was read before. *)
Theorem C73_steady : forall grouping s old old', ~ Forall is_space s -> readInt grouping s old = readInt grouping s old'.
Proof.
  intros g s old old' N. unfold readInt. destruct (skipSpace s) eqn:E; [|reflexivity]. exfalso. apply N. destruct (skip_shape s) as (b & Es & F). rewrite E, app_nil_r in Es. rewrite Es. exact F.
Qed.

(** * bool and string escapes *)
Lemma textEqb_ok : forall a b, textEqb a b = true <-> a = b.
Proof. induction a as [|x a IH]; intros [|y b]; cbn; try (split; congruence). rewrite andb_true_iff, Ascii.eqb_eq, IH. split; [intros [-> ->]; reflexivity|intros E; injection E as -> ->; auto]. Qed.
Theorem C73_bool : forall s, readBool s = true <-> exists t, In t ["1"; "yes"; "true"; "on"]%string /\ map toLower s = list_ascii_of_string t.
Proof.
  intros s. unfold readBool. rewrite existsb_exists. split.
  - intros (x & Hx & E). apply textEqb_ok in E. apply in_map_iff in Hx as (t & <- & Ht). exists t. auto.
  - intros (t & Ht & E). exists (list_ascii_of_string t). split; [apply in_map, Ht|apply textEqb_ok, E].
Qed.
(** A text comes back if any of its characters are written with their escapes, unless the text itself looks like an escape. *)
Theorem C73_decode : forall s t, encoded s t -> (forall p c, In (p, c) escapes -> ~ contains p s) -> decodeXML t = Some s.
Proof. exact decode_encoded. Qed.
(** The loop of decodeXML ends for every text, and leaves no escape. *)
Theorem C73_decode_ends : forall s, exists t, decodeXML s = Some t /\ (forall p c, In (p, c) escapes -> ~ contains p t) /\ ((forall p c, In (p, c) escapes -> ~ contains p s) -> t = s).
Proof. intros s. destruct (decode_total s) as (t & A & _ & B & C). exists t. auto. Qed.
Print Assumptions C73_double.
Print Assumptions C73_double_accepted.
Print Assumptions C73_fraction.
Print Assumptions C73_vector.
Print Assumptions C73_int.
Print Assumptions C73_int_accepted.
Print Assumptions C73_steady.
Print Assumptions C73_bool.
Print Assumptions C73_decode.
Print Assumptions C73_decode_ends.

(** * What is accepted although it is not a number *)
Local Notation T := list_ascii_of_string.
(** a blank text leaves an integer at the value of the tag read before, and a real number undefined *)
Theorem C73_blank_refuted : forall grouping s, Forall is_space s -> (forall old, readInt grouping s old = Some old) /\ readDouble grouping s = Some Indeterminate /\ readVector grouping s = Some [Indeterminate].
Proof.
  intros g s B. assert (P : parseDouble g s = Some Indeterminate) by (apply C73_double_accepted; left; auto).
  assert (H : Forall harmless s) by (revert B; apply Forall_impl; intros c H; unfold is_space in H; cbn [In] in H; repeat destruct H as [<-|H]; [..|destruct H]; split; reflexivity).
  split; [intros old; apply C73_int_accepted; left; auto|]. split.
  - unfold readDouble. rewrite cut_none by exact H. exact P.
  - unfold readVector. rewrite split_one by auto. cbn [map rev app]. rewrite P. reflexivity.
Qed.
(** with the locale en_US, a decimal comma is dropped: 0,5 is read as 5; without it the text is rejected *)
Theorem C73_comma_refuted : forall a b, a <> [] -> Forall is_digit a -> Forall is_digit b ->
  parseDouble true (a ++ ","%char :: b) = Some (Number (inject_Z (decimal (a ++ b)) * 1)) /\ parseDouble false (a ++ ","%char :: b) = None.
Proof.
  intros a b Na Fa Fb. set (w := Written [] [] [a; b] None None).
  assert (Tx : text_of w = a ++ ","%char :: b) by (unfold text_of; cbn; rewrite !app_nil_r; reflexivity).
  assert (M : mantissa w = a ++ b) by (unfold mantissa, frac_digits; cbn; rewrite !app_nil_r; reflexivity). split.
  - rewrite <- Tx, C73_double.
    + unfold value. rewrite M. unfold exponent, frac_digits, signed. cbn [w w_exp w_frac w_sign negative List.length Z.of_nat Z.sub Z.add Z.opp Qpower]. reflexivity.
    + constructor; cbn [w w_blank w_sign w_groups w_frac w_exp]; try (constructor; fail); auto.
      * left. reflexivity.
      * discriminate.
      * intros x y z E Nz. destruct x as [|? x]; [injection E as <- <-; auto|]. destruct x as [|? x]; [injection E as E1 E2 E3; symmetry in E3; contradiction|]. destruct x; discriminate E.
      * intros t E. discriminate E.
      * intros c s t E. discriminate E.
      * destruct a; [congruence|discriminate].
    + split; [rewrite M; destruct a; [congruence|discriminate]|intros c s t E; discriminate E].
  - destruct (parseDouble false _) as [d|] eqn:E; [|reflexivity]. exfalso. assert (C : In ","%char (a ++ ","%char :: b)) by (apply in_elt). apply C73_double_accepted in E as [[B _]|(v & L & E & _)].
    + rewrite Forall_forall in B. apply B in C. unfold is_space in C. cbn in C. intuition discriminate.
    + rewrite E in C. destruct L as [L1 L2 L3 L4 L5 L6 L7 L8]. unfold text_of in C. rewrite !in_app_iff in C. destruct C as [C|[C|[C|[C|C]]]].
      * rewrite Forall_forall in L1. apply L1 in C. unfold is_space in C. cbn in C. intuition discriminate.
      * destruct L2 as [H|[H|H]]; rewrite H in C; cbn in C; intuition discriminate.
      * destruct (w_groups v) as [|g0 [|g1 gs]]; [destruct C| |destruct (L5 [] g0 (g1 :: gs) eq_refl ltac:(discriminate)) as [_ H]; discriminate H]. cbn [join] in C. inversion L4 as [|? ? F _]; subst. rewrite Forall_forall in F. apply F in C. unfold is_digit in C. cbn in C. intuition discriminate.
      * destruct (w_frac v) as [t|]; [|destruct C]. destruct C as [C|C]; [discriminate C|]. specialize (L6 t eq_refl). rewrite Forall_forall in L6. apply L6 in C. unfold is_digit in C. cbn in C. intuition discriminate.
      * destruct (w_exp v) as [[[c s] t]|]; [|destruct C]. destruct (L7 c s t eq_refl) as (Hc & Hs & Ht & _). destruct C as [C|C]; [destruct Hc as [-> | ->]; discriminate C|]. apply in_app_iff in C as [C|C]; [destruct Hs as [->|[-> | ->]]; cbn in C; intuition discriminate|]. rewrite Forall_forall in Ht. apply Ht in C. unfold is_digit in C. cbn in C. intuition discriminate.
Qed.
(** numbers that are broken off are 0 *)
Theorem C73_broken_refuted : forall grouping, map (readDouble grouping) (map T ["-"; "."; "1e"; "2.5e-"]%string) = repeat (Some (Number 0)) 4 /\ readInt grouping (T "-"%string) 7 = Some 0%Z.
Proof. intros []; vm_compute; auto. Qed.
(** integers that do not fit are changed *)
Theorem C73_overflow_refuted : forall grouping old, readInt grouping (T "3000000000"%string) old = Some 2147483647%Z /\ readInt grouping (T "-3000000000"%string) old = Some (-2147483648)%Z.
Proof. intros [] old; vm_compute; auto. Qed.
(** a fraction with denominator 0 is accepted, and any other word is false *)
Theorem C73_words_refuted : forall grouping, readDouble grouping (T "1/0"%string) = Some NotFinite /\ readBool (T "ture"%string) = false /\ readBool (T "enabled"%string) = false /\ readBool [] = false.
Proof. intros []; vm_compute; auto. Qed.
(** escapes are decoded twice: a text that looks like an escape cannot be written *)
Theorem C73_decode_twice_refuted : exists s t, encoded s t /\ decodeXML t <> Some s.
Proof.
  exists (T "&lt;"%string), (T "&amp;lt;"%string). split; [|vm_compute; discriminate]. apply (enc_escape (T "&amp;"%string) "&"%char (T "lt;"%string) (T "lt;"%string)); [left; reflexivity|repeat constructor].
Qed.
Print Assumptions C73_blank_refuted.
Print Assumptions C73_comma_refuted.
Print Assumptions C73_broken_refuted.
Print Assumptions C73_overflow_refuted.
Print Assumptions C73_words_refuted.
Print Assumptions C73_decode_twice_refuted.

(** * Examples *)
Module Examples.
(** " -12.50e+3", both locales *)
Definition w := Written (T " "%string) (T "-"%string) [T "12"%string] (Some (T "50"%string)) (Some ("e"%char, T "+"%string, T "3"%string)).
Lemma digits_ok t : forallb (fun c => match digitOf c with Some _ => true | None => false end) t = true -> Forall is_digit t.
Proof. intros H. apply Forall_forall. intros c Hc. rewrite forallb_forall in H. specialize (H c Hc). destruct (digitOf c) as [d|] eqn:D; [|discriminate H]. apply (digit_some c d D). Qed.
Example w_like : forall grouping, like_number grouping w.
Proof.
  intros g. constructor; cbn [w w_blank w_sign w_groups w_frac w_exp].
  - repeat constructor.
  - right. left. reflexivity.
  - discriminate.
  - repeat constructor; apply digits_ok; reflexivity.
  - intros a b c E N. destruct a as [|? [|]]; [injection E as E1 E2; symmetry in E2; contradiction|discriminate E|discriminate E].
  - intros t E. injection E as <-. apply digits_ok. reflexivity.
  - intros c s t E. injection E as <- <- <-. split; [left; reflexivity|]. split; [right; right; reflexivity|]. split; [apply digits_ok; reflexivity|discriminate].
  - discriminate.
Qed.
Example w_number : is_number w. Proof. split; [discriminate|]. intros c s t E. injection E as _ _ <-. discriminate. Qed.
Example w_read : parseDouble true (T " -12.50e+3"%string) = Some (Number (value w)) /\ (value w == -12500)%Q.
Proof. split; [exact (C73_double true w (w_like true) w_number)|vm_compute; reflexivity]. Qed.
Definition v := Written [] [] [T "1"%string; T "000"%string] None None.
Example v_like : like_number true v.
Proof.
  constructor; cbn [v w_blank w_sign w_groups w_frac w_exp]; try discriminate.
  - constructor.
  - left. reflexivity.
  - repeat constructor; apply digits_ok; reflexivity.
  - intros a b c E N. destruct a as [|? [|]]; [injection E as <- <-; split; [discriminate|reflexivity]|injection E as E1 E2 E3; symmetry in E3; contradiction|]. destruct l; discriminate E.
Qed.
Example v_read : readInt true (T "1,000"%string) 5 = Some 1000%Z.
Proof. refine (C73_int true v 5 v_like (conj eq_refl eq_refl) _ _); [split; [discriminate|intros; discriminate]|vm_compute; split; discriminate]. Qed.
Example fraction_read : readDouble false (T "1/4"%string) = Some (Number ((1 * 1) / (4 * 1))). Proof. vm_compute. reflexivity. Qed.
Example vector_read : readVector false (T "1;0;-2.5"%string) = Some [Number (inject_Z 1 * 1); Number (inject_Z 0 * 1); Number (inject_Z (-25) * Qpower (10 # 1) (-1))]. Proof. vm_compute. reflexivity. Qed.
Example rejected : forallb (fun s => match readDouble true (T s), readDouble false (T s) with None, None => true | _, _ => false end) ["1 "; "inf"; "nan"; "0x10"; "1.2.3"; "1/2/3"; "--1"; "e5"; ",5"; "1e5.2"]%string = true. Proof. vm_compute. reflexivity. Qed.
Example decoded : decodeXML (T "a &lt;= b &amp;&amp; c &quot;x&quot; & d"%string) = Some (T "a <= b && c ""x"" & d"%string). Proof. vm_compute. reflexivity. Qed.
Example decoded_clean : forall p c, In (p, c) escapes -> ~ contains p (T "a <= b && c"%string).
Proof. intros p c H. apply (replace_none p c). cbn in H. repeat destruct H as [H|H]; [..|destruct H]; injection H as <- <-; reflexivity. Qed.
End Examples.
