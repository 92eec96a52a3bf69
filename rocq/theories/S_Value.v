(** Numbers as they are written, and what they mean. *)
From Coq Require Import Bool List Ascii String ZArith QArith.
From Verif Require Import M_Value.
Import ListNotations.
Open Scope char_scope.

Definition is_digit (c : ascii) : Prop := In c ["0"; "1"; "2"; "3"; "4"; "5"; "6"; "7"; "8"; "9"].
Definition is_space (c : ascii) : Prop := In c [" "; "009"; "010"; "011"; "012"; "013"].
Definition is_sign (t : text) : Prop := t = [] \/ t = ["-"] \/ t = ["+"].
Definition negative (t : text) : bool := match t with ["-"] => true | _ => false end.
(** the number with these decimal digits *)
Definition decimal (t : text) : Z := fold_left (fun z c => z * 10 + (Z.of_nat (nat_of_ascii c) - 48))%Z t 0%Z.
Definition signed (s : text) (z : Z) : Z := if negative s then (- z)%Z else z.

(** [w_blank w_sign w_groups . w_frac e w_exp]: the groups are what is between separators *)
Record written := Written { w_blank : text; w_sign : text; w_groups : list text; w_frac : option text; w_exp : option (ascii * text * text) }.
Fixpoint join (c : ascii) (l : list text) : text := match l with [] => [] | [t] => t | t :: r => t ++ c :: join c r end.
Definition frac_text (f : option text) : text := match f with None => [] | Some t => "." :: t end.
Definition exp_text (e : option (ascii * text * text)) : text := match e with None => [] | Some (c, s, t) => c :: s ++ t end.
Definition text_of (w : written) : text := w_blank w ++ w_sign w ++ join "," (w_groups w) ++ frac_text (w_frac w) ++ exp_text (w_exp w).
Definition frac_digits (w : written) : text := match w_frac w with None => [] | Some t => t end.
Definition mantissa (w : written) : text := List.concat (w_groups w) ++ frac_digits w.
(** what is written like a number: blanks, a sign, digits (separators only directly behind a digit, and only if
    the locale has them), a point and digits, an exponent; digits may be missing, but not before an exponent *)
Record like_number (grouping : bool) (w : written) : Prop := Like {
  ln_blank : Forall is_space (w_blank w); ln_sign : is_sign (w_sign w); ln_groups : w_groups w <> []; ln_digits : Forall (Forall is_digit) (w_groups w);
  ln_separators : forall a b c, w_groups w = a ++ b :: c -> c <> [] -> b <> [] /\ grouping = true;
  ln_frac : forall t, w_frac w = Some t -> Forall is_digit t;
  ln_exp : forall c s t, w_exp w = Some (c, s, t) -> (c = "e" \/ c = "E") /\ is_sign s /\ Forall is_digit t /\ mantissa w <> [];
  ln_something : w_sign w ++ join "," (w_groups w) ++ frac_text (w_frac w) ++ exp_text (w_exp w) <> [] }.
(** a number: no digits are missing *)
Definition is_number (w : written) : Prop := mantissa w <> [] /\ forall c s t, w_exp w = Some (c, s, t) -> t <> [].
Definition exponent (w : written) : Z := match w_exp w with None => 0 | Some (_, s, t) => signed s (decimal t) end.
(** its value: the digits, shifted by the exponent and the number of digits behind the point *)
Definition value (w : written) : Q := (inject_Z (signed (w_sign w) (decimal (mantissa w))) * Qpower (10 # 1) (exponent w - Z.of_nat (List.length (frac_digits w))))%Q.
Definition integer (w : written) : Prop := w_frac w = None /\ w_exp w = None.
(** a text without any of the given escapes *)
Definition contains (p s : text) : Prop := exists a b, s = a ++ p ++ b.
(** a text in which each character may or may not be written with its escape *)
Inductive encoded : text -> text -> Prop :=
| enc_nil : encoded [] []
| enc_plain c s t : encoded s t -> encoded (c :: s) (c :: t)
| enc_escape p c s t : In (p, c) escapes -> encoded s t -> encoded (c :: s) (p ++ t).
