(** Reading the values of attributes.

    Models src/xml/ValueParser.cpp and ValueParser.hpp, src/utils/String.cpp convertStringToBool 56-64 and
    src/xml/ConfigParser.cpp decodeXML 24-42, with operator>> of the standard library (libstdc++: sentry,
    num_get::_M_extract_int and _M_extract_float).

    Simplifications:
    - Numbers are exact.  The code stores the double next to it, and the largest double beyond that.
    - Texts are lists of bytes.
    - [grouping]: whether the locale en_US.UTF-8 exists on the machine, which has ',' as separator of thousands
      (without it the stream keeps the classic locale, which has none).
    - int: after an overflow a second separator in a row is rejected as otherwise; libstdc++ also rejects
      one that follows digits which it no longer counts. *)
From Coq Require Import Bool List Ascii String ZArith QArith.
Import ListNotations.
Open Scope char_scope.

Definition text := list ascii.
(** isspace in the classic locale *)
Definition isSpace (c : ascii) : bool := existsb (Ascii.eqb c) [" "; "009"; "010"; "011"; "012"; "013"].
Fixpoint skipSpace (s : text) : text := match s with c :: r => if isSpace c then skipSpace r else s | [] => [] end.
Definition digitOf (c : ascii) : option Z := let n := Z.of_nat (nat_of_ascii c) in if (48 <=? n)%Z && (n <=? 57)%Z then Some (n - 48)%Z else None.
(** the sign: whether it is negative, and the rest *)
Definition takeSign (s : text) : bool * text := match s with "-" :: r => (true, r) | "+" :: r => (false, r) | _ => (false, s) end.

(** * int *)
(** _M_extract_int for base 10, until the end of the text (the code rejects the value unless the whole text
    was consumed).  [count]: a digit was found since the last separator; [any]: the text had a digit.
    None: another character. *)
Fixpoint extractInt (grouping : bool) (s : text) (count any : bool) (acc : Z) : option (bool * Z) :=
  match s with
  | [] => Some (any, acc)
  | c :: r =>
      if grouping && Ascii.eqb c "," then if count then extractInt grouping r false any acc else None
      else match digitOf c with None => None | Some d => extractInt grouping r true true (acc * 10 + d) end
  end.
Definition INT_MAX : Z := 2147483647.
Definition INT_MIN : Z := -2147483648.
Definition clamp (z : Z) : Z := Z.max INT_MIN (Z.min INT_MAX z).
(** readValueSpecific for int: the value of the variable afterwards, None: the exception.  At the end of the
    text after the blanks, nothing is stored. *)
Definition readInt (grouping : bool) (s : text) (old : Z) : option Z :=
  match skipSpace s with
  | [] => Some old
  | t => let (neg, u) := takeSign t in
         match extractInt grouping u false false 0 with
         | None => None
         | Some (false, _) => Some 0%Z
         | Some (true, z) => Some (clamp (if neg then - z else z))
         end
  end.

(** * double *)
(** the state of _M_extract_float: the digits of the mantissa, whether it has any, whether there was a point
    and how many digits were behind it, whether a digit was found since the last separator; whether there was
    an e, whether it was the last character, the sign and the digits of the exponent and whether it has any *)
Record scan := Scan { sc_m : Z; sc_any : bool; sc_dec : bool; sc_frac : nat; sc_count : bool; sc_sci : bool; sc_fresh : bool; sc_eneg : bool; sc_e : Z; sc_eany : bool }.
Definition scanStep (grouping : bool) (c : ascii) (x : scan) : option scan :=
  let (m, any, dec, frac, count, sci, fresh, eneg, e, eany) := x in
  if grouping && Ascii.eqb c "," then
    if negb dec && negb sci && count then Some (Scan m any dec frac false sci fresh eneg e eany) else None
  else if Ascii.eqb c "." then
    if negb dec && negb sci then Some (Scan m any true frac count sci fresh eneg e eany) else None
  else
    match digitOf c with
    | Some d => if sci then Some (Scan m any dec frac count sci false eneg (e * 10 + d) true)
                else Some (Scan (m * 10 + d) true dec (if dec then S frac else frac) true sci fresh eneg e eany)
    | None =>
        if (Ascii.eqb c "e" || Ascii.eqb c "E") && negb sci && any then Some (Scan m any dec frac count true true eneg e eany)
        else if fresh && (Ascii.eqb c "+" || Ascii.eqb c "-") then Some (Scan m any dec frac count sci false (Ascii.eqb c "-") e eany)
        else None
    end.
Fixpoint scanAll (grouping : bool) (s : text) (x : scan) : option scan :=
  match s with [] => Some x | c :: r => match scanStep grouping c x with None => None | Some x => scanAll grouping r x end end.
Definition power10 (e : Z) : Q := Qpower (10 # 1) e.
(** the conversion of what was extracted: 0 unless it is a number *)
Definition converted (neg : bool) (x : scan) : Q :=
  if sc_any x && (negb (sc_sci x) || sc_eany x)
  then (inject_Z (if neg then - sc_m x else sc_m x) * power10 ((if sc_eneg x then - sc_e x else sc_e x) - Z.of_nat (sc_frac x)))%Q
  else 0%Q.
Inductive dbl := Number (q : Q) | NotFinite | Indeterminate (* the variable was never written *).
(** parseDouble 14-27 *)
Definition parseDouble (grouping : bool) (s : text) : option dbl :=
  match skipSpace s with
  | [] => Some Indeterminate
  | t => let (neg, u) := takeSign t in
         match scanAll grouping u (Scan 0 false false 0 false false false false 0 false) with
         | None => None
         | Some x => Some (Number (converted neg x))
         end
  end.
Definition divided (a b : dbl) : dbl :=
  match a, b with
  | Indeterminate, _ | _, Indeterminate => Indeterminate
  | Number p, Number q => if Qeq_bool q 0 then NotFinite else Number (p / q)
  | _, _ => NotFinite
  end.
(** the text before and behind the first '/' *)
Fixpoint cutAt (c : ascii) (s : text) : option (text * text) :=
  match s with [] => None | x :: r => if Ascii.eqb x c then Some ([], r) else match cutAt c r with None => None | Some (a, b) => Some (x :: a, b) end end.
(** readValueSpecific for double 30-40 *)
Definition readDouble (grouping : bool) (s : text) : option dbl :=
  match cutAt "/" s with
  | Some (l, r) => match parseDouble grouping l, parseDouble grouping r with Some a, Some b => Some (divided a b) | _, _ => None end
  | None => parseDouble grouping s
  end.

(** * VectorXd 55-69 *)
(** boost::split at ';' with token_compress_on: separators in a row count as one.  [cur]: the current token,
    reversed; [last]: the last character was a separator *)
Fixpoint splitCompress (s : text) (cur : text) (last : bool) : list text :=
  match s with
  | [] => [rev cur]
  | c :: r => if Ascii.eqb c ";" then if last then splitCompress r cur true else rev cur :: splitCompress r [] true
              else splitCompress r (c :: cur) false
  end.
Fixpoint allSome {A} (l : list (option A)) : option (list A) :=
  match l with [] => Some [] | Some a :: r => match allSome r with Some b => Some (a :: b) | None => None end | None :: _ => None end.
Definition readVector (grouping : bool) (s : text) : option (list dbl) := allSome (map (parseDouble grouping) (splitCompress s [] false)).

(** * bool, String.cpp 56-64 *)
Definition toLower (c : ascii) : ascii := let n := nat_of_ascii c in if (65 <=? n)%nat && (n <=? 90)%nat then ascii_of_nat (n + 32) else c.
Fixpoint textEqb (a b : text) : bool := match a, b with [], [] => true | x :: a, y :: b => Ascii.eqb x y && textEqb a b | _, _ => false end.
Definition readBool (s : text) : bool :=
  existsb (textEqb (map toLower s)) (map list_ascii_of_string ["1"; "yes"; "true"; "on"]%string).

(** * decodeXML, ConfigParser.cpp 24-42 *)
Definition escapes : list (text * ascii) :=
  [(list_ascii_of_string "&amp;", "&"); (list_ascii_of_string "&apos;", "'"); (list_ascii_of_string "&gt;", ">"); (list_ascii_of_string "&lt;", "<"); (list_ascii_of_string "&quot;", """")].
Fixpoint startsWith (p s : text) : option text :=
  match p, s with [], _ => Some s | x :: p, y :: s => if Ascii.eqb x y then startsWith p s else None | _, [] => None end.
(** find and replace of the first occurrence *)
Fixpoint replaceFirst (p : text) (c : ascii) (s : text) : option text :=
  match startsWith p s with
  | Some r => Some (c :: r)
  | None => match s with [] => None | x :: r => match replaceFirst p c r with None => None | Some t => Some (x :: t) end end
  end.
(** one run over all escapes (a map, in the order of the keys) *)
Fixpoint replaceEach (es : list (text * ascii)) (s : text) (changes : bool) : text * bool :=
  match es with
  | [] => (s, changes)
  | (p, c) :: r => match replaceFirst p c s with Some t => replaceEach r t true | None => replaceEach r s changes end
  end.
(** the loop; [fuel] bounds the rounds, and the length of the text is enough *)
Fixpoint decodeLoop (fuel : nat) (s : text) : option text :=
  match fuel with
  | O => None
  | S fuel => let (t, changes) := replaceEach escapes s false in if changes then decodeLoop fuel t else Some t
  end.
Definition decodeXML (s : text) : option text := decodeLoop (S (List.length s)) s.
