(** Reading the configuration.

    Models src/xml/ConfigParser.cpp (the tags of the document: 296-324; matching them with the
    definitions: connectTags 244-294), src/xml/XMLTag.cpp (addSubtag 42-52, readAttributes 188-220,
    areAllSubtagsConfigured 231-257, resetAttributes 259-274) and src/xml/XMLAttribute.hpp (readValue).

    The definitions of tags are mutable objects: they remember which subtags were found and the last
    value of every attribute.

    Simplifications:
    - The document comes from libxml2: a sequence of opened and closed elements.  Element names include
      the prefix ("m2n:sockets").  The attributes of an element are a list without duplicates.
    - Hints for attributes only change the message.  Error messages are not modelled.
    - The listeners get the name of the tag and the values of its attributes; a listener that stops with
      an error is not modelled, nor the listeners themselves.
    - Definitions are trees.  The code copies definitions, and copies share their subtags; the flags of
      shared subtags are reset whenever a copy is entered, as here.
    - _read is never set by the code and left out. *)
From Coq Require Import Bool List String.
Import ListNotations.
Open Scope string_scope.

Inductive occurrence := Once | NotOrOnce | Arbitrary | OnceOrMore.
Inductive xerr := OldVersion | UnknownTag | Multiple | UnknownAttribute | MissingAttribute | BadValue | InvalidOption | MissingTag | Assertion.
Inductive outcome (A : Type) := Ok (a : A) | Err (e : xerr).
Arguments Ok {A}. Arguments Err {A}.
Definition andThen {A B} (x : outcome A) (f : A -> outcome B) : outcome B := match x with Ok a => f a | Err e => Err e end.

(** ConfigParser::CTag *)
Inductive elem := Elem { el_name : string; el_attrs : list (string * string); el_children : list elem }.
(** the callbacks of libxml2, ConfigParser.cpp 45-88 *)
Inductive sax := SOpen (name : string) (attrs : list (string * string)) | SClose | SText (s : string).
(** OnStartElement and OnEndElement, 296-324.  The open elements, innermost first, with their subtags so
    far (newest first); an element is given to its parent when it is closed (the code: when it is opened,
    by reference).  None: the document is not closed, or something follows the root (libxml2 reports it). *)
Fixpoint build (evs : list sax) (open : list elem) : option elem :=
  match evs, open with
  | SOpen n a :: r, _ => build r (Elem n a [] :: open)
  | SText _ :: r, _ => build r open
  | SClose :: r, [e] => match r with [] => Some (Elem (el_name e) (el_attrs e) (rev (el_children e))) | _ => None end
  | SClose :: r, e :: p :: up => build r (Elem (el_name p) (el_attrs p) (Elem (el_name e) (el_attrs e) (rev (el_children e)) :: el_children p) :: up)
  | _, _ => None
  end.

Section Xml.
Context {V : Type}.
Variable veqb : V -> V -> bool.

(** XMLAttribute: how a text is read (given the old value of the variable it is read into), the default,
    the options, and the value *)
Record attribute := Attribute { at_name : string; at_read : string -> V -> option V; at_default : option V; at_options : option (list V); at_value : V }.
(** XMLTag *)
Inductive tag := Tag { tg_name : string (* _fullName *); tg_ns : string (* _namespace *); tg_occ : occurrence; tg_attrs : list attribute;
  tg_configured : bool; tg_nsflags : list (string * bool) (* _configuredNamespaces *); tg_subtags : list tag }.

Fixpoint setFlag (k : string) (b : bool) (l : list (string * bool)) : list (string * bool) :=
  match l with
  | [] => [(k, b)]
  | (k', b') :: r => if k' =? k then (k', b) :: r else (k', b') :: setFlag k b r
  end.
Fixpoint lookup {B} (k : string) (l : list (string * B)) : option B :=
  match l with [] => None | (k', b) :: r => if k' =? k then Some b else lookup k r end.

(** the constructor 11-26 and addAttribute *)
Definition newTag (name ns : string) (o : occurrence) (attrs : list attribute) : tag :=
  Tag (if ns =? "" then name else ns ++ ":" ++ name) ns o attrs false [] [].
(** addSubtag 42-52 *)
Definition addSubtag (t d : tag) : tag :=
  Tag (tg_name t) (tg_ns t) (tg_occ t) (tg_attrs t) (tg_configured t) (if tg_ns d =? "" then tg_nsflags t else setFlag (tg_ns d) false (tg_nsflags t)) (tg_subtags t ++ [d]).

(** resetAttributes 259-274 *)
Fixpoint resetAttributes (t : tag) : tag :=
  Tag (tg_name t) (tg_ns t) (tg_occ t) (tg_attrs t) false (map (fun p => (fst p, false)) (tg_nsflags t)) (map resetAttributes (tg_subtags t)).

Definition setValue (a : attribute) (v : V) : attribute := Attribute (at_name a) (at_read a) (at_default a) (at_options a) v.
(** XMLAttribute::readValue *)
Definition readValue (given : list (string * string)) (a : attribute) : outcome attribute :=
  match lookup (at_name a) given with
  | None => match at_default a with None => Err MissingAttribute | Some v => Ok (setValue a v) end
  | Some raw =>
      match at_read a raw (at_value a) with
      | None => Err BadValue
      | Some v =>
          match at_options a with
          | None => Ok (setValue a v)
          | Some os => if existsb (fun o => veqb o v) os then Ok (setValue a v) else Err InvalidOption
          end
      end
  end.
Fixpoint traverse {A B} (f : A -> outcome B) (l : list A) : outcome (list B) :=
  match l with [] => Ok [] | a :: r => andThen (f a) (fun b => andThen (traverse f r) (fun bs => Ok (b :: bs))) end.
(** XMLTag::readAttributes 188-220 *)
Definition readAttributes (given : list (string * string)) (t : tag) : outcome tag :=
  if forallb (fun g => existsb (fun a => at_name a =? fst g) (tg_attrs t)) given then
    andThen (traverse (readValue given) (tg_attrs t)) (fun attrs => Ok (Tag (tg_name t) (tg_ns t) (tg_occ t) attrs (tg_configured t) (tg_nsflags t) (tg_subtags t)))
  else Err UnknownAttribute.

(** areAllSubtagsConfigured 231-257 *)
Definition required (t : tag) : bool := match tg_occ t with Once | OnceOrMore => true | _ => false end.
Fixpoint allConfigured (flags : list (string * bool)) (subs : list tag) : outcome unit :=
  match subs with
  | [] => Ok tt
  | d :: r =>
      andThen (if tg_ns d =? "" then Ok (tg_configured d) else match lookup (tg_ns d) flags with None => Err Assertion | Some b => Ok (tg_configured d || b) end)
        (fun configured => if negb configured && required d then Err MissingTag else allConfigured flags r)
  end.
(** std::find_if by name: what is before it, the definition, what is behind it *)
Fixpoint findTag (n : string) (defs : list tag) : option (list tag * tag * list tag) :=
  match defs with
  | [] => None
  | d :: r => if tg_name d =? n then Some ([], d, r) else match findTag n r with None => None | Some (a, x, b) => Some (d :: a, x, b) end
  end.
Definition limited (t : tag) : bool := match tg_occ t with Once | NotOrOnce => true | _ => false end.

(** the calls of the listeners *)
Inductive event := Started (name : string) (values : list (string * V)) | Ended (name : string).
Definition valuesOf (t : tag) : list (string * V) := map (fun a => (at_name a, at_value a)) (tg_attrs t).

(** connectTags 244-294, the part for one element.  [used]: usedTags *)
Fixpoint connectTag (defs : list tag) (used : list string) (e : elem) {struct e} : outcome (list tag * list string * list event) :=
  if el_name e =? "solver-interface" then Err OldVersion
  else
    match findTag (el_name e) defs with
    | None => Err UnknownTag
    | Some (before, d0, behind) =>
        let d1 := resetAttributes d0 in
        if limited d1 && existsb (fun u => u =? tg_name d1) used then Err Multiple
        else
          let used' := if limited d1 then tg_name d1 :: used else used in
          let d2 := Tag (tg_name d1) (tg_ns d1) (tg_occ d1) (tg_attrs d1) (tg_configured d1) (setFlag (tg_ns d1) true (tg_nsflags d1)) (tg_subtags d1) in
          andThen (readAttributes (el_attrs e) d2) (fun d3 =>
          andThen ((fix all (defs : list tag) (used : list string) (es : list elem) : outcome (list tag * list event) :=
                      match es with
                      | [] => Ok (defs, [])
                      | e' :: r => andThen (connectTag defs used e') (fun '(defs, used, tr) => andThen (all defs used r) (fun '(defs, tr') => Ok (defs, (tr ++ tr')%list)))
                      end) (tg_subtags d3) [] (el_children e)) (fun '(subs, tr) =>
          let d4 := Tag (tg_name d3) (tg_ns d3) (tg_occ d3) (tg_attrs d3) true (tg_nsflags d3) subs in
          andThen (allConfigured (tg_nsflags d4) subs) (fun _ =>
          Ok ((before ++ d4 :: behind)%list, used', Started (tg_name d3) (valuesOf d3) :: (tr ++ [Ended (tg_name d4)])%list))))
    end.
Fixpoint connectTags (defs : list tag) (used : list string) (es : list elem) : outcome (list tag * list event) :=
  match es with
  | [] => Ok (defs, [])
  | e :: r => andThen (connectTag defs used e) (fun '(defs, used, tr) => andThen (connectTags defs used r) (fun '(defs, tr') => Ok (defs, (tr ++ tr')%list)))
  end.
(** the constructor of ConfigParser, 122-140: the definition of the root, and the document *)
Definition configure (root : tag) (doc : elem) : outcome (list tag * list event) := connectTags [root] [] [doc].
End Xml.
