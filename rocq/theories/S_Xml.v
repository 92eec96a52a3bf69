(** Which documents fit a definition, and what the listeners hear. *)
From Coq Require Import Bool List String.
From Verif Require Import M_Xml.
Import ListNotations.

(** the elements as libxml2 reports them *)
Fixpoint sax_of (e : elem) : list sax := SOpen (el_name e) (el_attrs e) :: flat_map sax_of (el_children e) ++ [SClose].

Section S.
Context {V : Type}.
Notation tag := (tag (V:=V)).
Notation attribute := (attribute (V:=V)).
Notation event := (event (V:=V)).

(** the value of an attribute: what is written, if it can be read and is one of the options; the default if nothing is written *)
Definition gets (given : list (string * string)) (a : attribute) (v : V) : Prop :=
  match lookup (at_name a) given with
  | None => at_default a = Some v
  | Some raw => (forall old, at_read a raw old = Some v) /\ match at_options a with None => True | Some os => In v os end
  end.
(** how often a tag may occur *)
Definition occurs_right (o : occurrence) (n : nat) : Prop :=
  match o with Once => n = 1 | NotOrOnce => n <= 1 | Arbitrary => True | OnceOrMore => 1 <= n end.
Definition named (n : string) (es : list elem) : nat := List.length (filter (fun e => (el_name e =? n)%string) es).

(** Element [e] fits the definition [t], and the listeners hear [tr]: the tag with all its values, then its
    subtags in the order of the document, then its end. *)
Inductive fits : tag -> elem -> list event -> Prop :=
| fits_intro t e values trs :
    el_name e = tg_name t -> el_name e <> "solver-interface"%string ->
    (forall n raw, In (n, raw) (el_attrs e) -> exists a, In a (tg_attrs t) /\ at_name a = n) ->
    Forall2 (gets (el_attrs e)) (tg_attrs t) values ->
    Forall2 (fun c tr => exists d, In d (tg_subtags t) /\ fits d c tr) (el_children e) trs ->
    (forall d, In d (tg_subtags t) -> occurs_right (tg_occ d) (named (tg_name d) (el_children e))) ->
    fits t e (Started (tg_name t) (combine (map at_name (tg_attrs t)) values) :: List.concat trs ++ [Ended (tg_name t)]).

(** Definitions as addSubtag and addAttribute make them, in any state, where in addition the names of subtags
    differ and no required subtag has the namespace of its parent.  [fine]: texts that are read in the same way whatever the variable contains *)
Inductive defined (fine : string -> Prop) : tag -> Prop :=
| defined_intro t :
    (forall a raw old old', In a (tg_attrs t) -> fine raw -> at_read a raw old = at_read a raw old') ->
    NoDup (map tg_name (tg_subtags t)) ->
    (forall d, In d (tg_subtags t) -> tg_ns d <> ""%string -> In (tg_ns d) (map fst (tg_nsflags t))) ->
    (forall d, In d (tg_subtags t) -> required d = true -> tg_ns d <> ""%string -> tg_ns d <> tg_ns t) ->
    (forall d, In d (tg_subtags t) -> defined fine d) ->
    defined fine t.
Inductive texts (fine : string -> Prop) : elem -> Prop :=
| texts_intro e : (forall n raw, In (n, raw) (el_attrs e) -> fine raw) -> (forall c, In c (el_children e) -> texts fine c) -> texts fine e.

(** the same definition, with other flags and values *)
Definition same_attribute (a b : attribute) : Prop := at_name a = at_name b /\ at_read a = at_read b /\ at_default a = at_default b /\ at_options a = at_options b.
Inductive same_definition : tag -> tag -> Prop :=
| same_intro t u : tg_name t = tg_name u -> tg_ns t = tg_ns u -> tg_occ t = tg_occ u -> Forall2 same_attribute (tg_attrs t) (tg_attrs u) ->
    Forall2 same_definition (tg_subtags t) (tg_subtags u) -> same_definition t u.
End S.

Definition not_text (s : sax) : bool := match s with SText _ => false | _ => true end.
