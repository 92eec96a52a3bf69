(** C72: the configuration that is accepted is the one the definition of the tags describes, and the listeners
    hear exactly what is written in it. *)
From Coq Require Import Bool List String Arith Lia.
From Verif Require Import M_Xml S_Xml P_Xml.
Import ListNotations.

(** The tree of elements is the tree of the document: what libxml2 reports, texts between the tags ignored. *)
Theorem C72_tree : forall evs e, build evs [] = Some e <-> filter not_text evs = sax_of e /\ exists evs0, evs = (evs0 ++ [SClose])%list.
Proof.
  intros evs e. split.
  - intros H. apply build_sound in H as [H L]. split; [exact H|exact L].
  - intros [H L]. rewrite (build_text evs [] L), H. apply build_root.
Qed.
Print Assumptions C72_tree.

Section C72.
Context {V : Type}.
Variable veqb : V -> V -> bool.
Hypothesis veqb_ok : forall x y, veqb x y = true <-> x = y.

(** Every definition, in whatever state previous tags left it, and every document: it is accepted if and only
    if it fits, and the listeners hear the tags of the document with their values. *)
Theorem C72_accepted : forall fine root doc tr, defined fine root -> texts fine doc ->
  ((exists root', configure veqb root doc = Ok ([root'], tr)) <-> fits root doc tr).
Proof.
  intros fine root doc tr D T. pose proof (configure_ok veqb veqb_ok fine root doc D T) as H. split.
  - intros (root' & E). rewrite E in H. destruct H as (_ & _ & _ & _ & H). exact H.
  - intros F. destruct (configure veqb root doc) as [[defs tr']|err] eqn:E; [|exfalso; exact (H tr F)]. destruct H as (root' & -> & _ & _ & F'). exists root'. do 2 f_equal.
    clear -veqb_ok F F' D T. revert root tr tr' F F' D T. induction doc as [n a cs IH] using elem_induction. intros root tr tr' F F' D T.
    inversion F as [? ? v1 t1 A1 A2 A3 A4 A5 A6]; subst. inversion F' as [? ? v2 t2 B1 B2 B3 B4 B5 B6]; subst. cbn [el_name el_attrs el_children] in *.
    assert (v2 = v1) as ->.
    { clear -A4 B4. revert v2 B4. induction A4 as [|x v l r G A4 IHr]; intros v2 B4; inversion B4 as [|? v' ? r' G' B4']; subst; [reflexivity|]. f_equal; [|apply IHr, B4'].
      unfold gets in G, G'. destruct (lookup (at_name x) a); [|congruence]. destruct G as [G _], G' as [G' _]. specialize (G v). specialize (G' v). congruence. }
    assert (t2 = t1) as ->; [|reflexivity]. inversion D as [? _ D2 _ _ D5]; subst. inversion T as [? _ T2]; subst. cbn [el_children] in T2.
    clear -A5 B5 IH D2 D5 T2. revert t2 B5. induction A5 as [|c x l r (d & Hd & Fd) A5 IHr]; intros t2 B5; inversion B5 as [|? y ? r' (d' & Hd' & Fd') B5']; subst; [reflexivity|]. inversion IH as [|? ? IH1 IH2]; subst. f_equal.
    + assert (d' = d) as ->. { apply in_split in Hd as (p & q & E). eapply name_unique; [exact D2|exact E|exact Hd'|]. inversion Fd; inversion Fd'; subst; congruence. }
      eapply IH1; [exact Fd|exact Fd'|apply D5, Hd|apply T2; left; reflexivity].
    + apply IHr; [exact IH2|intros; apply T2; right; assumption|exact B5'].
Qed.

(** Afterwards the definition is as good as before: the next tag, and the next configuration, are read in the same way. *)
Theorem C72_again : forall fine root doc root' tr, defined fine root -> texts fine doc -> configure veqb root doc = Ok ([root'], tr) -> same_definition root root' /\ defined fine root' /\
  forall doc' tr', texts fine doc' -> ((exists r, configure veqb root' doc' = Ok ([r], tr')) <-> (exists r, configure veqb root doc' = Ok ([r], tr'))).
Proof.
  intros fine root doc root' tr D T E. pose proof (configure_ok veqb veqb_ok fine root doc D T) as H. rewrite E in H. destruct H as (r & Er & S & D' & _). injection Er as <-. split; [exact S|]. split; [exact D'|].
  intros doc' tr' T'. rewrite (C72_accepted fine root' doc' tr' D' T'), (C72_accepted fine root doc' tr' D T'). split; apply fits_same; [apply same_sym|]; exact S.
Qed.

(** Definitions made by the constructor and addSubtag meet the hypotheses. *)
Theorem C72_definitions : forall fine : string -> Prop,
  (forall n ns o attrs, (forall a raw old old', In a attrs -> fine raw -> @at_read V a raw old = at_read a raw old') -> defined fine (newTag n ns o attrs)) /\
  (forall t d : tag (V:=V), defined fine t -> defined fine d -> ~ In (tg_name d) (map tg_name (tg_subtags t)) -> (required d = true -> tg_ns d <> ""%string -> tg_ns d <> tg_ns t) -> defined fine (addSubtag t d)).
Proof. intros fine. split; [intros; apply newTag_defined; assumption|intros; apply addSubtag_defined; assumption]. Qed.
End C72.
Print Assumptions C72_accepted.
Print Assumptions C72_again.
Print Assumptions C72_definitions.

(** * What the messages say about groups of tags is not what is checked *)
(** areAllSubtagsConfigured says for a missing tag of a namespace that <namespace:...> has to occur at least once.
    A definition and a document where a tag of that namespace does occur, and which is rejected with that message:
    required alternatives are all required. *)
Definition plain (n : string) : attribute (V:=string) := Attribute n (fun raw _ => Some raw) None None ""%string.
Theorem C72_group_refuted : exists (root : tag (V:=string)) (doc : elem), defined (fun _ => True) root /\
  (forall d, In d (tg_subtags root) -> required d = true -> exists c d', In c (el_children doc) /\ In d' (tg_subtags root) /\ tg_ns d' = tg_ns d /\ el_name c = tg_name d') /\
  configure String.eqb root doc = Err MissingTag.
Proof.
  exists (addSubtag (addSubtag (newTag "configuration" "" Once []) (newTag "sockets" "m2n" OnceOrMore [])) (newTag "mpi" "m2n" OnceOrMore [])), (Elem "configuration" [] [Elem "m2n:sockets" [] []]).
  split; [|split].
  - apply (proj2 (C72_definitions _)); [apply (proj2 (C72_definitions _))| | |]; [apply (proj1 (C72_definitions _)); intros ? ? ? ? []|apply (proj1 (C72_definitions _)); intros ? ? ? ? []|intros []|intros _ _; discriminate|apply (proj1 (C72_definitions _)); intros ? ? ? ? []| |intros _ _; discriminate].
    intros [H|[]]; discriminate H.
  - intros d Hd _. exists (Elem "m2n:sockets" [] []), (newTag "sockets" "m2n" OnceOrMore []). split; [left; reflexivity|]. split; [left; reflexivity|]. split; [|reflexivity]. cbn in Hd. destruct Hd as [<-|[<-|[]]]; reflexivity.
  - vm_compute. reflexivity.
Qed.
Print Assumptions C72_group_refuted.
(** And a required tag may be missing if its parent has the same namespace. *)
Theorem C72_namespace_refuted : exists (root : tag (V:=string)) (doc : elem) d root' tr, In d (tg_subtags root) /\ tg_occ d = Once /\ el_children doc = [] /\ tg_nsflags root = [("mapping", false)]%string /\
  configure String.eqb root doc = Ok ([root'], tr).
Proof.
  exists (addSubtag (newTag "rbf" "mapping" Once []) (newTag "basis" "mapping" Once [])), (Elem "mapping:rbf" [] []), (newTag "basis" "mapping" Once []).
  eexists _, _. split; [left; reflexivity|]. repeat (split; [reflexivity|]). vm_compute. reflexivity.
Qed.
Print Assumptions C72_namespace_refuted.
(** Limits hold for every name on its own: two different accelerations are both accepted. *)
Theorem C72_alternatives_refuted : exists (root : tag (V:=string)) (doc : elem) tr, defined (fun _ => True) root /\ (forall d, In d (tg_subtags root) -> tg_ns d = "acceleration"%string /\ tg_occ d = NotOrOnce) /\
  List.length (el_children doc) = 2 /\ exists root', configure String.eqb root doc = Ok ([root'], tr).
Proof.
  exists (addSubtag (addSubtag (newTag "serial-implicit" "coupling-scheme" Arbitrary []) (newTag "aitken" "acceleration" NotOrOnce [])) (newTag "constant" "acceleration" NotOrOnce [])), (Elem "coupling-scheme:serial-implicit" [] [Elem "acceleration:aitken" [] []; Elem "acceleration:constant" [] []]).
  eexists. split; [|split; [|split; [reflexivity|]]].
  - apply (proj2 (C72_definitions _)); [apply (proj2 (C72_definitions _))| | |]; [apply (proj1 (C72_definitions _)); intros ? ? ? ? []|apply (proj1 (C72_definitions _)); intros ? ? ? ? []|intros []|intros H; discriminate H|apply (proj1 (C72_definitions _)); intros ? ? ? ? []| |intros H; discriminate H].
    intros [H|[]]; discriminate H.
  - cbn. intros d [<-|[<-|[]]]; split; reflexivity.
  - eexists. vm_compute. reflexivity.
Qed.
Print Assumptions C72_alternatives_refuted.

(** * Examples *)
Module Examples.
Local Open Scope string_scope.
(** a number, which keeps its old value if the text is empty *)
Definition digits : attribute (V:=string) := Attribute "dimensions" (fun raw old => Some (if raw =? "" then old else raw)) None (Some ["2"; "3"]) "".
Definition useData := newTag "use-data" "" Arbitrary [plain "name"].
Definition mesh := addSubtag (newTag "mesh" "" OnceOrMore [plain "name"; digits]) useData.
Definition data := newTag "scalar" "data" Arbitrary [plain "name"; Attribute "waveform-degree" (fun raw _ => Some raw) (Some "1") None "7"].
Definition schema := addSubtag (addSubtag (newTag "precice-configuration" "" Once []) data) mesh.
Definition fine (s : string) := s <> "".
Example schema_defined : defined fine schema.
Proof.
  unfold schema, mesh. repeat first [apply (proj2 (C72_definitions (V:=string) fine))|apply (proj1 (C72_definitions (V:=string) fine))]; try (cbn; intuition discriminate).
  all: intros a raw old old' H F; cbn in H; repeat destruct H as [<-|H]; try destruct H; cbn; first [reflexivity|destruct (String.eqb_spec raw ""); [contradiction|reflexivity]].
Qed.
Definition document := Elem "precice-configuration" [] [Elem "data:scalar" [("name", "T")] []; Elem "data:scalar" [("name", "Q"); ("waveform-degree", "2")] [];
  Elem "mesh" [("dimensions", "3"); ("name", "M")] [Elem "use-data" [("name", "T")] []; Elem "use-data" [("name", "Q")] []]; Elem "mesh" [("dimensions", "2"); ("name", "N")] []].
Fixpoint fineb (e : elem) : bool := forallb (fun p => negb (snd p =? "")) (el_attrs e) && forallb fineb (el_children e).
Lemma fineb_ok : forall e, fineb e = true -> texts fine e.
Proof.
  induction e as [n a cs IH] using elem_induction. cbn. intros H. apply andb_true_iff in H as [H1 H2]. rewrite forallb_forall in H1, H2. rewrite Forall_forall in IH. constructor; cbn.
  - intros k raw Hk E. specialize (H1 _ Hk). cbn in H1. subst raw. discriminate H1.
  - intros c Hc. apply IH; auto.
Qed.
Example document_texts : texts fine document. Proof. apply fineb_ok. vm_compute. reflexivity. Qed.
Definition heard := [Started "precice-configuration" []; Started "data:scalar" [("name", "T"); ("waveform-degree", "1")]; Ended "data:scalar"; Started "data:scalar" [("name", "Q"); ("waveform-degree", "2")]; Ended "data:scalar";
  Started "mesh" [("name", "M"); ("dimensions", "3")]; Started "use-data" [("name", "T")]; Ended "use-data"; Started "use-data" [("name", "Q")]; Ended "use-data"; Ended "mesh";
  Started "mesh" [("name", "N"); ("dimensions", "2")]; Ended "mesh"; Ended "precice-configuration"].
Example document_accepted : exists root', configure String.eqb schema document = Ok ([root'], heard).
Proof. eexists. vm_compute. reflexivity. Qed.
Example document_fits : fits schema document heard.
Proof. apply (C72_accepted String.eqb String.eqb_eq fine schema document heard schema_defined document_texts). exact document_accepted. Qed.
(** rejected *)
Example no_mesh : configure String.eqb schema (Elem "precice-configuration" [] []) = Err MissingTag. Proof. vm_compute. reflexivity. Qed.
Example four_dimensions : configure String.eqb schema (Elem "precice-configuration" [] [Elem "mesh" [("dimensions", "4"); ("name", "N")] []]) = Err InvalidOption. Proof. vm_compute. reflexivity. Qed.
Example tree_read : build (SText "x" :: removelast (sax_of document) ++ [SText "y"; SClose])%list [] = Some document. Proof. vm_compute. reflexivity. Qed.
(** texts that are not fine: the dimensions of the mesh before *)
Example empty_dimensions : exists root' tr, configure String.eqb schema (Elem "precice-configuration" [] [Elem "mesh" [("dimensions", "3"); ("name", "M")] []; Elem "mesh" [("dimensions", ""); ("name", "N")] []]) = Ok ([root'], tr) /\ In (Started "mesh" [("name", "N"); ("dimensions", "3")]) tr.
Proof. eexists _, _. split; [vm_compute; reflexivity|]. cbn. auto. Qed.
End Examples.
