(** What a configuration file says, in words of its tags: used to state what is
    true of every file that is accepted. *)

From Coq Require Import List Bool Arith.
From Verif Require Import M_Wiring.
Import ListNotations.

(** The participant uses, provides or receives the mesh. *)
Definition Uses (p : partTag) (m : nat) : Prop :=
  exists u, In u (p_uses p) /\ useMesh u = m.

Definition Provides (p : partTag) (m : nat) : Prop := In (Provide m) (p_uses p).

Definition ReceivesFrom (p : partTag) (m from : nat) : Prop :=
  exists a, In (Receive m from a) (p_uses p).

Definition Gets (p : partTag) (m : nat) : Prop := exists from, ReceivesFrom p m from.

(** The file defines a mesh of that name with that data. *)
Definition MeshHas (d : file) (mesh data : nat) : Prop :=
  exists m, In m (d_meshes d) /\ m_name m = mesh /\ In data (m_data m).

(** The participant of that name uses the mesh. *)
Definition MemberUses (d : file) (n mesh : nat) : Prop :=
  exists p, In p (d_parts d) /\ p_name p = n /\ Uses p mesh.

(** There is a connection tag for the two. *)
Definition Connected (d : file) (a b : nat) : Prop :=
  In (a, b) (d_m2ns d) \/ In (b, a) (d_m2ns d).

(** The participants of a scheme. *)
Definition Member (t : schemeTag) (n : nat) : Prop := In n (map fst (s_members t)).

(** The one that measures convergence and accelerates: the second of two, or
    the controller. *)
Definition Judge (t : schemeTag) (n : nat) : Prop :=
  match s_kind t with
  | Multi => In (n, true) (s_members t)
  | _ => exists a x y, s_members t = [(a, x); (n, y)]
  end.

(** The scheme exchanges the data field [f] (mesh and data) from [a] to [b]. *)
Definition Exchanges (t : schemeTag) (a b : nat) (f : nat * nat) : Prop :=
  exists e, In e (s_exchanges t) /\ e_from e = a /\ e_to e = b /\ (e_mesh e, e_data e) = f.

(** The data fields that measures and acceleration of a scheme speak of. *)
Definition accelerated (t : schemeTag) : list (nat * nat) :=
  match s_acceleration t with Some l => l | None => [] end.

(** What goes over the wire for an entry: which field, and whether it has
    initial data and substeps. *)
Definition message (n : entry) : nat * nat * bool * bool :=
  (n_field n, n_initialize n, n_substeps n).

(** A scheme of a participant does what its tag says: it sends to and receives
    from every other participant exactly the fields of the exchanges, each once,
    with the flags of the exchange. *)
Definition Follows (t : schemeTag) (h : scheme) : Prop :=
  h_kind h = s_kind t /\
  (forall partner, NoDup (map n_field (toward partner (h_sends h)))) /\
  (forall partner, NoDup (map n_field (toward partner (h_receives h)))) /\
  (forall partner x, In x (map message (toward partner (h_sends h))) <->
     exists e, In e (s_exchanges t) /\ e_from e = h_owner h /\ e_to e = partner /\
               x = (e_mesh e, e_data e, e_initialize e, e_substeps e)) /\
  (forall partner x, In x (map message (toward partner (h_receives h))) <->
     exists e, In e (s_exchanges t) /\ e_from e = partner /\ e_to e = h_owner h /\
               x = (e_mesh e, e_data e, e_initialize e, e_substeps e)).

(** What the first sends to the second is what the second expects from the
    first, in the same order. *)
Definition Agree (a b : scheme) : Prop :=
  map message (toward (h_owner b) (h_sends a)) =
  map message (toward (h_owner a) (h_receives b)).

(** The schemes made for one tag: one for each participant, in order. *)
Definition MadeFor (t : schemeTag) (hs : list scheme) : Prop :=
  map h_owner hs = map fst (s_members t) /\
  (forall h, In h hs -> Follows t h) /\
  (forall a b, In a hs -> In b hs -> h_owner a <> h_owner b -> Agree a b).

(** The fields some scheme sends or receives, whoever the partner is. *)
Definition Sends (h : scheme) (f : nat * nat) : Prop :=
  exists partner, In f (map n_field (toward partner (h_sends h))).

Definition ReceivesFrom1 (h : scheme) (partner : nat) (f : nat * nat) : Prop :=
  In f (map n_field (toward partner (h_receives h))).

(** The mesh of an exchange is provided by one of the two, and the other
    receives it from there. *)
Definition Shared (p q : partTag) (m : nat) : Prop :=
  (Provides p m /\ ReceivesFrom q m (p_name p)) \/
  (Provides q m /\ ReceivesFrom p m (p_name q)).

(** Every mesh that is received is provided by the participant named. *)
Definition SourcesProvide (d : file) : Prop :=
  forall p m from, In p (d_parts d) -> ReceivesFrom p m from ->
    exists q, In q (d_parts d) /\ p_name q = from /\ Provides q m.

(** A mapping tag asks for the flow: its direction and meshes, and the
    participant writes that data on the mesh it maps from or reads it on the
    mesh it maps to, and the other mesh has the data too. *)
Definition Asked (d : file) (p : partTag) (g : flow) : Prop :=
  exists m, In m (p_maps p) /\
    mp_dir m = fl_dir g /\ mp_from m = fl_from g /\ mp_to m = fl_to g /\
    match mp_dir m, mp_from m, mp_to m with
    | Writes, Some a, Some t => In (a, fl_data g) (p_writes p) /\ MeshHas d t (fl_data g)
    | Writes, None, Some t => In (t, fl_data g) (p_writes p)
    | Reads, Some a, Some t => In (t, fl_data g) (p_reads p) /\ MeshHas d a (fl_data g)
    | Reads, Some a, None => In (a, fl_data g) (p_reads p)
    | _, _, _ => False
    end.

(** The flows that fill a mesh. *)
Definition filled (gs : list flow) : list (nat * nat) :=
  flat_map (fun g => match fl_to g with Some t => [(t, fl_data g)] | None => [] end) gs.

(** The two mistakes that are only caught by assertions. *)
Definition RepeatedMesh (d : file) : Prop := ~ NoDup (map m_name (d_meshes d)).

Definition UnknownMeasure (d : file) : Prop :=
  exists t f, In t (d_schemes d) /\ In f (s_measures t) /\
    (exists m, In m (d_meshes d) /\ m_name m = fst f) /\ ~ MeshHas d (fst f) (snd f).
