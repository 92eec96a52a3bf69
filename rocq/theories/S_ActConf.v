(** What users expect from the configuration of data actions. *)
From Coq Require Import Bool String List Arith.
From Verif Require Import M_ActConf.
Import ListNotations.

(** the names in the subtags of one kind *)
Definition names (k : tag) (e : element) : list string := map snd (filter (fun p => tag_eqb k (fst p)) (e_tags e)).
(** how often each subtag may occur, from the documentation *)
Definition documented (e : element) : Prop :=
  let n k := List.length (names k e) in
  match e_type e with
  | MultiplyByArea | DivideByArea => n TargetData = 1 /\ n SourceData = 0 /\ n ModulePath = 0 /\ n ModuleName = 0
  | Summation => n TargetData = 1 /\ 1 <= n SourceData /\ n ModulePath = 0 /\ n ModuleName = 0
  | Recorder => n TargetData = 0 /\ n SourceData = 0 /\ n ModulePath = 0 /\ n ModuleName = 0
  | Python => n TargetData <= 1 /\ n SourceData <= 1 /\ n ModulePath <= 1 /\ n ModuleName = 1
  end.
(** the mesh exists and has all data named *)
Definition known (ms : list mesh) (e : element) : Prop :=
  exists m, In m ms /\ m_name m = e_mesh e /\ forall name, In name (names SourceData e ++ names TargetData e) -> exists d, In d (m_data m) /\ d_name d = name.
(** all sources have as many components as the target *)
Definition same_dims (a : action) : Prop := a_type a = Summation -> forall s t, In s (a_sources a) -> a_target a = Some t -> d_dims s = d_dims t.
(** the action is the one of the tag *)
Definition describes (ms : list mesh) (e : element) (a : action) : Prop :=
  a_type a = e_type e /\ a_timing a = e_timing e /\ In (a_mesh a) ms /\ m_name (a_mesh a) = e_mesh e /\
  map d_name (a_sources a) = names SourceData e /\ map d_name (match a_target a with None => [] | Some d => [d] end) = names TargetData e /\
  (forall d, In d (a_sources a) \/ a_target a = Some d -> In d (m_data (a_mesh a))) /\
  (e_type e = Python -> [a_path a] = names ModulePath e /\ [a_module a] = names ModuleName e).
(** names and numbers are unique, and no name is empty *)
Definition proper (ms : list mesh) : Prop :=
  NoDup (map m_name ms) /\ forall m, In m ms -> NoDup (map d_name (m_data m)) /\ NoDup (map d_id (m_data m)) /\ ~ In ""%string (map d_name (m_data m)).
