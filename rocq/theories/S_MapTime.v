(** Specification vocabulary for mapping samples over time (C55). *)
From Coq Require Import ZArith Bool List.
From Verif Require Import M_Time M_Wave M_MapTime S_Wave.
Import ListNotations.
Open Scope nat_scope.

Section Spec.
Context {X : Type}.
Variable eps : Z.
Variable small : X -> bool.
Implicit Types (w src tgt old new : wave X) (c : context X) (p : participant X).

(** [t] is later than the given limit *)
Definition later (after : option Z) (t : Z) : Prop := match after with None => True | Some a => (a + eps < t)%Z end.
(** two times that the tolerance does not tell apart *)
Definition same_time (t u : Z) : Prop := (Z.abs (t - u) <= eps)%Z.
(** what a sample is mapped to; the initial mapping skips zero samples *)
Definition mapped_sample c (skipZero : bool) (x : X) : X := if skipZero && small x then cx_zero c else cx_map c x.

(** [tgt] has the time stamps of [src], and each of its samples is the mapped
    sample of the same time, where a zero sample may have been skipped *)
Definition mapped c src tgt : Prop :=
  Forall2 (fun a b => fst b = fst a /\ exists skipped, snd b = mapped_sample c skipped (snd a)) src tgt.

(** the data of a participant: no data is the target of two mappings, none is
    both source and target, read and written data are different *)
Definition read_data p : list nat := map cx_from (readContexts p) ++ map cx_to (readContexts p).
Definition written_data p : list nat :=
  flat_map (fun wc => wc_data wc :: map cx_to (wc_mappings wc)) (writeContexts p).
Definition well_wired p : Prop :=
  NoDup (map cx_to (readContexts p)) /\ NoDup (written_data p) /\
  (forall c, In c (readContexts p) -> ~ In (cx_from c) (map cx_to (readContexts p))) /\
  (forall d, In d (read_data p) -> ~ In d (written_data p)) /\
  (forall wc c, In wc (writeContexts p) -> In c (wc_mappings wc) -> cx_from c = wc_data wc).

(** [new] goes on where [old] ends *)
Definition continues old new : Prop := exists q before after, old = before ++ [q] /\ new = q :: after.
(** [new] starts like [old] *)
Definition restarts old new : Prop := exists q r r', old = q :: r /\ new = q :: r'.
End Spec.
