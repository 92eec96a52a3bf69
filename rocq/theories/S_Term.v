(** Specification vocabulary: terminating communicating programs. *)
From Coq Require Import List Arith.
From Verif Require Import M_Net.
Import ListNotations.

(** processes that are not restarted after they returned *)
Definition once {M A} (i : nat) (s : A) : option (proc M A) := None.

(** [always_ends c res]: whatever the schedule, with blocking sends that wait
    for the receiver as well as with buffered sends, every run of the processes
    [c] is finite, never gets stuck and never fails: it ends with process [i]
    returning the [i]-th result and with no message left in any channel. *)
Record always_ends {M A} (c : list (proc M A)) (res : list A) : Prop := {
  ae_sync_finite : Acc (fun c2 c1 => exists l, sstep once l c1 c2) c;
  ae_sync : forall c', reaches (sstep once) c c' ->
    c' = map PRet res \/ exists l c'', sstep once l c' c'';
  ae_async_finite : Acc (fun x2 x1 => exists l, astep once l x1 x2) (c, emptych (length c));
  ae_async : forall x, reaches (astep once) (c, emptych (length c)) x ->
    x = (map PRet res, emptych (length c)) \/ exists l x', astep once l x x'
}.

(** [n] ranks running [prog 0], ..., [prog (n-1)] *)
Definition ranks {M A} (n : nat) (prog : nat -> proc M A) : list (proc M A) := map prog (seq 0 n).
Definition all_end {M A} (n : nat) (prog : nat -> proc M A) (res : nat -> A) : Prop :=
  always_ends (ranks n prog) (map res (seq 0 n)).

(** a process that only sends has no result, a receiver reports what it got *)
Definition quiet {M A B} (p : proc M A) : proc M (option B) := bind p (fun _ => PRet None).
Definition report {M A} (p : proc M A) : proc M (option A) := bind p (fun x => PRet (Some x)).
(** process 0 runs [p], process 1 runs [q], and [q] always gets [x] *)
Definition delivered {M A B} (p : proc M A) (q : proc M B) (x : B) : Prop :=
  always_ends [quiet p; report q] [None; Some x].
(** rank 0 runs [p], every other rank [r] of [n] ranks runs [q r] and always gets [x r] *)
Definition spread {M A B} (n : nat) (p : proc M A) (q : nat -> proc M B) (x : nat -> B) : Prop :=
  all_end n (fun r => if r =? 0 then quiet p else report (q r)) (fun r => if r =? 0 then None else Some (x r)).
