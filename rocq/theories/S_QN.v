(** What is said about the columns of quasi-Newton acceleration. *)
From Coq Require Import Bool List Arith.
From Verif Require Import M_QN.
Import ListNotations.

(** the columns the next update is computed from, the newest first; before the first
    iteration of the first window (also of the first window after a change of meshes) the
    matrices are not set up yet *)
Definition columns (s : qn) : list column := if q_firstWindow s && q_firstIteration s then [] else q_V s.
(** the columns in the factorization, likewise *)
Definition factorized (s : qn) : list column := if q_firstWindow s && q_firstIteration s then [] else q_qr s.
Definition window_of (x : column) : nat := fst x.
Definition iteration_of (x : column) : nat := snd x.
(** column [x] was added after column [y] *)
Definition added_after (x y : column) : Prop :=
  window_of y < window_of x \/ (window_of y = window_of x /\ iteration_of y < iteration_of x).
(** a list with the newest column first *)
Definition newest_first (V : list column) : Prop :=
  forall i j, i < j -> j < length V -> added_after (nth i V (0, 0)) (nth j V (0, 0)).
(** [l] are windows before the current one from which columns are left *)
Definition earlier_windows (s : qn) (l : list nat) : Prop :=
  NoDup l /\ forall w, In w l -> w < q_window s /\ exists x, In x (columns s) /\ window_of x = w.
(** from the third iteration of a window on some column of this window is left *)
Definition current_window_left (s : qn) : Prop :=
  2 <= q_iteration s -> exists x, In x (columns s) /\ window_of x = q_window s.
(** a property holds after every call *)
Definition throughout (c : config) (es : list event) (P : qn -> Prop) : Prop :=
  forall before after s, es = before ++ after -> run c before start = Some s -> P s.

(** the decisions when the residuals of all columns are linearly independent and the
    newest column always passes the filter *)
Definition independent (o : decisions) : Prop :=
  o_insert o = true /\ (forall i, o_reset o i = true) /\ o_keep o 0 = true.
Definition decisions_of (e : event) : option decisions :=
  match e with Initialize => None | Perform o | Converged o => Some o end.
Definition all_independent (es : list event) : Prop :=
  forall e o, In e es -> decisions_of e = Some o -> independent o.
(** the first window after a change of meshes does not converge in its first iteration *)
Definition iterates_after_change (es : list event) : Prop :=
  forall before o after, es <> before ++ Initialize :: Converged o :: after.
