(** Specification of a multi coupling: [n] participants, each running
      initialize(); while (isCouplingOngoing()) { answer requests; advance(dt) },
    one of them the controller. *)
From Coq Require Import ZArith Bool List.
From Verif Require Import M_Net M_Time M_Wave M_Cpl M_Multi S_Prog S_Cpl S_Net S_Term.
Import ListNotations.
Open Scope Z_scope.

(** what [m] sends to [j] and receives from [j]; [None] without <exchange> *)
Definition specsTo (m : mconf) (j : nat) : option (list dspec) :=
  match find (fun p => fst p =? j)%nat (m_send m) with
  | Some p => Some (pick (snd p) (c_send (m_base m)))
  | None => None
  end.
Definition specsFrom (m : mconf) (j : nat) : option (list dspec) :=
  match find (fun p => fst p =? j)%nat (m_recv m) with
  | Some p => Some (snd p)
  | None => None
  end.

(** the participants of one <coupling-scheme:multi> element with time window
    size [w]; participant [z] is the controller *)
Record multi (n z : nat) (w : Z) (cf : nat -> mconf) : Prop := {
  mu_z : (z < n)%nat;
  mu_self : forall i, (i < n)%nat -> m_self (cf i) = i /\ m_controller (cf i) = z;
  mu_common : forall i, (i < n)%nat -> let c := m_base (cf i) in
    c_eps c = c_eps (m_base (cf z)) /\ c_implicit c = true /\ c_tws c = Some w /\ c_sets c = false /\
    c_maxTime c = c_maxTime (m_base (cf z)) /\ c_maxWindows c = c_maxWindows (m_base (cf z));
  mu_eps : 0 <= c_eps (m_base (cf z)) < w;
  mu_T : forall T, c_maxTime (m_base (cf z)) = Some T -> c_eps (m_base (cf z)) < T;
  mu_N : forall N, c_maxWindows (m_base (cf z)) = Some N -> 1 <= N;
  (* the controller has a connection to every other participant *)
  mu_m2ns : NoDup (m_m2ns (cf z)) /\ forall j, In j (m_m2ns (cf z)) <-> (j < n)%nat /\ j <> z;
  (* exchange tags *)
  mu_send : forall i, (i < n)%nat -> NoDup (map fst (m_send (cf i))) /\
    (forall j ix, In (j, ix) (m_send (cf i)) -> (j < n)%nat /\ j <> i /\
       Forall (fun k => (k < length (c_send (m_base (cf i))))%nat) ix);
  mu_recv : forall i, (i < n)%nat -> NoDup (map fst (m_recv (cf i))) /\
    (forall j ds, In (j, ds) (m_recv (cf i)) -> (j < n)%nat /\ j <> i) /\
    c_recv (m_base (cf i)) = concat (map snd (m_recv (cf i)));
  mu_link : forall i j, (i < n)%nat -> (j < n)%nat -> specsTo (cf i) j = specsFrom (cf j) i
}.

(** all <exchange> tags are from or to the controller *)
Definition star (n z : nat) (cf : nat -> mconf) : Prop :=
  forall i, (i < n)%nat -> i <> z ->
    (forall j ix, In (j, ix) (m_send (cf i)) -> j = z) /\ (forall j ds, In (j, ds) (m_recv (cf i)) -> j = z).

Section Net.
Context {V : Type}.
Variables (gnone vzero : V).
Notation st := (st (V:=V)).
Notation env := (env (V:=V)).

Definition multiBody (n : nat) (cf : nat -> mconf) (Es : nat -> env) (i : nat) (s : st) : option (proc (msg V) st) :=
  if (i <? n)%nat then multiLoop gnone (Es i) (cf i) s else None.
Definition multiNet (n : nat) (cf : nat -> mconf) (Es : nat -> env) : net (M:=msg V) (S:=st) :=
  ranks n (fun i => multiStart gnone vzero (Es i) (cf i)).

(** the blocks exchanged with partner [j] *)
Definition blocks (j : nat) (log : list (list (view V))) : list (list (view V)) :=
  flat_map (fun e => match e with
                     | ([k], []) :: v => if k =? Z.of_nat j then [v] else []
                     | _ => []
                     end) log.

(** Participants [i] and [j] see the same sequence of window iterations (time at
    the start of the next iteration, window number, converged?, ongoing?), and
    the n-th block [j] received from [i] is the n-th block [i] sent to [j]. *)
Definition multi_agree (i j : nat) (si sj : st) : Prop :=
  (forall k x y, nth_error (s_hist si) k = Some x -> nth_error (s_hist sj) k = Some y -> x = y) /\
  (forall k x y, nth_error (blocks j (s_sent si)) k = Some x -> nth_error (blocks i (s_rcvd sj)) k = Some y -> x = y).
Definition multi_agree_fully (i j : nat) (si sj : st) : Prop :=
  s_hist si = s_hist sj /\ blocks j (s_sent si) = blocks i (s_rcvd sj).

(** what must hold in every configuration [c] of the coupled processes *)
Record multi_ok (body : nat -> st -> option (proc (msg V) st)) (can_step : Prop) (c : net (M:=msg V) (S:=st)) : Prop := {
  mok_no_error : ~ some_error c;
  mok_no_deadlock : all_finished body c \/ can_step;
  mok_agree : forall i j si sj, i <> j -> nth_error c i = Some (PRet si) -> nth_error c j = Some (PRet sj) -> multi_agree i j si sj;
  mok_finished : all_finished body c -> forall i j si sj, i <> j -> nth_error c i = Some (PRet si) -> nth_error c j = Some (PRet sj) ->
    multi_agree_fully i j si sj
}.

(** ... with buffered sends, and with blocking sends that wait for the receiver *)
Definition multi_correct_buffered (n : nat) (cf : nat -> mconf) (Es : nat -> env) : Prop :=
  let body := multiBody n cf Es in
  forall x, reaches (astep body) (multiNet n cf Es, emptych n) x ->
    multi_ok body (exists l x', astep body l x x') (fst x).
Definition multi_correct_blocking (n : nat) (cf : nat -> mconf) (Es : nat -> env) : Prop :=
  let body := multiBody n cf Es in
  forall c, reaches (sstep body) (multiNet n cf Es) c ->
    multi_ok body (exists l c', sstep body l c c') c.
End Net.
