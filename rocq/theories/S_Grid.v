(** What the vectors and the data of the quasi-Newton acceleration have to be *)
From Coq Require Import List Arith Bool ZArith QArith Qcanon.
From Verif Require Import M_Grid.
Import ListNotations.
Open Scope list_scope.
Open Scope nat_scope.

Section Spec.
Variable eps : Qc.
Context {V : Type}.
Variable zero : V.
Variable interp : @wave V -> Qc -> list V.
Variable relax : list V -> list V -> list V.

(** the relative positions of times in their interval, and such positions in another interval *)
Definition relative (l : list Qc) : list Qc := map (fun t => ((t - hd 0 l) / (last l 0 - hd 0 l))%Qc) l.
Definition placed (r : list Qc) (w : Qc * Qc) : list Qc := map (fun x => (fst w + x * (snd w - fst w))%Qc) r.
(** successive times are further apart than the tolerance *)
Fixpoint spread (l : list Qc) : Prop := match l with a :: ((b :: _) as r) => (eps < b - a)%Qc /\ spread r | _ => True end.

Definition waveOf (m : @dataMap V) (id : nat) : @wave V := match at_ m id with Some d => d_wave d | None => [] end.
Definition prevOf (m : @dataMap V) (id : nat) : @wave V := match at_ m id with Some d => d_prev d | None => [] end.
Definition frameOf (m : @dataMap V) (id : nat) : Qc * Qc := (hd 0%Qc (times (waveOf m id)), last (times (waveOf m id)) 0%Qc).
(** the values of all data at all times of their grids, in order *)
Definition gathered (ws : nat -> @wave V) (ids : list nat) (G : nat -> list Qc) : list V := flat_map (fun id => flat_map (interp (ws id)) (G id)) ids.
(** data that begin with the window, have at least one more step and [n id] values per step; also in the
    previous iteration *)
Definition fits (n : nat -> nat) (m : @dataMap V) (ids : list nat) (start : Qc) : Prop :=
  forall id, In id ids -> exists d v0 p0 rest, at_ m id = Some d /\ d_size d = n id /\ d_wave d = (start, v0) :: p0 :: rest /\ spread (times (d_wave d)) /\
    Forall (fun p => length (snd p) = n id) (d_wave d) /\ d_prev d <> [] /\ Forall (fun p => length (snd p) = n id) (d_prev d).

(** * Histories *)
Inductive event := Iterate (m : @dataMap V) (start : Qc) (f : list V -> list V) | Converge (m : @dataMap V) (start : Qc).
Definition mapIn (e : event) : @dataMap V := match e with Iterate m _ _ => m | Converge m _ => m end.
Definition startIn (e : event) : Qc := match e with Iterate _ t _ => t | Converge _ t => t end.
(** the model: the state after each event and the data *)
Fixpoint run (s : @qn V) (evs : list event) : option (list (@qn V * @dataMap V)) :=
  match evs with
  | [] => Some []
  | Iterate m t f :: r => bind (perform eps zero interp relax s m t f) (fun '(s, m') => bind (run s r) (fun o => Some ((s, m') :: o)))
  | Converge m t :: r => bind (converged eps zero interp s m t) (fun s => bind (run s r) (fun o => Some ((s, m) :: o)))
  end.

(** [unset]: no window took more than one iteration so far; [first]: the window begins; [R]: the relative
    positions of the steps; [F]: the windows of the data *)
Record spec := Spec { unset : bool; first : bool; R : nat -> list Qc; F : nat -> Qc * Qc }.
(** the positions are those of the first window that takes more than one iteration, and they are moved when a window begins *)
Definition enter (x : spec) (e : event) : spec :=
  Spec (unset x) (first x) (if unset x && first x then fun id => relative (times (waveOf (mapIn e) id)) else R x) (if first x then frameOf (mapIn e) else F x).
Definition leave (x : spec) (e : event) : spec :=
  match e with Iterate _ _ _ => Spec (unset x) false (R x) (F x) | Converge _ _ => Spec (unset x && first x) true (R x) (F x) end.
(** the times of the steps after the beginning of the window; only the last one if reduced *)
Definition steps (x : spec) (id : nat) : list Qc := placed (tl (R x id)) (F x id).
Definition psteps (reduced : bool) (x : spec) (id : nat) : list Qc := if reduced then [snd (F x id)] else steps x id.

(** What may happen *)
Fixpoint possible (n : nat -> nat) (ids : list nat) (x : spec) (evs : list event) : Prop :=
  match evs with
  | [] => True
  | e :: r =>
      let y := enter x e in
      fits n (mapIn e) ids (startIn e) /\ (forall id, In id ids -> fst (F y id) = startIn e /\ spread (startIn e :: steps y id)) /\
      match e with Iterate _ _ f => forall v, length (f v) = length v | Converge _ _ => True end /\ possible n ids (leave y e) r
  end.
(** What has to be *)
Definition output (n : nat -> nat) (ids prim : list nat) (reduced force : bool) (y : spec) (e : event) (s : @qn V) (m' : @dataMap V) : Prop :=
  let m := mapIn e in
  let v := gathered (waveOf m) ids (steps y) in
  q_old s = gathered (prevOf m) ids (steps y) /\ q_pvalues s = gathered (waveOf m) prim (psteps reduced y) /\ q_pold s = gathered (prevOf m) prim (psteps reduced y) /\
  match e with
  | Converge _ _ => q_values s = v /\ m' = m
  | Iterate _ t f =>
      if first y && (unset y || force) then
        q_values s = v /\ forall id, In id ids -> waveOf m' id = hd (0%Qc, []) (waveOf m id) :: map (fun p => (fst p, relax (snd p) (interp (prevOf m id) (fst p)))) (tl (waveOf m id)) /\ prevOf m' id = prevOf m id
      else
        q_values s = f v /\ flat_map (fun id => flat_map snd (tl (waveOf m' id))) ids = f v /\
        (forall id, In id ids -> times (waveOf m' id) = t :: steps y id /\ hd_error (waveOf m' id) = hd_error (waveOf m id) /\ prevOf m' id = prevOf m id /\ Forall (fun p => length (snd p) = n id) (waveOf m' id)) /\
        (forall id, ~ In id ids -> at_ m' id = at_ m id)
  end.
Fixpoint asExpected (n : nat -> nat) (ids prim : list nat) (reduced force : bool) (x : spec) (evs : list event) (outs : list (@qn V * @dataMap V)) : Prop :=
  match evs, outs with
  | [], [] => True
  | e :: r, (s, m') :: o => let y := enter x e in output n ids prim reduced force y e s m' /\ asExpected n ids prim reduced force (leave y e) r o
  | _, _ => False
  end.
Definition begin : spec := Spec true true (fun _ => []) (fun _ => (0%Qc, 0%Qc)).
End Spec.
