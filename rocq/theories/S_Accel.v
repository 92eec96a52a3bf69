(** Specification vocabulary for relaxation and Aitken acceleration (C45, C46). *)
From Coq Require Import ZArith QArith Bool List.
From Verif Require Import M_Time M_Wave M_WaveCache M_Accel S_Wave.
Import ListNotations.
Open Scope nat_scope.

Section Spec.
Variable eps : Z.
Variable qr : list row -> list Q -> list Q.

(** three vectors of the same size, related coefficient by coefficient *)
Definition pointwise (R : Q -> Q -> Q -> Prop) (a b c : vec) : Prop :=
  length b = length a /\ length c = length a /\ forall i, i < length a -> R (nth i a 0%Q) (nth i b 0%Q) (nth i c 0%Q).

(** [r] is [omega * n + (1 - omega) * o] *)
Definition combination (omega n o r : Q) : Prop := (r == omega * n + (1 - omega) * o)%Q.
(** [r] lies between [n] and [o] *)
Definition between (n o r : Q) : Prop := ((n <= r /\ r <= o) \/ (o <= r /\ r <= n))%Q.

(** the cached spline of a waveform, if any, belongs to its samples *)
Definition current (f : wform) : Prop :=
  forall sp, wf_spline f = Some sp -> sp = mkSpline qr (wf_st f) (usedDegree (wf_deg f) (length (wf_st f))).

(** the values of the previous iteration at time [t] *)
Definition previous_values (d : couplingData) (t : Z) (old : vec) : Prop := exists f', wf_sample eps qr (cd_prev d) t = Some (old, f').
Definition previous_gradients (d : couplingData) (t : Z) (old : vec) : Prop := wf_sampleGradients eps (cd_prev d) t = Some old.

(** [new] is [old] with the sample after the window start replaced as stated by [R] *)
Definition replaced (R : Q -> Q -> Q -> Prop) (windowStart : Z) (d : couplingData) (q q' : Z * smp) : Prop :=
  fst q' = fst q /\
  ((fst q <= windowStart + eps)%Z -> q' = q) /\
  ((windowStart + eps < fst q)%Z ->
     (exists old, previous_values d (fst q) old /\ pointwise R (fst (snd q)) old (fst (snd q'))) /\
     (cd_gradient d = false -> snd (snd q') = snd (snd q)) /\
     (cd_gradient d = true -> exists old, previous_gradients d (fst q) old /\ pointwise R (snd (snd q)) old (snd (snd q')))).
Definition relaxed (R : Q -> Q -> Q -> Prop) (windowStart : Z) (d d' : couplingData) : Prop :=
  wf_st (cd_prev d') = wf_st (cd_prev d) /\ cd_gradient d' = cd_gradient d /\
  Forall2 (replaced R windowStart d) (wf_st (cd_wave d)) (wf_st (cd_wave d')).

(** samples with the same values *)
Definition same_sample (q q' : Z * smp) : Prop := fst q' = fst q /\ veq (fst (snd q')) (fst (snd q)) /\ veq (snd (snd q')) (snd (snd q)).

(** the current and the previous samples are at the same times and of the same size *)
Definition same_grid (d : couplingData) : Prop :=
  ordered eps (wf_st (cd_wave d)) /\
  Forall2 (fun q o => fst q = fst o /\ length (fst (snd q)) = length (fst (snd o)) /\ length (snd (snd q)) = length (snd (snd o)))
          (wf_st (cd_wave d)) (wf_st (cd_prev d)).

(** ** Aitken *)
(** the data of a map at time [t]: [now id] was received, [before id] is the previous iteration *)
Definition iterates (m : dataMap) (ids : list nat) (t : Z) (before now : nat -> vec) : Prop :=
  forall id, In id ids -> exists d g g', at_ m id = Some d /\
    ordered eps (wf_st (cd_wave d)) /\ ordered eps (wf_st (cd_prev d)) /\
    In (t, (now id, g)) (wf_st (cd_wave d)) /\ In (t, (before id, g')) (wf_st (cd_prev d)) /\ length (now id) = length (before id).
(** the values of data at time [t] *)
Definition values_are (m : dataMap) (ids : list nat) (t : Z) (x : nat -> vec) : Prop :=
  forall id, In id ids -> exists d v g, at_ m id = Some d /\ In (t, (v, g)) (wf_st (cd_wave d)) /\ veq v (x id).
(** the affine map [x -> a x + b], coefficient by coefficient *)
Definition affine (a : Q) (b : nat -> vec) (id : nat) (x : vec) : vec := map (fun p => a * fst p + snd p)%Q (combine x (b id)).
End Spec.
