(** C89: every mapping has the method and the parameters of its own tag. *)
From Coq Require Import Bool String List Arith ZArith Lia.
From Verif Require Import M_MapConf S_MapConf P_MapConf.
Import ListNotations.

Section T.
Variable D : Type.
Variable isfinite : D -> bool.
Variable toShape : D -> D.
Variables zero nan tol8 tol9 ov30 ov15 : D.
Variable valid : basis -> D -> D -> bool.
Variable stoi : string -> option Z.
Variable bld : build.
Variable experimental : bool.
Variable size : nat.
(** std::stoi reads the default of gpu-device-id *)
Hypothesis zeroRead : stoi "0"%string = Some 0%Z.
Notation configureAll := (configureAll D isfinite toShape zero nan tol8 tol9 ov30 ov15 valid stoi bld experimental size (initial D zero)).
Notation specifies := (specifies D isfinite toShape zero nan tol8 tol9 ov30 ov15 valid stoi bld experimental size).

(** A sequence of tags is accepted exactly if each tag is, and the mappings are the ones the tags describe, in their order. *)
Theorem C89_exact es ms : (exists s, configureAll es = Ok s /\ mappings s = ms) <-> Forall2 specifies es ms.
Proof.
  destruct (all_spec D isfinite toShape zero nan tol8 tol9 ov30 ov15 valid stoi bld experimental size zeroRead es (initial D zero) eq_refl) as [S C]. unfold mappings. split.
  - intros (s & H & <-). destruct (S s H) as (_ & ms & F & ->). cbn. rewrite app_nil_r, rev_involutive. exact F.
  - intros F. destruct (C ms F) as (s & H & E). exists s. split; [exact H|]. rewrite E. cbn. rewrite app_nil_r. apply rev_involutive.
Qed.

(** Every other sequence is refused with an error message: no assertion fails. *)
Theorem C89_refused es : (forall ms, ~ Forall2 specifies es ms) -> configureAll es = Reported.
Proof.
  intros N. destruct (configureAll es) as [s| |] eqn:E; [|reflexivity|].
  - destruct (N (mappings s)). apply C89_exact. eauto.
  - destruct (all_def D isfinite toShape zero nan tol8 tol9 ov30 ov15 valid stoi bld experimental size es (initial D zero) E).
Qed.

(** A tag describes one mapping at most. *)
Theorem C89_unique e m1 m2 : specifies e m1 -> specifies e m2 -> m1 = m2.
Proof.
  intros H1 H2. assert (F1 : Forall2 specifies [e] [m1]) by (constructor; auto). assert (F2 : Forall2 specifies [e] [m2]) by (constructor; auto).
  apply C89_exact in F1, F2. destruct F1 as (s1 & E1 & M1), F2 as (s2 & E2 & M2). congruence.
Qed.

(** The mapping of a tag is the one it has without any other tag: nothing is left over from the tags before it. *)
Theorem C89_alone pre e post s : configureAll (pre ++ e :: post) = Ok s ->
  exists s1 m, configureAll [e] = Ok s1 /\ mappings s1 = [m] /\ nth_error (mappings s) (length pre) = Some m.
Proof.
  intros H. assert (F : Forall2 specifies (pre ++ e :: post) (mappings s)) by (apply C89_exact; eauto).
  apply Forall2_app_inv_l in F. destruct F as (l1 & l2 & F1 & F2 & E). inversion F2 as [|e' m es' ms' He Hr]; subst.
  assert (F3 : Forall2 specifies [e] [m]) by (constructor; auto). apply C89_exact in F3. destruct F3 as (s1 & E1 & M1). exists s1, m. split; [exact E1|]. split; [exact M1|].
  rewrite E. assert (L : length pre = length l1) by (clear -F1; induction F1; cbn; congruence). rewrite nth_error_app2 by lia. rewrite L, Nat.sub_diag. reflexivity.
Qed.
End T.
Print Assumptions C89_exact. Print Assumptions C89_refused. Print Assumptions C89_unique. Print Assumptions C89_alone.

(** * Examples: doubles are numbers or NaN *)
Definition fin (d : option Z) : bool := match d with Some _ => true | None => false end.
Definition pos (b : basis) (r h : option Z) : bool :=
  match b with
  | TPS | VolumeSplines => true
  | Multiquadrics | InvMultiquadrics | Gaussian => match h with Some z => Z.ltb 0 z | None => false end
  | _ => match r with Some z => Z.ltb 0 z | None => false end
  end.
Definition readInt (s : string) : option Z := if String.eqb s "0" then Some 0%Z else if String.eqb s "2" then Some 2%Z else if String.eqb s "-1" then Some (-1)%Z else None.
Definition shape (d : option Z) : option Z := match d with Some z => Some (60 / z)%Z | None => None end.
Definition run (bld : build) (es : list (element (option Z))) : res (list (option (mapping (option Z)))) :=
  match configureAll (option Z) fin shape (Some 0%Z) None (Some 8%Z) (Some 9%Z) (Some 30%Z) (Some 15%Z) pos readInt bld true 1 (initial _ (Some 0%Z)) es with
  | Ok s => Ok (map m_mapping (mappings s)) | Reported => Reported | Undefined => Undefined end.
Definition full := Build true true true true true true true.
Definition tag t p dead rtol cl subs : element (option Z) := Element t Consistent "A" "B" 3 p dead rtol cl None subs.
Definition wendland : subtag (option Z) := BasisTag WendlandC2 (Some (Some 5%Z)) None.
Definition gauss : subtag (option Z) := BasisTag Gaussian (Some (Some 5%Z)) None.

(** the executor and tolerance of the first mapping are not those of the second *)
Example three_mappings : run full [tag GlobalIterative (Some PolyOff) None (Some (Some 4%Z)) None [gauss; ExecutorTag CUDA (Some "2"%string) None None];
    tag GlobalIterative None (Some (false, false, true)) None None [wendland]; tag NearestNeighbor None None None None []]
  = Ok [Some (GinkgoRBF Gaussian Consistent 3 (Some 5%Z) (Some 12%Z) (false, false, false) PolyOff (Ginkgo CUDA "cg-solver" (Some 4%Z) 2 0));
        Some (PetscRBF WendlandC2 Consistent 3 (Some 5%Z) (Some 0%Z) (false, false, true) (Some 9%Z) PolySeparate);
        Some (Simple NearestNeighbor Consistent 3 (Some 0%Z))].
Proof. vm_compute. reflexivity. Qed.
(** hence the tags meet the specification *)
Example three_specified : exists ms, length ms = 3 /\ Forall2 (specifies (option Z) fin shape (Some 0%Z) None (Some 8%Z) (Some 9%Z) (Some 30%Z) (Some 15%Z) pos readInt full true 1)
   [tag GlobalIterative (Some PolyOff) None (Some (Some 4%Z)) None [gauss; ExecutorTag CUDA (Some "2"%string) None None];
    tag GlobalIterative None (Some (false, false, true)) None None [wendland]; tag NearestNeighbor None None None None []] ms.
Proof. eexists. split; [|apply C89_exact; [reflexivity|]; eexists; split; [vm_compute; reflexivity|vm_compute; reflexivity]]. reflexivity. Qed.
Example pum_modes : run full [tag PumDirect (Some PolyOff) None None (Some (7, Some 1%Z, false)) [ExecutorTag OMP None (Some 4%Z) (Some MinimalCompute); wendland]; tag PumDirect None None None None [wendland; ExecutorTag SYCL (Some "auto"%string) None None]]
  = Ok [Some (PumRBF WendlandC2 Consistent 3 (Some 5%Z) (Some 0%Z) PolyOff (7, Some 1%Z, false) (Ginkgo OMP "cg-solver" (Some 8%Z) 0 4) true);
        Some (PumRBF WendlandC2 Consistent 3 (Some 5%Z) (Some 0%Z) PolySeparate (50, Some 15%Z, true) (Ginkgo SYCL "cg-solver" (Some 8%Z) 4294967295 0) false)].
Proof. vm_compute. reflexivity. Qed.
Example refusals :
  run full [tag GlobalDirect None None None None []] = Reported /\ run full [tag GlobalDirect None None None None [wendland; gauss]] = Reported
  /\ run full [tag GlobalDirect None None None None [wendland; wendland]] = Reported /\ run full [tag NearestNeighbor None None None None [wendland]] = Reported
  /\ run full [tag PumDirect (Some PolyOn) None None None [wendland]] = Reported /\ run full [tag PumDirect None (Some (true, false, false)) None None [wendland]] = Reported
  /\ run full [tag GlobalDirect None None None None [wendland; ExecutorTag CUDA (Some "-1"%string) None None]] = Reported
  /\ run full [tag GlobalDirect None None None None [BasisTag Gaussian (Some (Some 5%Z)) (Some (Some 5%Z))]] = Reported
  /\ run (Build false true true true true true true) [tag GlobalIterative None None None None [wendland]] = Reported
  /\ run (Build true true true false true true true) [tag GlobalDirect None None None None [wendland; ExecutorTag CUDA None None None]] = Reported.
Proof. vm_compute. repeat split. Qed.

(** * What does not hold *)
(** Axes of mapping:rbf that are set dead are not ignored: the mapping is the same as without the attributes. *)
Theorem C89_alias_dead_refuted : exists e m, e_type e = Alias /\ e_dead e = Some (true, true, false) /\ run full [e] = Ok [m]
  /\ run full [tag Alias None None None None (e_subs e)] = Ok [m].
Proof. exists (tag Alias None (Some (true, true, false)) None None [wendland]). eexists. repeat split; vm_compute; reflexivity. Qed.
(** mapping:rbf, which stands for mapping:rbf-pum-direct, has other clusters than this tag without attributes. *)
Theorem C89_alias_clusters_refuted : exists b c d r h p cl1 cl2 g o, cl1 <> cl2 /\ run full [tag Alias None None None None [wendland]] = Ok [Some (PumRBF b c d r h p cl1 g o)]
  /\ run full [tag PumDirect None None None None [wendland]] = Ok [Some (PumRBF b c d r h p cl2 g o)].
Proof.
  exists WendlandC2, Consistent, 3, (Some 5%Z), (Some 0%Z), PolySeparate, (100, Some 30%Z, true), (50, Some 15%Z, true), (Ginkgo CPU "cg-solver" (Some 8%Z) 0%Z 0%Z), true.
  split; [discriminate|]. split; vm_compute; reflexivity.
Qed.
(** More than one executor is accepted, the last one is used. *)
Theorem C89_executors_refuted : exists k, run full [tag GlobalDirect None None None None [wendland; ExecutorTag CUDA None None None; ExecutorTag CPU None None None]] = Ok [Some k]
  /\ run full [tag GlobalDirect None None None None [wendland]] = Ok [Some k].
Proof. eexists. split; vm_compute; reflexivity. Qed.
(** A negative number of threads is accepted and becomes a large one. *)
Theorem C89_threads_refuted : exists b c d r h p g, g_threads _ g = 4294967295%Z
  /\ run full [tag GlobalIterative None None None None [wendland; ExecutorTag OMP None (Some (-1)%Z) None]] = Ok [Some (GinkgoRBF b c d r h (false, false, false) p g)].
Proof.
  exists WendlandC2, Consistent, 3, (Some 5%Z), (Some 0%Z), PolySeparate, (Ginkgo OMP "cg-solver" (Some 9%Z) 0%Z 4294967295%Z). split; [reflexivity|]. vm_compute. reflexivity.
Qed.
Print Assumptions C89_alias_dead_refuted. Print Assumptions C89_alias_clusters_refuted. Print Assumptions C89_executors_refuted. Print Assumptions C89_threads_refuted.
