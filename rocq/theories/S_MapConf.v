(** Which mapping a tag describes, attribute by attribute and tag by tag (C89). *)
From Coq Require Import Bool String List Arith ZArith.
From Verif Require Import M_MapConf.
Import ListNotations.

Section S.
Variable D : Type.
Variable isfinite : D -> bool.
Variable toShape : D -> D.
Variables zero nan tol8 tol9 ov30 ov15 : D.
Variable valid : basis -> D -> D -> bool.
Variable stoi : string -> option Z.
Variable bld : build.
Variable experimental : bool.
Variable size : nat.

Definition default {A} (written : option A) (d : A) : A := match written with Some v => v | None => d end.
Definition rbf_tag (t : mtype) : Prop := In t [GlobalDirect; GlobalIterative; PumDirect; Alias].

(** attributes only where the tag has them; no global polynomial for the partition of unity *)
Definition attributes_ok (e : element D) : Prop :=
  (e_poly e <> None -> In (e_type e) [GlobalDirect; GlobalIterative; PumDirect]) /\ (e_type e = PumDirect -> e_poly e <> Some PolyOn)
  /\ (e_dead e <> None -> In (e_type e) [GlobalDirect; GlobalIterative; Alias])
  /\ (e_rtol e <> None -> e_type e = GlobalIterative) /\ (e_clusters e <> None -> e_type e = PumDirect) /\ (e_radius e <> None -> e_type e = CoarseGraining).
(** experimental mappings, serial ones, constraints and just-in-time mappings *)
Definition type_ok (e : element D) : Prop :=
  (In (e_type e) [CoarseGraining; Axial; Radial] -> experimental = true) /\ (In (e_type e) [Axial; Radial] -> size <= 1)
  /\ (In (e_type e) [NearestNeighborGradient; Axial; Radial] -> e_constr e <> Conservative)
  /\ (e_from e = ""%string \/ e_to e = ""%string -> In (e_type e) [NearestNeighbor; PumDirect; Alias; CoarseGraining]).

Definition basis_name (k : subtag D) : option basis := match k with BasisTag b _ _ => Some b | _ => None end.
Definition executor_name (k : subtag D) : option executor := match k with ExecutorTag x _ _ _ => Some x | _ => None end.
Definition device_readable (d : option string) : Prop := d = None \/ d = Some "auto"%string \/ exists s z, d = Some s /\ stoi s = Some z /\ (0 <= z)%Z.
(** the executors of each tag, their attributes; the attributes of basis functions *)
Definition subtag_ok (t : mtype) (k : subtag D) : Prop :=
  match k with
  | BasisTag b support shape => rbf_tag t /\
      match b with
      | TPS | VolumeSplines => support = None /\ shape = None
      | Multiquadrics | InvMultiquadrics => support = None /\ shape <> None
      | Gaussian => True
      | _ => support <> None /\ shape = None
      end
  | ExecutorTag x device threads m =>
      match t with GlobalDirect => In x [CPU; CUDA; HIP] | GlobalIterative => In x [CPU; CUDA; HIP; OMP] | PumDirect => True | _ => False end
      /\ (device <> None -> In x [CUDA; HIP; SYCL]) /\ (threads <> None -> x = OMP) /\ (m <> None -> t = PumDirect /\ x <> CPU) /\ device_readable device
  end.
(** exactly one basis function *)
Definition the_basis (e : element D) b support shape : Prop :=
  exists pre post, e_subs e = pre ++ BasisTag b support shape :: post /\ forall k, In k (pre ++ post) -> basis_name k = None.
(** the last executor, the CPU if there is none *)
Definition the_executor (e : element D) x device threads m : Prop :=
  (x = CPU /\ device = None /\ threads = None /\ m = None /\ forall k, In k (e_subs e) -> executor_name k = None)
  \/ exists pre post, e_subs e = pre ++ ExecutorTag x device threads m :: post /\ forall k, In k post -> executor_name k = None.
(** no tag twice *)
Definition no_repetition (e : element D) : Prop :=
  forall i j a b, i < j -> nth_error (e_subs e) i = Some a -> nth_error (e_subs e) j = Some b -> (basis_name a, executor_name a) <> (basis_name b, executor_name b).

(** support radius and shape parameter: the ones given; those of a Gaussian from the one that is given *)
Definition parameters (b : basis) (support shape : option D) (r h : D) : Prop :=
  match b with
  | Gaussian => let s := default support nan in let p := default shape nan in
                r = s /\ ((isfinite s = true /\ isfinite p = false /\ h = toShape s) \/ (isfinite s = false /\ isfinite p = true /\ h = p))
  | _ => r = default support zero /\ h = default shape zero
  end.
Definition device_number (d : option string) : Z := match d with None => 0 | Some s => if String.eqb s "auto" then 2 ^ 32 - 1 else match stoi s with Some z => z mod 2 ^ 32 | None => 0 end end.
Definition in_build (x : executor) : Prop :=
  match x with CPU => True | CUDA => with_cuda bld = true | HIP => with_hip bld = true | SYCL => with_sycl bld = true | OMP => with_openmp bld = true end.
Definition no_axis : bool * bool * bool := (false, false, false).

(** the mapping with the basis function and on the executor *)
Definition rbf_mapping (e : element D) b r h x device threads (m : option mode) : mapping D -> Prop := fun k =>
  let c := e_constr e in let dims := e_dims e in let dead := default (e_dead e) no_axis in let p := default (e_poly e) PolySeparate in
  let g solver norm := Ginkgo x solver norm (device_number device) (default threads 0 mod 2 ^ 32)%Z in
  match e_type e, x with
  | GlobalDirect, CPU => k = EigenRBF b c dims r h dead p
  | GlobalDirect, _ => with_ginkgo bld = true /\ k = GinkgoRBF b c dims r h dead p (g "qr-solver"%string tol8)
  | GlobalIterative, CPU => with_petsc bld = true /\ k = PetscRBF b c dims r h dead (default (e_rtol e) tol9) p
  | GlobalIterative, _ => with_ginkgo bld = true /\ k = GinkgoRBF b c dims r h dead p (g "cg-solver"%string (default (e_rtol e) tol9))
  | PumDirect, CPU => k = PumRBF b c dims r h p (default (e_clusters e) (50, ov15, true)) (Ginkgo CPU "cg-solver" tol8 0 0) true
  | PumDirect, _ => with_kokkos bld = true /\ e_from e <> ""%string /\ e_to e <> ""%string
                    /\ k = PumRBF b c dims r h p (default (e_clusters e) (50, ov15, true)) (g "cg-solver"%string tol8) (match m with Some MinimalCompute => true | _ => false end)
  | Alias, _ => k = PumRBF b c dims r h PolySeparate (100, ov30, true) (Ginkgo CPU "cg-solver" tol8 0 0) true
  | _, _ => False
  end.
(** all of a tag: it is accepted and yields this mapping *)
Definition specifies (e : element D) (m : configuredMapping D) : Prop :=
  attributes_ok e /\ type_ok e /\ (forall k, In k (e_subs e) -> subtag_ok (e_type e) k) /\ no_repetition e
  /\ m_from m = e_from e /\ m_to m = e_to e /\ m_dims m = e_dims e /\ (m_needsBasis m = true <-> rbf_tag (e_type e))
  /\ ((~ rbf_tag (e_type e) /\ m_mapping m = Some (Simple (e_type e) (e_constr e) (e_dims e) (default (e_radius e) zero)))
      \/ exists b support shape r h x device threads mo k,
           rbf_tag (e_type e) /\ the_basis e b support shape /\ parameters b support shape r h /\ valid b r h = true
           /\ the_executor e x device threads mo /\ in_build x /\ rbf_mapping e b r h x device threads mo k /\ m_mapping m = Some k).
End S.
