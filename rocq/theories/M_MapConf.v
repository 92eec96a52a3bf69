(** The configuration of the methods and parameters of mappings (mapping/config/MappingConfiguration.cpp).  Reported errors
    are [Reported], failing assertions are [Undefined].  The meshes, directions and duplicates of mappings are in [M_Wiring],
    the attributes of the multiscale mappings are left out. *)
From Coq Require Import Bool String List Arith ZArith.
Import ListNotations.
Open Scope nat_scope.
Open Scope list_scope.

Inductive res (A : Type) := Ok (a : A) | Reported | Undefined.
Arguments Ok {A}. Arguments Reported {A}. Arguments Undefined {A}.
Definition bindR {A B} (x : res A) (f : A -> res B) : res B := match x with Ok a => f a | Reported => Reported | Undefined => Undefined end.
Definition check {B} (b : bool) (k : res B) : res B := if b then k else Reported.

(** the options of the attributes and the names of the tags *)
Inductive mtype := NearestNeighbor | NearestProjection | NearestNeighborGradient | LinearCell | CoarseGraining | Axial | Radial
  | GlobalDirect | GlobalIterative | PumDirect | Alias.
Inductive constr := Conservative | Consistent | ScaledSurface | ScaledVolume.
Inductive polynomial := PolyOn | PolyOff | PolySeparate.
Inductive basis := TPS | Multiquadrics | InvMultiquadrics | VolumeSplines | Gaussian | CTPSC2 | WendlandC0 | WendlandC2 | WendlandC4 | WendlandC6 | WendlandC8.
Inductive executor := CPU | CUDA | HIP | SYCL | OMP.
Inductive mode := MinimalMemory | MinimalCompute.
Inductive attribute := APolynomial | ADead | ARtol | AClusters | ARadius.

(** requiresBasisFunction, 919-922 *)
Definition requiresBasisFunction (t : mtype) : bool := match t with PumDirect | GlobalDirect | GlobalIterative | Alias => true | _ => false end.
(** 272-281: which tag has which attributes; AClusters stands for three of them, ADead for the three axes *)
Definition hasAttribute (t : mtype) (a : attribute) : bool :=
  match t, a with
  | GlobalDirect, APolynomial | GlobalIterative, APolynomial | PumDirect, APolynomial => true
  | GlobalDirect, ADead | GlobalIterative, ADead | Alias, ADead => true
  | GlobalIterative, ARtol => true
  | PumDirect, AClusters => true
  | CoarseGraining, ARadius => true
  | _, _ => false
  end.
(** 293-341: the executors of each tag, and which have a gpu-device-id, n-threads or execution-mode *)
Definition hasExecutor (t : mtype) (x : executor) : bool :=
  match t, x with
  | GlobalDirect, CPU | GlobalDirect, CUDA | GlobalDirect, HIP => true
  | GlobalIterative, CPU | GlobalIterative, CUDA | GlobalIterative, HIP | GlobalIterative, OMP => true
  | PumDirect, _ => true
  | _, _ => false
  end.
Definition hasDevice (x : executor) : bool := match x with CUDA | HIP | SYCL => true | _ => false end.
Definition hasThreads (x : executor) : bool := match x with OMP => true | _ => false end.
Definition hasMode (t : mtype) (x : executor) : bool := match t, x with _, CPU => false | PumDirect, _ => true | _, _ => false end.
(** 343-394: the attributes of the basis functions, all of which each tag with a basis function has *)
Definition hasSupport (b : basis) : bool := match b with WendlandC0 | WendlandC2 | WendlandC4 | WendlandC6 | WendlandC8 | CTPSC2 | Gaussian => true | _ => false end.
Definition hasShape (b : basis) : bool := match b with Multiquadrics | InvMultiquadrics | Gaussian => true | _ => false end.

Section Config.
(** double, std::isfinite, the conversion of 518, the literals; NaN *)
Variable D : Type.
Variable isfinite : D -> bool.
Variable toShape : D -> D.
Variables zero nan tol8 tol9 ov30 ov15 : D.
(** the constructors of the basis functions do not throw (modelled in [M_Basis]) *)
Variable valid : basis -> D -> D -> bool.
(** std::stoi, None: one of its two exceptions *)
Variable stoi : string -> option Z.
(** the options of the build *)
Record build := Build { with_petsc : bool; with_ginkgo : bool; with_kokkos : bool; with_cuda : bool; with_hip : bool; with_sycl : bool; with_openmp : bool }.
Variable bld : build.
(** experimental="on", and the number of ranks *)
Variable experimental : bool.
Variable size : nat.

(** subtags and mapping tags as they are written, None: attribute not given *)
Inductive subtag :=
| BasisTag (b : basis) (support shape : option D)
| ExecutorTag (x : executor) (device : option string) (threads : option Z) (m : option mode).
Record element := Element { e_type : mtype; e_constr : constr; e_from : string; e_to : string; e_dims : nat;
  e_poly : option polynomial; e_dead : option (bool * bool * bool); e_rtol : option D; e_clusters : option (nat * D * bool); e_radius : option D;
  e_subs : list subtag }.

(** RBFConfiguration, ExecutorConfiguration and GinkgoParameter, MappingConfiguration.hpp 40-51, 82-100, 251-264 *)
Record rbfConfig := Rbf { r_solver : mtype; r_dead : bool * bool * bool; r_poly : polynomial; r_rtol : D; r_clusters : nat * D * bool;
  r_basis : option basis; r_support : D; r_shape : D }.
Record executorConfig := Exec { x_executor : executor; x_device : Z; x_threads : Z; x_offline : bool }.
Record ginkgo := Ginkgo { g_executor : executor; g_solver : string; g_residual : D; g_device : Z; g_threads : Z }.
(** the mapping classes with the arguments of their constructors; no [dead] for the partition of unity *)
Inductive mapping :=
| Simple (t : mtype) (c : constr) (dims : nat) (radius : D)
| EigenRBF (b : basis) (c : constr) (dims : nat) (support shape : D) (dead : bool * bool * bool) (p : polynomial)
| PetscRBF (b : basis) (c : constr) (dims : nat) (support shape : D) (dead : bool * bool * bool) (rtol : D) (p : polynomial)
| GinkgoRBF (b : basis) (c : constr) (dims : nat) (support shape : D) (dead : bool * bool * bool) (p : polynomial) (g : ginkgo)
| PumRBF (b : basis) (c : constr) (dims : nat) (support shape : D) (p : polynomial) (clusters : nat * D * bool) (g : ginkgo) (offline : bool).
Record configuredMapping := Configured { m_from : string; m_to : string; m_dims : nat; m_needsBasis : bool; m_mapping : option mapping }.
(** the members of MappingConfiguration; [s_mappings] has the newest mapping first *)
Record state := State { s_mappings : list configuredMapping; s_rbf : rbfConfig; s_exec : option executorConfig; s_constr : constr }.

(** the value of an attribute: written, the default of the attribute, or the default of the getter if the tag has no such attribute *)
Definition value {A} (has : bool) (written : option A) (dflt absent : A) : A :=
  if has then match written with Some v => v | None => dflt end else absent.
Definition given {A} (o : option A) : bool := match o with Some _ => true | None => false end.
(** XMLTag::readAttributes 188-210 and the options of 228-233: no attribute the tag does not have *)
Definition readAttributes (e : element) : bool :=
  let t := e_type e in
  implb (given (e_poly e)) (hasAttribute t APolynomial) && implb (given (e_dead e)) (hasAttribute t ADead) && implb (given (e_rtol e)) (hasAttribute t ARtol)
  && implb (given (e_clusters e)) (hasAttribute t AClusters) && implb (given (e_radius e)) (hasAttribute t ARadius)
  && match t, e_poly e with PumDirect, Some PolyOn => false | _, _ => true end.
(** configureRBFMapping 567-608 with the getters of 449-452, 479-481 *)
Definition configureRBFMapping (e : element) : rbfConfig :=
  let t := e_type e in
  Rbf (match t with GlobalIterative => GlobalIterative | GlobalDirect => GlobalDirect | _ => PumDirect end)
      (value (hasAttribute t ADead) (e_dead e) (false, false, false) (false, false, false))
      (value (hasAttribute t APolynomial) (e_poly e) PolySeparate PolySeparate)
      (value (hasAttribute t ARtol) (e_rtol e) tol9 tol9)
      (value (hasAttribute t AClusters) (e_clusters e) (50, ov15, true) (100, ov30, true))
      None zero zero.
Definition isJustInTime (e : element) : bool := String.eqb (e_from e) "" || String.eqb (e_to e) "".
(** createMapping 649-653, 676-797 *)
Definition createMapping (c : constr) (e : element) : res configuredMapping :=
  check (negb (isJustInTime e) || match e_type e with NearestNeighbor | PumDirect | Alias | CoarseGraining => true | _ => false end)
    (let made m := Ok (Configured (e_from e) (e_to e) (e_dims e) (requiresBasisFunction (e_type e)) m) in
     match e_type e with
     | NearestNeighborGradient | Axial | Radial => check (match c with Conservative => false | _ => true end) (made (Some (Simple (e_type e) c (e_dims e) zero)))
     | CoarseGraining => made (Some (Simple (e_type e) c (e_dims e) (value (hasAttribute (e_type e) ARadius) (e_radius e) zero zero)))
     | NearestNeighbor | NearestProjection | LinearCell => made (Some (Simple (e_type e) c (e_dims e) zero))
     | GlobalDirect | GlobalIterative | PumDirect | Alias => made None
     end).
(** xmlTagCallback for a mapping, 417-493 *)
Definition mappingCallback (s : state) (e : element) : res state :=
  check (implb (match e_type e with Axial | Radial | CoarseGraining => true | _ => false end) experimental)
  (check (implb (match e_type e with Axial | Radial => true | _ => false end) (size <=? 1))
  (bindR (createMapping (e_constr e) e) (fun m =>
   Ok (State (m :: s_mappings s) (configureRBFMapping e) (s_exec s) (e_constr e))))).

(** xmlTagCallback for a basis function, 494-525 *)
Definition basisCallback (s : state) (b : basis) (support shape : option D) : res state :=
  match s_mappings s with
  | [] => Undefined
  | m :: _ =>
      check (m_needsBasis m)
        (match r_basis (s_rbf s) with
         | Some _ => Reported
         | None =>
             let r := value (hasSupport b) support nan zero in
             let h := value (hasShape b) shape nan zero in
             let rbf h := Rbf (r_solver (s_rbf s)) (r_dead (s_rbf s)) (r_poly (s_rbf s)) (r_rtol (s_rbf s)) (r_clusters (s_rbf s)) (Some b) r h in
             match b with
             | Gaussian =>
                 check (xorb (isfinite r) (isfinite h))
                   (Ok (State (s_mappings s) (rbf (if isfinite r then toShape r else h)) (s_exec s) (s_constr s)))
             | _ => Ok (State (s_mappings s) (rbf h) (s_exec s) (s_constr s))
             end
         end)
  end.
(** xmlTagCallback for an executor, 526-564 *)
Definition executorCallback (s : state) (t : mtype) (x : executor) (device : option string) (threads : option Z) (m : option mode) : res state :=
  let did := value (hasDevice x) device "0"%string "0"%string in
  bindR (if String.eqb did "auto" then Ok (-1)%Z
         else match stoi did with None => Reported | Some d => check (0 <=? d)%Z (Ok d) end) (fun d =>
  Ok (State (s_mappings s) (s_rbf s)
       (Some (Exec x d (value (hasThreads x) threads 0%Z 0%Z)
                (match value (hasMode t x) m MinimalMemory MinimalCompute with MinimalMemory => false | MinimalCompute => true end))) (s_constr s))).
(** the definition of a subtag and its attributes, as XMLTag::readAttributes and ConfigParser::connectTags use them: known tag,
    known attributes, attributes without default given *)
Definition knownSubtag (t : mtype) (k : subtag) : bool :=
  match k with
  | BasisTag b r h => requiresBasisFunction t && implb (given r) (hasSupport b) && implb (given h) (hasShape b)
                      && match b with Gaussian => true | _ => implb (hasSupport b) (given r) && implb (hasShape b) (given h) end
  | ExecutorTag x d n m => hasExecutor t x && implb (given d) (hasDevice x) && implb (given n) (hasThreads x) && implb (given m) (hasMode t x)
  end.
Definition sameTag (a b : subtag) : bool :=
  match a, b with
  | BasisTag TPS _ _, BasisTag TPS _ _ | BasisTag Multiquadrics _ _, BasisTag Multiquadrics _ _ | BasisTag InvMultiquadrics _ _, BasisTag InvMultiquadrics _ _
  | BasisTag VolumeSplines _ _, BasisTag VolumeSplines _ _ | BasisTag Gaussian _ _, BasisTag Gaussian _ _ | BasisTag CTPSC2 _ _, BasisTag CTPSC2 _ _
  | BasisTag WendlandC0 _ _, BasisTag WendlandC0 _ _ | BasisTag WendlandC2 _ _, BasisTag WendlandC2 _ _ | BasisTag WendlandC4 _ _, BasisTag WendlandC4 _ _
  | BasisTag WendlandC6 _ _, BasisTag WendlandC6 _ _ | BasisTag WendlandC8 _ _, BasisTag WendlandC8 _ _ => true
  | ExecutorTag CPU _ _ _, ExecutorTag CPU _ _ _ | ExecutorTag CUDA _ _ _, ExecutorTag CUDA _ _ _ | ExecutorTag HIP _ _ _, ExecutorTag HIP _ _ _
  | ExecutorTag SYCL _ _ _, ExecutorTag SYCL _ _ _ | ExecutorTag OMP _ _ _, ExecutorTag OMP _ _ _ => true
  | _, _ => false
  end.
(** ConfigParser::connectTags, xml/ConfigParser.cpp 248-299, on the subtags of a mapping, all of which occur once at most *)
Fixpoint connectTags (t : mtype) (used subs : list subtag) (s : state) : res state :=
  match subs with
  | [] => Ok s
  | k :: r =>
      check (knownSubtag t k) (check (negb (existsb (sameTag k) used))
        (bindR (match k with BasisTag b sr sh => basisCallback s b sr sh | ExecutorTag x d n m => executorCallback s t x d n m end)
          (connectTags t (k :: used) r)))
  end.

(** int to unsigned int *)
Definition toUnsigned (z : Z) : Z := (z mod 2 ^ 32)%Z.
Definition available (x : executor) : bool :=
  match x with CPU => true | CUDA => with_cuda bld | HIP => with_hip bld | SYCL => with_sycl bld | OMP => with_openmp bld end.
(** finishRBFConfiguration 834-912 *)
Definition finishRBFConfiguration (r : rbfConfig) (b : basis) (x : executorConfig) (c : constr) (m : configuredMapping) : res mapping :=
  let dims := m_dims m in
  let ok k := check (valid b (r_support r) (r_shape r)) (Ok k) in
  match x_executor x with
  | CPU =>
      match r_solver r with
      | GlobalDirect => ok (EigenRBF b c dims (r_support r) (r_shape r) (r_dead r) (r_poly r))
      | GlobalIterative => check (with_petsc bld) (ok (PetscRBF b c dims (r_support r) (r_shape r) (r_dead r) (r_rtol r) (r_poly r)))
      | _ => ok (PumRBF b c dims (r_support r) (r_shape r) (r_poly r) (r_clusters r) (Ginkgo CPU "cg-solver" tol8 0 0) true)
      end
  | dev =>
      let threads := match dev with OMP => toUnsigned (x_threads x) | _ => 0%Z end in
      let g solver norm := Ginkgo dev solver norm (toUnsigned (x_device x)) threads in
      check (available dev)
      (match r_solver r with
       | GlobalDirect => check (with_ginkgo bld) (ok (GinkgoRBF b c dims (r_support r) (r_shape r) (r_dead r) (r_poly r) (g "qr-solver"%string tol8)))
       | GlobalIterative => check (with_ginkgo bld) (ok (GinkgoRBF b c dims (r_support r) (r_shape r) (r_dead r) (r_poly r) (g "cg-solver"%string (r_rtol r))))
       | _ => check (with_kokkos bld) (check (negb (String.eqb (m_from m) "" || String.eqb (m_to m) ""))
                (ok (PumRBF b c dims (r_support r) (r_shape r) (r_poly r) (r_clusters r) (g "cg-solver"%string tol8) (x_offline x))))
       end)
  end.
(** xmlEndTagCallback 819-832 *)
Definition xmlEndTagCallback (s : state) (t : mtype) : res state :=
  match s_mappings s with
  | [] => Undefined
  | m :: l =>
      if requiresBasisFunction t then
        match r_basis (s_rbf s) with
        | None => Reported
        | Some b =>
            bindR (finishRBFConfiguration (s_rbf s) b (match s_exec s with Some x => x | None => Exec CPU 0 0 true end) (s_constr s) m) (fun k =>
            Ok (State (Configured (m_from m) (m_to m) (m_dims m) (m_needsBasis m) (Some k) :: l) (s_rbf s) None (s_constr s)))
        end
      else match m_mapping m with None => Undefined | Some _ => Ok s end
  end.
(** one mapping tag, ConfigParser.cpp 289-297 *)
Definition configureOne (s : state) (e : element) : res state :=
  check (readAttributes e) (bindR (mappingCallback s e) (fun s1 => bindR (connectTags (e_type e) [] (e_subs e) s1) (fun s2 => xmlEndTagCallback s2 (e_type e)))).
Fixpoint configureAll (s : state) (es : list element) : res state :=
  match es with [] => Ok s | e :: r => bindR (configureOne s e) (fun s' => configureAll s' r) end.
(** the members at first; the mappings in the order of the tags *)
Definition initial : state := State [] (Rbf GlobalDirect (false, false, false) PolyOn zero (0, zero, false) None zero zero) None Consistent.
Definition mappings (s : state) : list configuredMapping := rev (s_mappings s).
End Config.
Arguments BasisTag {D}. Arguments ExecutorTag {D}. Arguments Element {D}. Arguments Simple {D}. Arguments EigenRBF {D}. Arguments PetscRBF {D}.
Arguments GinkgoRBF {D}. Arguments PumRBF {D}. Arguments Ginkgo {D}. Arguments Configured {D}. Arguments State {D}. Arguments Rbf {D}.
Arguments e_type {D}. Arguments e_constr {D}. Arguments e_from {D}. Arguments e_to {D}. Arguments e_dims {D}. Arguments e_poly {D}. Arguments e_dead {D}.
Arguments e_rtol {D}. Arguments e_clusters {D}. Arguments e_radius {D}. Arguments e_subs {D}. Arguments m_from {D}. Arguments m_to {D}. Arguments m_dims {D}.
Arguments m_needsBasis {D}. Arguments m_mapping {D}. Arguments s_mappings {D}. Arguments s_rbf {D}. Arguments s_exec {D}. Arguments s_constr {D}.
Arguments r_solver {D}. Arguments r_dead {D}. Arguments r_poly {D}. Arguments r_rtol {D}. Arguments r_clusters {D}. Arguments r_basis {D}. Arguments r_support {D}. Arguments r_shape {D}.
Arguments mappings {D}.
