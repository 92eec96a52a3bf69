(** Partition-of-unity mappings with radial basis functions.

    Models src/mapping/PartitionOfUnityMapping.hpp,
    src/mapping/impl/SphericalVertexCluster.hpp, the just-in-time part of
    src/mapping/RadialBasisFctSolver.hpp (470-585) and
    Index::getVerticesInsideBox (src/query/Index.cpp 225-238).

    Simplifications (see also M_Rbf.v):
    - the centers and the radius of the clusters are given (createClustering is
      modelled in M_Cluster.v);
    - the weighting function is a function [omega] of the squared distance;
    - a vertex of a mesh with two dimensions has z = 0 (Vertex::rawCoords), so
      distances may use all three axes;
    - one component; the batched solvers are left out. *)
From Coq Require Import List Arith Bool QArith.
From Verif Require Import M_Rbf.
Import ListNotations.
Open Scope Q_scope.

(** what the constructor of RadialBasisFctSolver computes from the input vertices *)
Record decomposition := Dec { d_local : axes; d_solveC : vec -> vec; d_lsq : vec -> vec; d_tsolve : vec -> vec }.
(** a SphericalVertexCluster without its weights *)
Record cluster := Cluster { c_center : vertex; c_in : list nat; c_out : list nat; c_solver : solver }.
Definition all3 : axes := [0; 1; 2]%nat.

(** distance < radius; the radius is positive *)
Definition closer (u v : vertex) (radius : Q) : bool := negb (Qle_bool (radius * radius) (sqdiff all3 u v)).
(** Index::getVerticesInsideBox(vertex, radius); the ids are sorted by the flat_set *)
Definition insideBox (m : list vertex) (c : vertex) (radius : Q) : list nat :=
  filter (fun i => closer c (vtx m i) radius) (seq 0 (length m)).
(** outData[i] += x *)
Fixpoint addAt (i : nat) (x : Q) (l : vec) : vec :=
  match l, i with
  | [], _ => []
  | y :: r, O => y + x :: r
  | y :: r, S k => y :: addAt k x r
  end.
Definition accumulate (out : vec) (ids : list nat) (vals : vec) : vec :=
  fold_left (fun o p => addAt (fst p) (snd p) o) (combine ids vals) out.
(** flat_set::index_of(find(id)); [None]: not contained *)
Fixpoint indexOf (id : nat) (l : list nat) : option nat :=
  match l with
  | [] => None
  | j :: r => if (j =? id)%nat then Some 0%nat else match indexOf id r with Some k => Some (S k) | None => None end
  end.

Section Pum.
Variable phi omega : Q -> Q.
Variable ax : axes.
Variable pol : polynomial.
Variable radius margin : Q.
Variable dec : list vertex -> decomposition.

Definition solverFor (ins outs : list vertex) : solver :=
  Solver ins outs ax (d_local (dec ins)) pol (d_solveC (dec ins)) (d_lsq (dec ins)) (d_tsolve (dec ins)).
(** constructor of SphericalVertexCluster, 139-182; [margin] is NUMERICAL_ZERO_DIFFERENCE *)
Definition makeCluster (inMesh outMesh : list vertex) (c : vertex) : cluster :=
  let ins := insideBox inMesh c radius in
  let outs := insideBox outMesh c (radius - margin) in
  Cluster c ins outs (solverFor (map (vtx inMesh) ins) (map (vtx outMesh) outs)).
(** _computeCPU, 236-249: empty clusters are dropped *)
Definition makeClusters (inMesh outMesh centers : list vertex) : list cluster :=
  filter (fun c => match c_in c with [] => false | _ => true end) (map (makeCluster inMesh outMesh) centers).
Definition noCluster : cluster := Cluster origin [] [] (Solver [] [] [] [] OFF (fun b => b) (fun b => b) (fun b => b)).

(** computeNormalizedWeight, 291-341.  [None]: the error of 314 *)
Definition computeWeight (c : cluster) (v : vertex) : Q := omega (sqdiff all3 (c_center c) v).
Definition computeNormalizedWeight (cl : list cluster) (v : vertex) : option (list (nat * Q)) :=
  let ids := filter (fun k => closer v (c_center (nth k cl noCluster)) radius) (seq 0 (length cl)) in
  let weights := map (fun k => computeWeight (nth k cl noCluster) v) ids in
  let weightSum := fold_left Qplus weights 0 in
  match ids with
  | [] => None
  | _ => if Qle_bool weightSum 0
         then Some (combine ids (map (fun _ => 1 / inject_Z (Z.of_nat (length weights)) / 1) weights))
         else Some (combine ids (map (fun w => w / weightSum) weights))
  end.

(** _normalizedWeights of all clusters: cluster, local index; [None] is not initialized *)
Definition store := nat -> nat -> option Q.
(** setNormalizedWeight, 185-199.  [None]: an assertion fails; if assertions are
    off, _normalizedWeights is written out of range when the id is not contained *)
Definition setNormalizedWeight (cl : list cluster) (st : store) (id k : nat) (w : Q) : option store :=
  match indexOf id (c_out (nth k cl noCluster)) with
  | None => None
  | Some i => if Qle_bool w 0 then None
              else Some (fun k' i' => if (k' =? k)%nat && (i' =? i)%nat then Some w else st k' i')
  end.
Fixpoint setWeights (cl : list cluster) (id : nat) (ws : list (nat * Q)) (st : store) : option store :=
  match ws with
  | [] => Some st
  | (k, w) :: r => match setNormalizedWeight cl st id k w with None => None | Some st' => setWeights cl id r st' end
  end.
(** steps 2 and 3 of _computeCPU, 270-278 *)
Fixpoint computeWeights (cl : list cluster) (outMesh : list vertex) (ids : list nat) (st : store) : option store :=
  match ids with
  | [] => Some st
  | id :: r => match computeNormalizedWeight cl (vtx outMesh id) with
               | None => None
               | Some ws => match setWeights cl id ws st with None => None | Some st' => computeWeights cl outMesh r st' end
               end
  end.
(** computeMapping, 181-288 *)
Record pum := Pum { p_clusters : list cluster; p_weights : store }.
Definition computeMapping (inMesh outMesh centers : list vertex) : option pum :=
  let cl := makeClusters inMesh outMesh centers in
  match computeWeights cl outMesh (seq 0 (length outMesh)) (fun _ _ => None) with
  | None => None
  | Some st => Some (Pum cl st)
  end.

(** SphericalVertexCluster::mapConsistent and mapConservative; a weight that was
    never set reads as 0 here *)
Definition weightAt (st : store) (k i : nat) : Q := match st k i with Some w => w | None => 0 end.
Definition clusterWeights (m : pum) (k : nat) : vec :=
  map (weightAt (p_weights m) k) (seq 0 (length (c_out (nth k (p_clusters m) noCluster)))).
Definition clusterConsistent (m : pum) (inData : vec) (out : vec) (k : nat) : vec :=
  let c := nth k (p_clusters m) noCluster in
  accumulate out (c_out c) (zipWith Qmult (solveConsistent phi (c_solver c) (map (at_ inData) (c_in c))) (clusterWeights m k)).
Definition clusterConservative (m : pum) (inData : vec) (out : vec) (k : nat) : vec :=
  let c := nth k (p_clusters m) noCluster in
  accumulate out (c_in c) (solveConservative phi (c_solver c) (zipWith Qmult (map (at_ inData) (c_out c)) (clusterWeights m k))).
(** PartitionOfUnityMapping::mapConsistent, mapConservative, 344-380; [n] is the
    number of vertices of the mesh that gets the values *)
Definition pumConsistent (m : pum) (inData : vec) (n : nat) : vec :=
  fold_left (clusterConsistent m inData) (seq 0 (length (p_clusters m))) (repeat 0 n).
Definition pumConservative (m : pum) (inData : vec) (n : nat) : vec :=
  fold_left (clusterConservative m inData) (seq 0 (length (p_clusters m))) (repeat 0 n).

(** ** Just-in-time: RadialBasisFctSolver::computeCacheData, 471-483 *)
Definition computeCacheData (s : solver) (inputData : vec) : vec * vec :=
  match s_poly s with
  | SEPARATE => let c := s_lsq s inputData in (c, s_solveC s (vsub inputData (mul (s_Q s) c)))
  | _ => ([], s_solveC s inputData)
  end.
(** interpolateAt, 485-523 *)
Definition interpolateAt (s : solver) (v : vertex) (cache : vec * vec) : Q :=
  sumn (length (s_in s)) (fun j => phi (sqdiff all3 v (vtx (s_in s) j)) * at_ (snd cache) j) +
  match fst cache with
  | [] => 0
  | _ => sumn (S (length (s_local s))) (fun k => at_ (poly (s_local s) v) k * at_ (fst cache) k)
  end.
(** updateMappingDataCache, 439-449 and SphericalVertexCluster 256-269 *)
Definition updateCache (cl : list cluster) (inData : vec) : list (vec * vec) :=
  map (fun c => computeCacheData (c_solver c) (map (at_ inData) (c_in c))) cl.
(** mapConsistentAt, 452-476 *)
Definition mapConsistentAt (cl : list cluster) (cache : list (vec * vec)) (v : vertex) : option Q :=
  match computeNormalizedWeight cl v with
  | None => None
  | Some ws => Some (fold_left (fun r p => r + snd p * interpolateAt (c_solver (nth (fst p) cl noCluster)) v (nth (fst p) cache ([], []))) ws 0)
  end.

(** initializeMappingDataCache and resetData: zeros *)
Definition emptyCache (cl : list cluster) : list (vec * vec) :=
  map (fun c => (match pol with SEPARATE => repeat 0 (S (length (s_local (c_solver c)))) | _ => [] end, repeat 0 (length (c_in c)))) cl.
(** addWriteDataToCache, 525-563 *)
Definition addWriteData (s : solver) (v : vertex) (load : Q) (cache : vec * vec) : vec * vec :=
  (map (fun k => at_ (fst cache) k + at_ (poly (s_local s) v) k * load) (seq 0 (length (fst cache))),
   map (fun j => at_ (snd cache) j + phi (sqdiff all3 v (vtx (s_in s) j)) * load) (seq 0 (length (s_in s)))).
Fixpoint updNth {A} (i : nat) (f : A -> A) (l : list A) : list A :=
  match l, i with [], _ => [] | x :: r, O => f x :: r | x :: r, S k => x :: updNth k f r end.
(** mapConservativeAt, 383-408, for one vertex *)
Definition mapConservativeAt (cl : list cluster) (cache : list (vec * vec)) (v : vertex) (value : Q) : option (list (vec * vec)) :=
  match computeNormalizedWeight cl v with
  | None => None
  | Some ws => Some (fold_left (fun ca p => updNth (fst p) (addWriteData (c_solver (nth (fst p) cl noCluster)) v (snd p * value)) ca) ws cache)
  end.
Fixpoint writeAll (cl : list cluster) (cache : list (vec * vec)) (ws : list (vertex * Q)) : option (list (vec * vec)) :=
  match ws with
  | [] => Some cache
  | (v, x) :: r => match mapConservativeAt cl cache v x with None => None | Some ca => writeAll cl ca r end
  end.
(** evaluateConservativeCache, 565-577; the size of [epsilon] is 0 without polynomial *)
Definition evaluateConservativeCache (s : solver) (cache : vec * vec) : vec :=
  let out := s_solveC s (snd cache) in
  match fst cache with
  | [] => out
  | eps => vsub out (s_tsolve s (vneg (vsub eps (mul (transpose (s_Q s)) out))))
  end.
(** cache.p[c].squaredNorm() > 0 *)
Definition isZero (v : vec) : bool := forallb (fun x => Qeq_bool x 0) v.
(** completeJustInTimeMapping, 411-424 *)
Definition completeJustInTime (cl : list cluster) (cache : list (vec * vec)) (n : nat) : vec :=
  fold_left (fun out p => if isZero (snd (snd p)) then out else accumulate out (c_in (fst p)) (evaluateConservativeCache (c_solver (fst p)) (snd p)))
            (combine cl cache) (repeat 0 n).
End Pum.
