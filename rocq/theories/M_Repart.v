(** What a rank keeps of a received mesh: the bounding-box filter and the tags of
    nearest-neighbor mappings.

    Models src/partition/ReceivedPartition.cpp 278-380 (filterByBoundingBox),
    480-535 (prepareBoundingBox), 901-955 (tagMeshFirstRound), 395-475
    (compareBoundingBoxes, two-level initialization: the connected ranks) and
    src/mapping/NearestNeighborBaseMapping.cpp 103-150 (tagMeshFirstRound).  The
    remaining steps of ReceivedPartition::compute are in M_Part.

    Simplifications: no direct access; meshes and boxes that the primary rank sends
    to the secondary ranks arrive unchanged (C31, C32), so that the mesh a
    secondary rank receives with ON_PRIMARY_RANK is what the filter leaves. *)
From Coq Require Import ZArith QArith List Arith Bool.
From Verif Require Import M_Net M_Mesh M_Box M_Map M_Comm M_M2N M_Part.
Import ListNotations.
Open Scope nat_scope.

Inductive geometricFilter := NO_FILTER | ON_PRIMARY_RANK | ON_SECONDARY_RANKS.

Section R.
Variables big prec : Q.
(** the R-tree of a mesh: a closest vertex *)
Variable closestV : mesh -> list Q -> nat.
(** _safetyFactor *)
Variable safety : Q.

(** Mesh::getBoundingBox of a local mesh: computed once after the vertices are set *)
Definition boxOf (m : mesh) : option box := computeBoundingBox big prec m (defaultBox big (m_dim m)).

(** 480-506: the boxes of the local meshes of all mappings *)
Fixpoint mergeBoxes (locals : list mesh) (bb : box) : option box :=
  match locals with
  | [] => Some bb
  | m :: r => match boxOf m with
              | None => None
              | Some o => match expandByBox bb (scaleBy big prec o safety) with
                          | None => None
                          | Some bb' => mergeBoxes r bb'
                          end
              end
  end.
Definition prepareBoundingBox (dim : nat) (locals : list mesh) : option box := mergeBoxes locals (defaultBox big dim).

(** [_bb.contains(v)] *)
Definition inBox (bb : box) (v : vertex) : bool := match contains bb (v_coords v) with Some b => b | None => false end.
(** [errorMeshFilteredOut]: 313, 342, 373 *)
Definition filteredOut (locals : list mesh) (m : mesh) : bool :=
  existsb (fun l => nonempty (m_verts l)) locals && negb (nonempty (m_verts m)).
(** 278-380 on a rank; [m]: the received mesh *)
Definition filterByBoundingBox (f : geometricFilter) (locals : list mesh) (m : mesh) : option mesh :=
  match prepareBoundingBox (m_dim m) locals with
  | None => None
  | Some bb =>
      match f with
      | NO_FILTER => Some m
      | _ => match filterMesh (emptyMesh (m_dim m)) m (inBox bb) with
             | None => None
             | Some filtered =>
                 match addMesh (emptyMesh (m_dim m)) filtered with
                 | None => None
                 | Some m' => if filteredOut locals m' then None else Some m'
                 end
             end
      end
  end.

(** v.tag() for the vertices whose ID is in the set *)
Fixpoint tagAt (ids : list nat) (i : nat) (vs : list vertex) : list vertex :=
  match vs with
  | [] => []
  | v :: r => (if existsb (Nat.eqb i) ids then MkVertex (v_coords v) (v_glob v) (v_owner v) true else v) :: tagAt ids (S i) r
  end.
(** NearestNeighborBaseMapping::tagMeshFirstRound, 125-142, for a mapping between
    the mesh [local] of this rank and the received mesh [m]: a consistent mapping
    from [m] or a conservative mapping to [m], both search in [m] *)
Definition tagNN (m local : mesh) : option mesh :=
  match vertexIndices (getClosestVertex (closestV m) m) (m_verts local) with
  | None => None
  | Some ids => Some (setVerts m (tagAt ids 0 (m_verts m)))
  end.
Fixpoint tagMeshFirstRound (locals : list mesh) (m : mesh) : option mesh :=
  match locals with
  | [] => Some m
  | l :: r => match tagNN m l with None => None | Some m' => tagMeshFirstRound r m' end
  end.
(** steps (1) and (2) of ReceivedPartition::compute, 135-145 *)
Definition firstSteps (f : geometricFilter) (locals : list mesh) (m : mesh) : option mesh :=
  match filterByBoundingBox f locals m with
  | None => None
  | Some m' => tagMeshFirstRound locals m'
  end.

(** ReceivedPartition::compute, 105-270, on rank [r] of [n]; a serial participant
    keeps the whole mesh (112-132) *)
Definition receivedPartition (n r : nat) (direct : bool) (f : geometricFilter) (locals : list mesh) (m : mesh) : proc packet part :=
  if n =? 1 then computeReceived n r (nVertices m) direct [] m else
  t <- orErr (firstSteps f locals m) (ECheck 275) ;;
  computeReceived n r (nVertices m) direct [] t.

(** two-level initialization: the remote ranks whose box overlaps the box of this
    rank, 430-437 and 465-470; [parts]: the parts of the mesh on the remote ranks *)
Fixpoint connectedParts (bb : box) (parts : list mesh) : option (list mesh) :=
  match parts with
  | [] => Some []
  | p :: r => match boxOf p, connectedParts bb r with
              | Some b, Some l => Some (if overlapping bb b then p :: l else l)
              | _, _ => None
              end
  end.
(** broadcastReceiveAllMesh: the parts of the connected ranks are appended to the mesh *)
Fixpoint receiveParts (parts : list mesh) (m : mesh) : option mesh :=
  match parts with
  | [] => Some m
  | p :: r => match addMesh m p with None => None | Some m' => receiveParts r m' end
  end.
Definition receiveConnected (dim : nat) (locals parts : list mesh) : option mesh :=
  match prepareBoundingBox dim locals with
  | None => None
  | Some bb => match connectedParts bb parts with
               | None => None
               | Some l => receiveParts l (emptyMesh dim)
               end
  end.
End R.
