(** Partitions of provided and of received meshes.

    Modelled code: src/partition/ProvidedPartition.cpp 117-230 (prepare),
    src/partition/ReceivedPartition.cpp 93-269 (compute), 541-899
    (createOwnerInformation), 958-967 (setOwnerInformation).

    Simplifications.  Rank [r] of the [n] ranks of a participant is process [r].
    The bounding-box filter and the tags of the first round are done before: they
    are given with the mesh.  The mappings decide which vertices are tagged in the
    second round: [extra].  [int] does not overflow, a [bool] is sent as 0 or 1.
    Timing events and messages to the user are left out. *)
From Coq Require Import ZArith QArith List Arith Bool.
From Verif Require Import M_Net M_Mesh M_Box M_Comm M_M2N.
Import ListNotations.
Open Scope nat_scope.
Open Scope proc_scope.

(** mesh::Mesh: the vertices and elements, _vertexOffsets, _globalNumberOfVertices,
    _vertexDistribution (src/mesh/Mesh.hpp 330-375) *)
Record part := MkPart { pt_mesh : mesh; pt_offsets : list Z; pt_number : Z; pt_dist : distribution }.

(** * Provided meshes: ProvidedPartition.cpp 117-230 *)

(** [_mesh->vertex(i).setGlobalIndex(g + i)] for all vertices: 133-135, 191-193, 212-215 *)
Fixpoint numberVerts (g : Z) (vs : list vertex) : list vertex :=
  match vs with [] => [] | v :: r => setGlobalIndex g v :: numberVerts (g + 1)%Z r end.
(** the numbers from [a] on, below [b] *)
Definition range (a b : Z) : list nat := map (fun i => Z.to_nat a + i) (seq 0 (Z.to_nat (b - a))).
(** 166-178 *)
Definition fillDistribution (n : nat) (offsets : list Z) : distribution :=
  fold_left (fun vd s => vset s (range (nth (s - 1) offsets 0%Z) (nth s offsets 0%Z)) vd) (secondaries n)
            (vset 0 (range 0 (nth 0 offsets 0%Z)) []).
Definition allOwner (m : mesh) : mesh := setVerts m (map (setOwner true) (m_verts m)).
(** [anyOneLevel]: some m2n does not use two-level initialization (line 162) *)
Definition prepare (n r : nat) (anyOneLevel : bool) (m : mesh) : proc packet part :=
  let numberOfVertices := sizeOf (m_verts m) in
  p <- (if isPrimary n r then
          let m := setVerts m (numberVerts 0 (m_verts m)) in
          st <- foldRanks (secondaries n) (fun s st =>
                  numberOfSecondaryRankVertices <- recvInt s ;;
                  let offsets := upd s (numberOfSecondaryRankVertices + nth (s - 1) (fst st) 0)%Z (fst st) in
                  sendInt s (snd st) ;;;
                  PRet (offsets, (snd st + numberOfSecondaryRankVertices)%Z))
                (upd 0 numberOfVertices (repeat 0%Z n), numberOfVertices) ;;
          check (forallb (Z.leb 0) (fst st)) (EAssert 260) ;;;
          bcastInt (secondaries n) (snd st) ;;;
          bcastVecInt (secondaries n) (fst st) ;;;
          PRet (MkPart m (fst st) (snd st) (if anyOneLevel then fillDistribution n (fst st) else []))
        else if isSecondary r then
          sendInt 0 numberOfVertices ;;;
          globalVertexCounter <- recvInt 0 ;;
          let m := setVerts m (numberVerts globalVertexCounter (m_verts m)) in
          globalNumberOfVertices <- bcastIntRecv 0 ;;
          check (negb (Z.eqb globalNumberOfVertices (-1))) (EAssert 261) ;;;
          vertexOffsets <- bcastVecIntRecv 0 ;;
          PRet (MkPart m vertexOffsets globalNumberOfVertices [])
        else
          let vd := match m_verts m with [] => [] | _ => [(0, range 0 numberOfVertices)] end in
          check (negb (isEmpty vd)) (EAssert 262) ;;;
          PRet (MkPart (setVerts m (numberVerts 0 (m_verts m))) [numberOfVertices] numberOfVertices vd)) ;;
  let p := MkPart (allOwner (pt_mesh p)) (pt_offsets p) (pt_number p) (pt_dist p) in
  check (0 <? pt_number p)%Z (EAssert 263) ;;;
  check (negb (isEmpty (pt_offsets p))) (EAssert 264) ;;;
  PRet p.

(** * Received meshes: owners *)

(** ReceivedPartition.cpp 958-967; [None]: the assertions *)
Fixpoint setOwners (owners : list Z) (vs : list vertex) : option (list vertex) :=
  match vs with
  | [] => Some []
  | v :: r =>
      match owners with
      | [] => None
      | o :: os => if Z.eqb o (-1) then None
                   else match setOwners os r with Some l => Some (setOwner (Z.eqb o 1) v :: l) | None => None end
      end
  end.
Definition setOwnerInformation (owners : list Z) (m : mesh) : option mesh :=
  match setOwners owners (m_verts m) with Some vs => Some (setVerts m vs) | None => None end.

Definition globalIDs (m : mesh) : list Z := map v_glob (m_verts m).
Definition tagsOf (m : mesh) : list Z := map (fun v => if v_tag v then 1 else 0)%Z (m_verts m).
Definition anyTag (m : mesh) : bool := existsb v_tag (m_verts m).

(** what the primary rank knows about a rank: secondaryOwnerVecs, secondaryGlobalIDs
    and secondaryTags of this rank (lines 787-792) *)
Record about := MkAbout { ab_owners : list Z; ab_ids : list Z; ab_tags : list Z }.

(** [globalOwnerVec[id]]; [None]: outside of the vector *)
Definition ownerAt (id : Z) (g : list Z) : option Z := if (id <? 0)%Z then None else nth_error g (Z.to_nat id).
(** the loop over the vertices of one rank: 848-858 with [guess = Some localGuess]
    and [mark = 1], 864-869 with [guess = None] and [mark = rank + 1].  Returns the
    owners of this rank and globalOwnerVec. *)
Fixpoint ownRound (guess : option Z) (mark counter : Z) (owners ids tags g : list Z) : option (list Z * list Z) :=
  match owners with
  | [] => Some ([], g)
  | o :: os =>
      match ids, tags with
      | id :: is, t :: ts =>
          match ownerAt id g with
          | None => None
          | Some x =>
              if (Z.eqb x 0 && Z.eqb t 1)%bool then
                let g' := upd (Z.to_nat id) mark g in
                let counter' := (counter + 1)%Z in
                if match guess with Some l => Z.eqb counter' l | None => false end then Some (1%Z :: os, g')
                else match ownRound guess mark counter' os is ts g' with
                     | Some (os', g'') => Some (1%Z :: os', g'') | None => None end
              else match ownRound guess mark counter os is ts g with
                   | Some (os', g'') => Some (o :: os', g'') | None => None end
          end
      | _, _ => None
      end
  end.
(** one round over all ranks, from [rank] on *)
Fixpoint ownRounds (guess : option Z) (mark : nat -> Z) (rank : nat) (l : list about) (g : list Z) : option (list about * list Z) :=
  match l with
  | [] => Some ([], g)
  | a :: r =>
      match ownRound guess (mark rank) 0 (ab_owners a) (ab_ids a) (ab_tags a) g with
      | None => None
      | Some (os, g') =>
          match ownRounds guess mark (S rank) r g' with
          | None => None
          | Some (r', g'') => Some (MkAbout os (ab_ids a) (ab_tags a) :: r', g'')
          end
      end
  end.
(** 845-870; [None]: outside of a vector.  [N]: the global number of vertices *)
Definition decideOwners (N : nat) (ranksAtInterface : Z) (l : list about) : option (list about) :=
  let localGuess := (Z.of_nat N / ranksAtInterface)%Z in
  match ownRounds (Some localGuess) (fun _ => 1%Z) 0 l (repeat 0%Z N) with
  | None => None
  | Some (l', g) => match ownRounds None (fun rank => Z.of_nat rank + 1)%Z 0 l' g with Some (l'', _) => Some l'' | None => None end
  end.

(** 751-782 *)
Definition ownersSecondary (m : mesh) : proc packet mesh :=
  sendInt 0 (sizeOf (m_verts m)) ;;;
  if isEmpty (m_verts m) then PRet m else
  sendRangeInt 0 (tagsOf m) ;;;
  sendRangeInt 0 (globalIDs m) ;;;
  sendInt 0 (if anyTag m then 1 else 0)%Z ;;;
  ownerVec <- receiveRangeInt 0 ;;
  check (length ownerVec =? nVertices m) (EAssert 265) ;;;
  orErr (setOwnerInformation ownerVec m) (EAssert 266).
(** 784-897; [direct] is _allowDirectAccess *)
Definition ownersPrimary (n N : nat) (direct : bool) (m : mesh) : proc packet mesh :=
  let first := MkAbout (repeat 0%Z (nVertices m)) (globalIDs m) (tagsOf m) in
  st <- foldRanks (secondaries n) (fun rank st =>
          localNumberOfVertices <- recvInt rank ;;
          check (0 <=? localNumberOfVertices)%Z (EAssert 267) ;;;
          let owners := repeat 0%Z (Z.to_nat localNumberOfVertices) in
          if Z.eqb localNumberOfVertices 0 then PRet (fst st ++ [MkAbout owners [] []], snd st) else
          tags <- receiveRangeInt rank ;;
          ids <- receiveRangeInt rank ;;
          atInterface <- recvInt rank ;;
          PRet (fst st ++ [MkAbout owners ids tags], (snd st + (if Z.eqb atInterface 0 then 0 else 1))%Z))
        ([first], if anyTag m then 1%Z else 0%Z) ;;
  check (negb (Z.eqb (snd st) 0 && direct)) (ECheck 268) ;;;
  check (negb (Z.eqb (snd st) 0)) (EAssert 269) ;;;
  l <- orErr (decideOwners N (snd st) (fst st)) (EAssert 270) ;;
  forRanks (secondaries n) (fun rank =>
    match nth_error l rank with
    | Some a => if isEmpty (ab_tags a) then PRet tt else sendRangeInt rank (ab_owners a)
    | None => PErr (EAssert 270)
    end) ;;;
  match l with
  | a :: _ => orErr (setOwnerInformation (ab_owners a) m) (EAssert 266)
  | [] => PErr (EAssert 270)
  end.
(** 750-898, one-level initialization *)
Definition createOwnerInformation (n r N : nat) (direct : bool) (m : mesh) : proc packet mesh :=
  if isSecondary r then ownersSecondary m
  else if isPrimary n r then ownersPrimary n N direct m
  else PRet m.

(** * Received meshes: the partition *)

(** Vertex::tag for the vertices [extra] says; tagMeshSecondRound 948-956 *)
Fixpoint tagMore (extra : list bool) (vs : list vertex) : list vertex :=
  match vs, extra with
  | v :: r, b :: bs => (if b then tag v else v) :: tagMore bs r
  | _, _ => vs
  end.
(** 203-226 (feedback of the vertex distribution, one-level initialization) *)
Definition feedback (n r : nat) (m : mesh) : proc packet distribution :=
  if isSecondary r then sendRangeInt 0 (globalIDs m) ;;; PRet []
  else foldRanks (secondaries n) (fun s vd => ids <- receiveRangeInt s ;; PRet (vset s (ofInts ids) vd)) (vset 0 (ofInts (globalIDs m)) []).
(** 231-263 *)
Definition computeOffsets (n r : nat) (m : mesh) : proc packet (list Z) :=
  if isSecondary r then sendInt 0 (sizeOf (m_verts m)) ;;; bcastVecIntRecv 0
  else if isPrimary n r then
    offsets <- foldRanks (secondaries n) (fun s offsets =>
                 k <- recvInt s ;;
                 check (0 <=? k)%Z (EAssert 271) ;;;
                 PRet (upd s (k + nth (s - 1) offsets 0)%Z offsets)) (upd 0 (sizeOf (m_verts m)) (repeat 0%Z n)) ;;
    bcastVecInt (secondaries n) offsets ;;; PRet offsets
  else PRet [].
(** 93-269 without two-level initialization; [m]: the mesh with the tags of the
    first round, [N]: its global number of vertices *)
Definition computeReceived (n r N : nat) (direct : bool) (extra : list bool) (m : mesh) : proc packet part :=
  if n =? 1 then
    let k := sizeOf (m_verts m) in
    let vd := match m_verts m with [] => [] | _ => [(0, range 0 k)] end in
    PRet (MkPart (allOwner m) [k] (Z.of_nat N) vd)
  else
    m1 <- createOwnerInformation n r N direct m ;;
    let m2 := setVerts m1 (tagMore extra (m_verts m1)) in
    filtered <- orErr (filterMesh (emptyMesh (m_dim m)) m2 v_tag) (EAssert 272) ;;
    m3 <- orErr (addMesh (emptyMesh (m_dim m)) filtered) (EAssert 273) ;;
    vd <- feedback n r m3 ;;
    offsets <- computeOffsets n r m3 ;;
    check (negb (isEmpty offsets)) (EAssert 274) ;;;
    check (negb (isPrimary n r && isEmpty vd)) (EAssert 275) ;;;
    PRet (MkPart m3 offsets (Z.of_nat N) vd).

(** * Two-level initialization: owners, 553-749

    The receives of the counts are posted before anything is sent (672-676), the
    lists are sent with aSend (696-704): no send waits for its receiver.  [boxes]:
    the boxes _bb of all ranks, known to every rank after 595-612. *)

(** 616-622: the other ranks whose box overlaps the own one *)
Definition neighbours (r : nat) (boxes : list box) (bb : box) : list (nat * box) :=
  filter (fun e => negb (fst e =? r) && overlapping bb (snd e)) (combine (seq 0 (length boxes)) boxes).
(** 642-647: the neighbours whose box contains the vertex; [None]: an assertion of
    BoundingBox::contains *)
Fixpoint sharing (nb : list (nat * box)) (c : list Q) : option (list nat) :=
  match nb with
  | [] => Some []
  | (s, b) :: t =>
      match contains b c, sharing t c with Some x, Some l => Some (if x then s :: l else l) | _, _ => None end
  end.
(** std::map::operator[](s).push_back(g) *)
Fixpoint pushTo (s g : nat) (m : list (nat * list nat)) : list (nat * list nat) :=
  match m with [] => [(s, [g])] | (k, l) :: t => if k =? s then (k, l ++ [g]) :: t else (k, l) :: pushTo s g t end.
(** tags, ownedVerticesCount, sharedVerticesGlobalIDs, sharedVerticesLocalIDs, sharedVerticesSendMap *)
Record scan := MkScan { sc_tags : list Z; sc_count : Z; sc_global : list nat; sc_local : list nat; sc_send : list (nat * list nat) }.
(** 635-659 from vertex [i] on *)
Fixpoint scanVertices (nb : list (nat * box)) (i : nat) (vs : list vertex) (st : scan) : option scan :=
  match vs with
  | [] => Some st
  | v :: r =>
      let g := Z.to_nat (v_glob v) in
      if v_tag v then
        match sharing nb (v_coords v) with
        | None => None
        | Some l =>
            let sm := fold_left (fun m s => pushTo s g m) l (sc_send st) in
            scanVertices nb (S i) r
              (if isEmpty l then MkScan (sc_tags st ++ [1%Z]) (sc_count st + 1)%Z (sc_global st) (sc_local st) sm
               else MkScan (sc_tags st ++ [1%Z]) (sc_count st) (sc_global st ++ [g]) (sc_local st ++ [i]) sm)
        end
      else scanVertices nb (S i) r (MkScan (sc_tags st ++ [0%Z]) (sc_count st) (sc_global st) (sc_local st) (sc_send st))
  end.
(** 731-743: the shared vertices of one neighbour *)
Definition yieldTo (r : nat) (count : Z) (st : scan) (counts : list (nat * Z)) (tags : list Z) (e : nat * list nat) : list Z :=
  let c := match find (fun x => fst x =? fst e) counts with Some x => snd x | None => 0%Z end in
  if ((c <? count)%Z || (Z.eqb count c && (fst e <? r)))%bool then
    fold_left (fun t k => upd (nth k (sc_local st) 0) 0%Z t) (set_intersection_indices 0 (sc_global st) (snd e)) tags
  else tags.
Definition createOwnerInformation2 (r : nat) (boxes : list box) (bb : box) (m : mesh) : proc packet mesh :=
  let nb := neighbours r boxes bb in
  st <- orErr (scanVertices nb 0 (m_verts m) (MkScan [] 0%Z [] [] (map (fun e => (fst e, [])) nb))) (EAssert 276) ;;
  (* 672-686 *)
  forRanks (map fst nb) (fun s => sendInt s (sc_count st)) ;;;
  counts <- foldRanks (map fst nb) (fun s acc => c <- recvInt s ;; PRet (acc ++ [(s, c)])) [] ;;
  (* 696-704 *)
  forEntries (sc_send st) (fun s l => sendInt s (sizeOf l) ;;; if isEmpty l then PRet tt else sendInts s (toInts l)) ;;;
  (* 706-714 *)
  received <- foldRanks (map fst (sc_send st)) (fun s acc =>
                receiveSize <- recvInt s ;;
                if Z.eqb receiveSize 0 then PRet acc else
                l <- recvInts s (Z.to_nat receiveSize) ;; PRet (acc ++ [(s, ofInts l)])) [] ;;
  orErr (setOwnerInformation (fold_left (yieldTo r (sc_count st) st counts) received (sc_tags st)) m) (EAssert 266).
