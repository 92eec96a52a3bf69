(** Serialization: src/com/Serialized{Stamples,Mesh,Partitioning}.cpp and
    src/com/Extra.cpp.  [None] stands for a failing assertion, an out-of-range
    access or an exception. *)
From Coq Require Import ZArith QArith Bool List Arith.
From Verif Require Import M_Net M_Time M_Wave M_Mesh M_Comm.
Import ListNotations.
Open Scope nat_scope.

(** ** SerializedStamples.cpp *)
Section Stamples.
Context {V : Type}.
(** a sample: values and gradients (column-major) *)
Record gsample := MkGS { sm_values : list V; sm_grads : list V }.

(** the part of a CouplingData that matters: getSize(), and the number of
    gradient entries if hasGradient() (cplscheme/CouplingData.cpp 36-88) *)
Record dataShape := MkShape { ds_size : nat; ds_grads : option nat }.

(** lines 53-55 and 65-67: write the entries [vid], [vid+1], ... of one sample *)
Fixpoint putSlice (T timeId vid cnt : nat) (slice vec : list V) : option (list V) :=
  match cnt with
  | 0 => Some vec
  | S cnt' =>
      match nth_error slice vid with
      | None => None
      | Some x => if vid * T + timeId <? length vec
                  then putSlice T timeId (S vid) cnt' slice (upd (vid * T + timeId) x vec) else None
      end
  end.
(** lines 47-58, 60-70: the loop over the samples *)
Fixpoint putSlices (T timeId n : nat) (slices : list (list V)) (vec : list V) : option (list V) :=
  match slices with
  | [] => Some vec
  | s :: r => match putSlice T timeId 0 n s vec with None => None | Some vec' => putSlices T (S timeId) n r vec' end
  end.
(** lines 7-18, 38-45; [junk] is the content of uninitialized memory *)
Record serialized := MkSer { se_steps : nat; se_values : list V; se_grads : list V }.
Definition serialize (junk : V) (d : dataShape) (w : wave gsample) : option serialized :=
  let T := length w in
  match putSlices T 0 (ds_size d) (map (fun p => sm_values (snd p)) w) (repeat junk (T * ds_size d)) with
  | None => None
  | Some vals =>
      match ds_grads d with
      | None => Some (MkSer T vals [])
      | Some g => match putSlices T 0 g (map (fun p => sm_grads (snd p)) w) (repeat junk (T * g)) with
                  | None => None
                  | Some gr => Some (MkSer T vals gr)
                  end
      end
  end.

(** lines 83-86, 95-97: read the entries [vid], [vid+1], ... of one sample *)
Fixpoint getSlice (T timeId vid cnt : nat) (vec : list V) : option (list V) :=
  match cnt with
  | 0 => Some []
  | S cnt' =>
      match nth_error vec (vid * T + timeId) with
      | None => None
      | Some x => match getSlice T timeId (S vid) cnt' vec with None => None | Some r => Some (x :: r) end
      end
  end.
(** lines 80-99 *)
Fixpoint getSlices (eps : Z) (T timeId : nat) (times : list Z) (d : dataShape) (s : serialized) (w : wave gsample)
  : option (wave gsample) :=
  match times with
  | [] => Some w
  | t :: r =>
      match getSlice T timeId 0 (ds_size d) (se_values s) with
      | None => None
      | Some vals =>
          match (match ds_grads d with None => Some [] | Some g => getSlice T timeId 0 g (se_grads s) end) with
          | None => None
          | Some gr => match w_set eps w t (MkGS vals gr) with
                       | None => None
                       | Some w' => getSlices eps T (S timeId) r d s w'
                       end
          end
      end
  end.
(** lines 31-36, 72-100: unpack into the data with old content [old] *)
Definition deserializeInto (eps : Z) (times : list Z) (d : dataShape) (s : serialized) (old : wave gsample)
  : option (wave gsample) :=
  if (se_steps s =? length times) && (length times * ds_size d =? length (se_values s))
  then getSlices eps (length times) 0 times d s (w_clear old) else None.

(** BaseCouplingScheme.cpp 103-110, 120-137 (substeps) between two ranks *)
Inductive smsg := SNum (z : Z) | STimes (l : list Z) | SVals (l : list V).
Open Scope proc_scope.
Definition sendSubsteps (junk : V) (dst : nat) (d : dataShape) (w : wave gsample) : proc smsg unit :=
  match w with
  | [] => PErr (EAssert 110)
  | _ =>
      send dst (SNum (sizeOf w)) ;;;
      send dst (STimes (map fst w)) ;;;
      match serialize junk d w with
      | None => PErr (EAssert 111)
      | Some s => send dst (SVals (se_values s)) ;;;
                  match ds_grads d with None => PRet tt | Some _ => send dst (SVals (se_grads s)) end
      end
  end.
(** BaseCouplingScheme.cpp 152-165, 175-188; the receiver's buffers have the
    sizes of [SerializedStamples::empty] (SerializedStamples.cpp 20-29) *)
Definition recvVals (src n : nat) : proc smsg (list V) :=
  m <- recv src ;;
  match m with SVals l => if length l =? n then PRet l else PErr (EAssert 112) | _ => PErr (EAssert 112) end.
Definition receiveSubsteps (eps : Z) (src : nat) (d : dataShape) (old : wave gsample) : proc smsg (wave gsample) :=
  m <- recv src ;;
  match m with
  | SNum z =>
      check (0 <? z)%Z (EAssert 113) ;;;
      m <- recv src ;;
      match m with
      | STimes times =>
          check (Z.eqb (sizeOf times) z) (EAssert 114) ;;;
          vals <- recvVals src (length times * ds_size d) ;;
          gr <- (match ds_grads d with None => PRet [] | Some g => recvVals src (length times * g) end) ;;
          match deserializeInto eps times d (MkSer (length times) vals gr) old with
          | None => PErr (EAssert 115)
          | Some w => PRet w
          end
      | _ => PErr (EAssert 114)
      end
  | _ => PErr (EAssert 113)
  end.
End Stamples.

Section OptProc.
Context {M A : Type}.
Definition orFail (code : nat) (x : option A) : proc M A :=
  match x with Some a => PRet a | None => PErr (EAssert code) end.
End OptProc.

(** ** SerializedMesh.cpp *)
Record smesh := MkSMesh { sizes : list Z; coords : list Q; ids : list Z }.

Definition isNil {A} (l : list A) : bool := match l with [] => true | _ => false end.
Definition slice {A} (off n : nat) (l : list A) : list A := firstn n (skipn off l).
Fixpoint zmem (z : Z) (l : list Z) : bool := match l with [] => false | x :: r => Z.eqb x z || zmem z r end.
Fixpoint znodup (l : list Z) : bool := match l with [] => true | x :: r => negb (zmem x r) && znodup r end.
(** the local IDs: entries 1, 3, ... (line 39) *)
Fixpoint localIDs (n : nat) (l : list Z) : list Z :=
  match n, l with S n', _ :: x :: r => x :: localIDs n' r | _, _ => [] end.

(** lines 12-48 *)
Definition assertValidMesh (s : smesh) : bool :=
  match sizes s with
  | [dim; nV; nE; nT; nTe] =>
      (0 <? dim)%Z && (dim <=? 3)%Z && (0 <=? nV)%Z &&
      (if Z.eqb nV 0 then Z.eqb nE 0 && Z.eqb nT 0 && Z.eqb nTe 0 && isNil (ids s) && isNil (coords s)
       else Z.eqb (nV * dim) (sizeOf (coords s)) &&
            (if (0 <? nE + nT + nTe)%Z
             then Z.eqb (sizeOf (ids s)) (2 * nV + 2 * nE + 3 * nT + 4 * nTe) &&
                  znodup (localIDs (Z.to_nat nV) (ids s)) &&
                  forallb (fun i => zmem i (localIDs (Z.to_nat nV) (ids s))) (skipn (2 * Z.to_nat nV) (ids s))
             else Z.eqb (sizeOf (ids s)) nV))
  | _ => false
  end.

Definition zid (n : nat) : Z := Z.of_nat n.
Definition edgeIDs (e : nat * nat) : list Z := [zid (fst e); zid (snd e)].
Definition triIDs (t : nat * nat * nat) : list Z := let '(a, b, c) := t in [zid a; zid b; zid c].
Definition tetIDs (t : nat * nat * nat * nat) : list Z := let '(a, b, c, d) := t in [zid a; zid b; zid c; zid d].
(** lines 197-205: global IDs, interleaved with the IDs if there is connectivity *)
Fixpoint vertexIDs (conn : bool) (id : nat) (vs : list vertex) : list Z :=
  match vs with
  | [] => []
  | v :: r => v_glob v :: (if conn then zid id :: vertexIDs conn (S id) r else vertexIDs conn (S id) r)
  end.
(** lines 157-233.  A vertex has the dimension of its mesh (Mesh.cpp 106), so
    copying [dim] coordinates copies all of them. *)
Definition serializeMesh (m : mesh) : option smesh :=
  let sz := [zid (m_dim m); sizeOf (m_verts m); sizeOf (m_edges m); sizeOf (m_tris m); sizeOf (m_tets m)] in
  if isNil (m_verts m) then Some (MkSMesh sz [] [])
  else
    let conn := hasConnectivity m in
    let cs := concat (map v_coords (m_verts m)) in
    let vids := vertexIDs conn 0 (m_verts m) in
    if conn then
      let r := MkSMesh sz cs (vids ++ concat (map edgeIDs (m_edges m)) ++ concat (map triIDs (m_tris m))
                                  ++ concat (map tetIDs (m_tets m))) in
      if assertValidMesh r then Some r else None
    else Some (MkSMesh sz cs vids).

(** lines 113-127: the loop over the vertices; [i] is the next vertex, [cnt] the
    number of remaining ones *)
Fixpoint addVertices (s : smesh) (conn : bool) (i cnt : nat) (m : mesh) (vmap : list (Z * nat))
  : option (mesh * list (Z * nat)) :=
  match cnt with
  | 0 => Some (m, vmap)
  | S cnt' =>
      (m1 <- createVertex m (slice (i * m_dim m) (m_dim m) (coords s)) ;;
       if conn then
         g <- nth_error (ids s) (i * 2) ;;
         l <- nth_error (ids s) (i * 2 + 1) ;;
         addVertices s conn (S i) cnt' (setVerts m1 (modify (nVertices m) (setGlobalIndex g) (m_verts m1)))
           (emplace l (nVertices m) vmap)
       else
         g <- nth_error (ids s) i ;;
         addVertices s conn (S i) cnt' (setVerts m1 (modify (nVertices m) (setGlobalIndex g) (m_verts m1))) vmap)%opt
  end.
Definition lookup (s : smesh) (vmap : list (Z * nat)) (idx : nat) : option nat :=
  (z <- nth_error (ids s) idx ;; find_key z vmap)%opt.
(** lines 137-141 *)
Fixpoint addEdges (s : smesh) (vmap : list (Z * nat)) (cnt idx : nat) (m : mesh) : option mesh :=
  match cnt with
  | 0 => Some m
  | S cnt' => (a <- lookup s vmap idx ;; b <- lookup s vmap (idx + 1) ;;
               addEdges s vmap cnt' (idx + 2) (createEdge m a b))%opt
  end.
(** lines 142-147 *)
Fixpoint addTriangles (s : smesh) (vmap : list (Z * nat)) (cnt idx : nat) (m : mesh) : option mesh :=
  match cnt with
  | 0 => Some m
  | S cnt' => (a <- lookup s vmap idx ;; b <- lookup s vmap (idx + 1) ;; c <- lookup s vmap (idx + 2) ;;
               addTriangles s vmap cnt' (idx + 3) (createTriangle m a b c))%opt
  end.
(** lines 148-154: until the end of [ids]; [fuel] bounds the iterations *)
Fixpoint addTetrahedra (s : smesh) (vmap : list (Z * nat)) (fuel idx : nat) (m : mesh) : option mesh :=
  if idx =? length (ids s) then Some m else
  match fuel with
  | 0 => None
  | S f => (a <- lookup s vmap idx ;; b <- lookup s vmap (idx + 1) ;; c <- lookup s vmap (idx + 2) ;;
            d <- lookup s vmap (idx + 3) ;;
            m' <- createTetrahedron m a b c d ;;
            addTetrahedra s vmap f (idx + 4) m')%opt
  end.
(** lines 97-155 *)
Definition addToMesh (s : smesh) (m : mesh) : option mesh :=
  match sizes s with
  | [dim; nV; nE; nT; nTe] =>
      if negb (Z.eqb dim (zid (m_dim m))) then None else
      if Z.eqb nV 0 then Some m else
      let conn := (0 <? nE + nT + nTe)%Z in
      (x <- addVertices s conn 0 (Z.to_nat nV) m [] ;;
       let '(m1, vmap) := x in
       if conn then
         let offE := Z.to_nat nV * 2 in
         let offT := offE + 2 * Z.to_nat nE in
         let offTe := offT + 3 * Z.to_nat nT in
         m2 <- addEdges s vmap (Z.to_nat nE) offE m1 ;;
         m3 <- addTriangles s vmap (Z.to_nat nT) offT m2 ;;
         addTetrahedra s vmap (length (ids s)) offTe m3
       else Some m1)%opt
  | _ => None
  end.

Open Scope proc_scope.
(** lines 50-57 *)
Definition sendSMesh (d : nat) (s : smesh) : proc packet unit :=
  sendRangeInt d (sizes s) ;;;
  if (0 <? nth 1 (sizes s) 0)%Z then sendRangeDbl d (coords s) ;;; sendRangeInt d (ids s) else PRet tt.
(** lines 59-71 *)
Definition receiveSMesh (src : nat) : proc packet smesh :=
  sz <- receiveRangeInt src ;;
  check (length sz =? 5) (EAssert 120) ;;;
  if (0 <? nth 1 sz 0)%Z then
    cs <- receiveRangeDbl src ;; is <- receiveRangeInt src ;;
    check (assertValidMesh (MkSMesh sz cs is)) (EAssert 121) ;;; PRet (MkSMesh sz cs is)
  else check (assertValidMesh (MkSMesh sz [] [])) (EAssert 121) ;;; PRet (MkSMesh sz [] []).
(** lines 73-80 *)
Definition bcastSMesh (rs : list nat) (s : smesh) : proc packet unit :=
  bcastVecInt rs (sizes s) ;;;
  if (0 <? nth 1 (sizes s) 0)%Z then bcastVecDbl rs (coords s) ;;; bcastVecInt rs (ids s) else PRet tt.
(** lines 82-95 *)
Definition bcastSMeshRecv (b : nat) : proc packet smesh :=
  sz <- bcastVecIntRecv b ;;
  check (length sz =? 5) (EAssert 120) ;;;
  if (0 <? nth 1 sz 0)%Z then
    cs <- bcastVecDblRecv b ;; is <- bcastVecIntRecv b ;;
    check (assertValidMesh (MkSMesh sz cs is)) (EAssert 121) ;;; PRet (MkSMesh sz cs is)
  else check (assertValidMesh (MkSMesh sz [] [])) (EAssert 121) ;;; PRet (MkSMesh sz [] []).
(** Extra.cpp 8-26 *)
Definition sendMesh (d : nat) (m : mesh) : proc packet unit :=
  s <- orFail 122 (serializeMesh m) ;; sendSMesh d s.
Definition receiveMesh (src : nat) (m : mesh) : proc packet mesh :=
  s <- receiveSMesh src ;; orFail 123 (addToMesh s m).
Definition bcastMesh (rs : list nat) (m : mesh) : proc packet unit :=
  s <- orFail 122 (serializeMesh m) ;; bcastSMesh rs s.
Definition bcastMeshRecv (b : nat) (m : mesh) : proc packet mesh :=
  s <- bcastSMeshRecv b ;; orFail 123 (addToMesh s m).
Close Scope proc_scope.

(** ** SerializedPartitioning.cpp: connection maps *)
Definition connMap := list (Z * list Z).   (* std::map<Rank, std::vector<VertexID>> *)
Definition connEntry (e : Z * list Z) : list Z := fst e :: sizeOf (snd e) :: snd e.
(** lines 67-94: the loop over the entries, [l] is the unread rest *)
Fixpoint connValid (cnt : nat) (l : list Z) : bool :=
  match cnt with
  | 0 => isNil l
  | S cnt' =>
      match l with
      | rank :: size :: r =>
          (0 <=? rank)%Z && (0 <=? size)%Z && (size <=? sizeOf r)%Z &&
          znodup (firstn (Z.to_nat size) r) && connValid cnt' (skipn (Z.to_nat size) r)
      | _ => false
      end
  end.
Definition assertValidConn (content : list Z) : bool :=
  match content with
  | n :: r => nonempty r && (0 <=? n)%Z && connValid (Z.to_nat n) r
  | [] => false
  end.
(** lines 15-38 *)
Definition serializeConn (cm : connMap) : option (list Z) :=
  let content := sizeOf cm :: concat (map connEntry cm) in
  if assertValidConn content then Some content else None.
(** lines 40-65 *)
Fixpoint readConn (cnt : nat) (l : list Z) (cm : connMap) : option connMap :=
  match cnt with
  | 0 => Some cm
  | S cnt' =>
      match l with
      | rank :: size :: r =>
          if (size <=? sizeOf r)%Z
          then readConn cnt' (skipn (Z.to_nat size) r) (emplace rank (firstn (Z.to_nat size) r) cm) else None
      | _ => None
      end
  end.
Definition toConnMap (content : list Z) : option connMap :=
  match content with
  | [] => None
  | n :: r => if Z.eqb n 0 then Some [] else readConn (Z.to_nat n) r []
  end.
Open Scope proc_scope.
(** lines 96-120, Extra.cpp 28-46 *)
Definition sendConnectionMap (d : nat) (cm : connMap) : proc packet unit :=
  c <- orFail 130 (serializeConn cm) ;; sendRangeInt d c.
Definition receiveConnectionMap (src : nat) : proc packet connMap :=
  c <- receiveRangeInt src ;; check (assertValidConn c) (EAssert 131) ;;; orFail 132 (toConnMap c).
Definition bcastConnectionMap (rs : list nat) (cm : connMap) : proc packet unit :=
  c <- orFail 130 (serializeConn cm) ;; bcastVecInt rs c.
Definition bcastConnectionMapRecv (b : nat) : proc packet connMap :=
  c <- bcastVecIntRecv b ;; check (assertValidConn c) (EAssert 131) ;;; orFail 132 (toConnMap c).
Close Scope proc_scope.

(** ** Bounding boxes: BoundingBox.cpp 15-38, getters 91-99, 124-127 *)
Record bbox := MkBox { b_min : list Q; b_max : list Q }.
Definition b_dim (b : bbox) : nat := length (b_min b).
(** BoundingBox.cpp 27-38: from minX, maxX, minY, maxY, ... *)
Fixpoint evens {A} (l : list A) : list A := match l with x :: _ :: r => x :: evens r | _ => [] end.
Fixpoint odds {A} (l : list A) : list A := match l with _ :: y :: r => y :: odds r | _ => [] end.
Definition boxOfBounds (bounds : list Q) : option bbox :=
  if (length bounds =? 4) || (length bounds =? 6) then Some (MkBox (evens bounds) (odds bounds)) else None.

Definition dimOK (d : nat) : bool := (d =? 2) || (d =? 3).
(** lines 163-169; [static_cast] truncates *)
Definition truncQ (q : Q) : Z := Z.quot (Qnum q) (Zpos (Qden q)).
Definition assertValidBox (c : list Q) : bool :=
  match c with
  | [] => false
  | d :: _ => dimOK (Z.to_nat (truncQ d)) && (length c =? 1 + Z.to_nat (truncQ d) * 2)
  end.
(** lines 124-143 *)
Definition serializeBox (b : bbox) : option (list Q) :=
  if dimOK (b_dim b) then
    let c := inject_Z (zid (b_dim b)) :: firstn (b_dim b) (b_min b) ++ firstn (b_dim b) (b_max b) in
    if assertValidBox c then Some c else None
  else None.
(** lines 155-159 and 238-242: interleave the corners; [d] counts up to [dims] *)
Fixpoint interleave (dims d cnt : nat) (c : list Q) : option (list Q) :=
  match cnt with
  | 0 => Some []
  | S cnt' => (lo <- nth_error c d ;; hi <- nth_error c (d + dims) ;;
               r <- interleave dims (S d) cnt' c ;; Some (lo :: hi :: r))%opt
  end.
(** lines 145-161 *)
Definition toBox (c : list Q) : option bbox :=
  match c with
  | [] => None
  | d :: r => let dims := Z.to_nat (truncQ d) in (buf <- interleave dims 0 dims r ;; boxOfBounds buf)%opt
  end.
Open Scope proc_scope.
(** lines 171-182, Extra.cpp 48-56 *)
Definition sendBoundingBox (d : nat) (b : bbox) : proc packet unit :=
  c <- orFail 140 (serializeBox b) ;; sendRangeDbl d c.
Definition receiveBoundingBox (src : nat) : proc packet bbox :=
  c <- receiveRangeDbl src ;; check (assertValidBox c) (EAssert 141) ;;; orFail 142 (toBox c).
Close Scope proc_scope.

(** ** Maps of bounding boxes *)
Definition boxMap := list (Z * bbox).
Record sboxes := MkSBoxes { sb_info : list Z; sb_coords : list Q }.
(** lines 252-270 *)
Definition assertValidBoxes (s : sboxes) : bool :=
  match sb_info s with
  | [] => false
  | [n] => Z.eqb n 0 && isNil (sb_coords s)
  | n :: dims :: rs =>
      Z.eqb (n + 2) (sizeOf (sb_info s)) && (Z.eqb dims 2 || Z.eqb dims 3) &&
      Z.eqb (sizeOf (sb_coords s)) (n * dims * 2) && forallb (fun r => 0 <=? r)%Z rs
  end.
(** lines 186-216; the dimension is that of the first box *)
Definition serializeBoxes (bm : boxMap) : option sboxes :=
  match bm with
  | [] => Some (MkSBoxes [0%Z] [])
  | (_, b0) :: _ =>
      let dims := b_dim b0 in
      if dimOK dims then
        let s := MkSBoxes (sizeOf bm :: zid dims :: map fst bm)
                   (concat (map (fun e => firstn dims (b_min (snd e)) ++ firstn dims (b_max (snd e))) bm)) in
        if assertValidBoxes s then Some s else None
      else None
  end.
(** lines 234-248 *)
Fixpoint readBoxes (dims : nat) (rs : list Z) (cnt : nat) (c : list Q) (bm : boxMap) : option boxMap :=
  match cnt with
  | 0 => Some bm
  | S cnt' =>
      match rs with
      | [] => None
      | r :: rs' => (buf <- interleave dims 0 dims c ;; b <- boxOfBounds buf ;;
                     readBoxes dims rs' cnt' (skipn (dims * 2) c) (emplace r b bm))%opt
      end
  end.
(** lines 218-250 *)
Definition toBoxMap (s : sboxes) : option boxMap :=
  match sb_info s with
  | [_] => Some []
  | n :: dims :: rs => readBoxes (Z.to_nat dims) rs (Z.to_nat n) (sb_coords s) []
  | [] => None
  end.
Open Scope proc_scope.
(** lines 272-308, Extra.cpp 58-76 *)
Definition sendBoundingBoxMap (d : nat) (bm : boxMap) : proc packet unit :=
  s <- orFail 150 (serializeBoxes bm) ;;
  sendRangeInt d (sb_info s) ;;;
  if 1 <? length (sb_info s) then sendRangeDbl d (sb_coords s) else PRet tt.
Definition receiveBoundingBoxMap (src : nat) : proc packet boxMap :=
  info <- receiveRangeInt src ;;
  c <- (if 1 <? length info then receiveRangeDbl src else PRet []) ;;
  check (assertValidBoxes (MkSBoxes info c)) (EAssert 151) ;;; orFail 152 (toBoxMap (MkSBoxes info c)).
Definition bcastBoundingBoxMap (rs : list nat) (bm : boxMap) : proc packet unit :=
  s <- orFail 150 (serializeBoxes bm) ;;
  bcastVecInt rs (sb_info s) ;;;
  if 1 <? length (sb_info s) then bcastVecDbl rs (sb_coords s) else PRet tt.
Definition bcastBoundingBoxMapRecv (b : nat) : proc packet boxMap :=
  info <- bcastVecIntRecv b ;;
  c <- (if 1 <? length info then bcastVecDblRecv b else PRet []) ;;
  check (assertValidBoxes (MkSBoxes info c)) (EAssert 151) ;;; orFail 152 (toBoxMap (MkSBoxes info c)).
Close Scope proc_scope.
