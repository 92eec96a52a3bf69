(** Writing gradients and mapping them (precice/impl/WriteDataContext, the gradient
    part of ParticipantImpl, DataContext::mapData, NearestNeighborGradientMapping).
    Numbers are rationals: rounding is left out. *)
From Coq Require Import ZArith QArith Bool List Arith.
From Verif Require Import M_Mesh M_Quad M_Map.
Import ListNotations.
Open Scope nat_scope.

(** WriteDataContext.hpp: dimension of the mesh, components of the data, hasGradient(),
    number of vertices of the mesh, and _writeDataBuffer.  [wc_gradients] is the
    memory of the matrix, column by column. *)
Record context := WC { wc_dim : nat; wc_dims : nat; wc_grad : bool; wc_count : nat;
                       wc_values : list Q; wc_gradients : list Q }.

(** Eigen: conservativeResize followed by setting what is new to zero *)
Definition enlarge (n : nat) (l : list Q) : list Q := firstn n l ++ repeat 0%Q (n - length l).

(** WriteDataContext.cpp 89-124; [invalidate] is invalidateBufferedData *)
Definition resizeBufferTo (n : nat) (invalidate : bool) (c : context) : context :=
  let size := n * wc_dims c in
  let keep l := if invalidate then map (fun _ => 0%Q) l else l in
  WC (wc_dim c) (wc_dims c) (wc_grad c) n
     (keep (enlarge size (wc_values c)))
     (if wc_grad c then keep (enlarge (wc_dim c * size) (wc_gradients c)) else wc_gradients c).

(** column v of a matrix with w rows *)
Definition putColumn (w : nat) (m : list Q) (vc : nat * list Q) : list Q :=
  firstn (fst vc * w) m ++ snd vc ++ skipn (fst vc * w + w) m.
Definition getColumn (w : nat) (m : list Q) (i : nat) : list Q := firstn w (skipn (i * w) m).
(** the loops of WriteDataContext.cpp 67-70 and 83-86 *)
Definition writeColumns (w : nat) (ids : list nat) (input local : list Q) : list Q :=
  fold_left (putColumn w) (combine ids (map (getColumn w input) (seq 0 (length ids)))) local.

(** WriteDataContext.cpp 59-71 and 73-87 *)
Definition writeValues (ids : list nat) (values : list Q) (c : context) : context :=
  WC (wc_dim c) (wc_dims c) (wc_grad c) (wc_count c) (writeColumns (wc_dims c) ids values (wc_values c)) (wc_gradients c).
Definition writeGradients (ids : list nat) (gradients : list Q) (c : context) : context :=
  WC (wc_dim c) (wc_dims c) (wc_grad c) (wc_count c) (wc_values c)
     (writeColumns (wc_dim c * wc_dims c) ids gradients (wc_gradients c)).

(** WriteDataContext.cpp 14-19 *)
Definition resetBufferedData (c : context) : context :=
  WC (wc_dim c) (wc_dims c) (wc_grad c) (wc_count c) (map (fun _ => 0%Q) (wc_values c)) (map (fun _ => 0%Q) (wc_gradients c)).

(** The calls of the user.  SetVertices is setMeshVertex / setMeshVertices
    (ParticipantImpl.cpp 792-848), ResetMesh is resetMesh (775-790). *)
Inductive call := SetVertices (count : nat) | ResetMesh | WriteData (ids : list nat) (values : list Q)
               | WriteGradientData (ids : list nat) (gradients : list Q).
Definition isEmpty {A} (l : list A) : bool := match l with [] => true | _ => false end.
(** None is a PRECICE_CHECK that fails.  ParticipantImpl.cpp 809, 844 for vertices,
    1180-1203 for values, 1402-1434 for gradients.  Simplification: no NaN, the state
    of the participant is not checked. *)
Definition doCall (c : context) (x : call) : option context :=
  match x with
  | SetVertices k => Some (resizeBufferTo (wc_count c + k) false c)
  | ResetMesh => Some (WC (wc_dim c) (wc_dims c) (wc_grad c) 0 (wc_values c) (wc_gradients c))
  | WriteData ids values =>
      if isEmpty ids && isEmpty values then Some c
      else if forallb (fun v => v <? wc_count c) ids && (length ids * wc_dims c =? length values)
      then Some (writeValues ids values c) else None
  | WriteGradientData ids gradients =>
      if (isEmpty ids && isEmpty gradients) || negb (wc_grad c) then Some c
      else if forallb (fun v => v <? wc_count c) ids && (length ids * (wc_dim c * wc_dims c) =? length gradients)
      then Some (writeGradients ids gradients c) else None
  end.
Fixpoint doCalls (c : context) (l : list call) : option context :=
  match l with
  | [] => Some c
  | x :: r => match doCall c x with Some c' => doCalls c' r | None => None end
  end.
(** WriteDataContext.cpp 7-12: the buffer is empty *)
Definition fresh (dim dims : nat) (gradient : bool) : context := WC dim dims gradient 0 [] [].

(** WriteDataContext.cpp 126-129, time/Sample.hpp: the sample, the gradients as the
    columns of the matrix with wc_dim rows *)
Definition columns (w count : nat) (m : list Q) : list (list Q) := map (getColumn w m) (seq 0 count).
Definition stored (c : context) : list Q * list (list Q) :=
  (wc_values c, if wc_grad c then columns (wc_dim c) (wc_count c * wc_dims c) (wc_gradients c) else []).

Section Mapping.
Variables (len : mesh -> nat * nat -> Q) (area : mesh -> nat * nat * nat -> Q) (vol : mesh -> nat * nat * nat * nat -> Q).
Variable cv : mesh -> list Q -> nat.
(** math::NUMERICAL_ZERO_DIFFERENCE, squared *)
Definition zeroSquared : Q := (1 # 10000000000000000000000000000)%Q.
Definition normSquared (l : list Q) : Q := fold_right (fun x s => (x * x + s)%Q) 0%Q l.
(** DataContext.cpp 137-172, one sample, one rank: [skipZero] is true in initialize.
    The l2norm is compared by its square. *)
Definition mapSample (skipZero : bool) (inM outM : mesh) (dims : nat) (s : list Q * list (list Q)) : option (list Q) :=
  if skipZero && negb (Qle_bool zeroSquared (normSquared (fst s))) then Some (repeat 0%Q (dims * length (m_verts outM)))
  else mapNNG len area vol cv Consistent inM outM dims (fst s) (snd s).
End Mapping.
