(** Data actions: summation and multiplication with or division by areas.

    Modelled code: src/action/SummationAction.cpp 30-48, ScaleByAreaAction.cpp 26-72, and their calls
    in src/precice/impl/ParticipantImpl.cpp: performDataActions 1731-1739, initialize 275-288,
    handleDataBeforeAdvance 490-493, handleDataAfterAdvance 518-522.  The handling of the samples around
    them is that of M_MapTime.

    Simplifications: values are rational numbers without rounding.  The lengths and areas of the elements
    are given numbers.  A division by an area that is zero (infinity or NaN in the code) is an error
    here, and so are accesses behind the end of a vector (undefined behaviour).  Gradients are left
    out.  What arrives from other participants is an argument ([arrive]). *)
From Coq Require Import ZArith QArith Bool List Arith.
From Verif Require Import M_Time M_Wave M_MapTime.
Import ListNotations.
Open Scope nat_scope.

Definition values := list Q.
Definition get (v : values) (i : nat) : Q := nth i v 0%Q.

(** the vertices and elements of a mesh: edges with their length, triangles with their area *)
Record areaMesh := AreaMesh { am_dim : nat; am_n : nat; am_edges : list (nat * nat * Q); am_triangles : list (nat * nat * nat * Q) }.
(** areas[i] += x *)
Definition addAt (i : nat) (x : Q) (l : values) : values := map (fun k => if k =? i then (get l k + x)%Q else get l k) (seq 0 (length l)).
(** ScaleByAreaAction.cpp 36-55; the enclosing radius of an edge is half its length *)
Definition areas (m : areaMesh) : res values :=
  let zero := repeat 0%Q (am_n m) in
  if am_dim m =? 2 then
    match am_edges m with
    | [] => Reported
    | es => Ok (fold_left (fun l '(a, b, len) => addAt b (len / 2)%Q (addAt a (len / 2)%Q l)) es zero)
    end
  else
    match am_triangles m with
    | [] => Reported
    | ts => Ok (fold_left (fun l '(a, b, c, area) => addAt c (area / 3)%Q (addAt b (area / 3)%Q (addAt a (area / 3)%Q l))) ts zero)
    end.
(** 31-35 and 56-69: the values of one sample; the assertion of line 35 *)
Definition scaleValues (divide : bool) (dims : nat) (m : areaMesh) (v : values) : res values :=
  if length v =? am_n m * dims then
    bindR (areas m) (fun l =>
    if divide && (0 <? dims) && existsb (fun a => Qeq_bool a 0%Q) l then Asserted
    else Ok (map (fun k => if divide then (get v k / get l (k / dims))%Q else (get v k * get l (k / dims))%Q) (seq 0 (am_n m * dims))))
  else Asserted.

Section Action.
Variable eps : Z.
Notation store := (store values).

(** 29-71: from sample [k] on; the samples are replaced while the loop runs *)
Fixpoint scaleLoop (divide : bool) (dims : nat) (m : areaMesh) (n k : nat) (w : wave values) : res (wave values) :=
  match n with
  | O => Ok w
  | S n' =>
      match nth_error w k with
      | None => Asserted
      | Some (t, v) => bindR (scaleValues divide dims m v) (fun v' =>
          match w_set eps w t v' with None => Asserted | Some w' => scaleLoop divide dims m n' (S k) w' end)
      end
  end.

(** SummationAction.cpp 40-45: the sum of the samples number [k] *)
Definition addValues (a b : values) : res values :=
  if length a =? length b then Ok (map (fun i => (get a i + get b i)%Q) (seq 0 (length a))) else Asserted.
Fixpoint sumSources (sources : list nat) (k : nat) (t : Z) (s : store) (acc : values) : res values :=
  match sources with
  | [] => Ok acc
  | d :: r => match nth_error (s d) k with
              | None => Asserted
              | Some (u, v) => if equals eps u t then bindR (addValues acc v) (sumSources r k t s) else Reported
              end
  end.
(** 33-47; [size] is the number of values of the target, which are set to zero first (line 38) *)
Fixpoint summationLoop (sources : list nat) (target size n k : nat) (s : store) : res store :=
  match n with
  | O => Ok s
  | S n' =>
      match nth_error (s (hd 0 sources)) k with
      | None => Asserted
      | Some (t, _) =>
          bindR (sumSources sources k t s (repeat 0%Q size)) (fun v =>
          match w_set eps (s target) t v with None => Asserted | Some w => summationLoop sources target size n' (S k) (upd s target w) end)
      end
  end.

Inductive action := Summation (sources : list nat) (target size : nat) | ScaleByArea (divide : bool) (target dims : nat) (m : areaMesh).
Definition performAction (a : action) (s : store) : res store :=
  match a with
  | Summation [] _ _ => Asserted
  | Summation (d :: r) target size => summationLoop (d :: r) target size (length (s d)) 0 s
  | ScaleByArea divide target dims m => bindR (scaleLoop divide dims m (length (s target)) 0 (s target)) (fun w => Ok (upd s target w))
  end.
Inductive timing := WriteMappingPost | ReadMappingPost.
Definition isTiming (a b : timing) : bool := match a, b with WriteMappingPost, WriteMappingPost | ReadMappingPost, ReadMappingPost => true | _, _ => false end.
(** performDataActions *)
Fixpoint performDataActions (w : timing) (acts : list (timing * action)) (s : store) : res store :=
  match acts with
  | [] => Ok s
  | (w', a) :: r => if isTiming w' w then bindR (performAction a s) (performDataActions w r) else performDataActions w r s
  end.

Variable small : values -> bool.
(** initialize, 275-288 *)
Definition initializeData (p : participant values) (acts : list (timing * action)) (buffer : nat -> values) (arrive : store -> res store) (s : store) : res store :=
  bindR (samplize eps (writeContexts p) 0 buffer s) (fun s =>
  bindR (mapWritten eps small (writeContexts p) None true s 0) (fun q =>
  bindR (performDataActions WriteMappingPost acts (fst q)) (fun s =>
  bindR (arrive s) (fun s =>
  bindR (mapRead eps small p true s) (fun q => performDataActions ReadMappingPost acts (fst q)))))).
(** one call of advance: what the coupling scheme says about it *)
Record outcome := Outcome { o_atEnd : bool; o_complete : bool; o_steppedTo : Z; o_after : Z; o_startBefore : Z; o_startAfter : Z; o_received : implicitData }.
(** advance, 440-450: the coupling scheme sends and receives in between *)
Definition advanceData (p : participant values) (acts : list (timing * action)) (substeps : bool) (o : outcome) (buffer : nat -> values)
  (arrive : store -> res store) (s : store) : res store :=
  bindR (handleDataBeforeAdvance eps small p (o_atEnd o) substeps (o_steppedTo o) (o_startBefore o) buffer s) (fun s =>
  bindR (if o_atEnd o then performDataActions WriteMappingPost acts s else Ok s) (fun s =>
  bindR (arrive s) (fun s =>
  bindR (handleDataAfterAdvance eps small p (o_atEnd o) (o_complete o) (o_steppedTo o) (o_after o) (o_startAfter o) (o_received o) s) (fun s =>
  if o_atEnd o then performDataActions ReadMappingPost acts s else Ok s)))).
(** what arrives for one data: with substeps all samples are replaced (SerializedStamples.cpp 72-100),
    without them only the one at the end is set (BaseCouplingScheme.cpp 190-201) *)
Definition arriveAll (d : nat) (w : wave values) (s : store) : res store :=
  match w_setMany eps [] w with None => Asserted | Some w' => Ok (upd s d w') end.
Definition arriveEnd (d : nat) (t : Z) (v : values) (s : store) : res store :=
  match w_set eps (s d) t v with None => Asserted | Some w' => Ok (upd s d w') end.
End Action.
