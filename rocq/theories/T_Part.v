(** Partitions: C49, C50. *)
From Coq Require Import ZArith QArith List Arith Bool Lia Sorted.
From Verif Require Import M_Net M_Mesh M_Comm M_M2N M_Part S_Term S_M2N S_Mesh S_Filter S_Part P_Net P_Term P_Part P_Recv.
Import ListNotations.
Open Scope nat_scope.

(** C50.  Whatever the schedule and the sizes of the meshes the ranks provide, as
    long as some rank provides a vertex: preparing the partition ends on every rank,
    the global indices of rank [r] are the next [count r] numbers after those of the
    ranks before it, all ranks together use every number below [N] exactly once, every
    rank knows [N] and where the numbers of every rank end, and the vertex
    distribution of rank 0 lists exactly these numbers. *)
Theorem C50_global_numbering :
  forall (n : nat) (anyOneLevel : bool) (m : nat -> mesh),
    let count := fun r => length (m_verts (m r)) in
    let N := before count n in
    0 < n -> 0 < N ->
    exists p, all_end n (fun r => prepare n r anyOneLevel (m r)) p /\
      (forall r, r < n -> numbered n count r (m r) (p r)) /\
      map v_glob (everywhere n (fun r => m_verts (pt_mesh (p r)))) = map Z.of_nat (seq 0 N) /\
      (anyOneLevel = true \/ n = 1 ->
       distributes (pt_dist (p 0)) n N /\ forall r, r < n -> verts (pt_dist (p 0)) r = seq (before count r) (count r)).
Proof.
  intros n d m count N Hn HN.
  assert (G : exists p, all_end n (fun r => prepare n r d (m r)) p /\ (forall r, r < n -> numbered n count r (m r) (p r)) /\
     (d = true \/ n = 1 -> pt_dist (p 0) = blocks count n)).
  { destruct (Nat.eq_dec n 1) as [->|].
    - set (k := Z.of_nat (count 0)).
      assert (Hk : exists v vs, m_verts (m 0) = v :: vs).
      { unfold N, count in HN. cbn in HN. destruct (m_verts (m 0)) as [|v vs]; [cbn in HN; lia|eauto]. }
      set (p := fun _ : nat => MkPart (allOwner (numberedMesh m 0)) [k] k [(0, range 0 k)]).
      exists p. split; [|split].
      + eapply phase_all with (q := fun _ => PRet (p 0)) (c := p); [lia|apply (phase_ret 1 0 (secondaries 1) (p 0) p)| | |reflexivity|reflexivity]; [|lia].
        unfold prepare. cbn [isPrimary isSecondary Nat.eqb negb andb]. destruct Hk as (v & vs & Ev).
        assert (E : (0 <? sizeOf (m_verts (m 0%nat)))%Z = true) by (apply Z.ltb_lt; unfold sizeOf; rewrite Ev; cbn [length]; lia).
        assert (Em : match m_verts (m 0) with [] => [] | _ => [(0, range 0 (sizeOf (m_verts (m 0))))] end = [(0, range 0 (sizeOf (m_verts (m 0))))]) by (rewrite Ev; reflexivity).
        rewrite Em. cbn [isEmpty negb check bind pt_number pt_offsets pt_mesh pt_dist]. rewrite E. reflexivity.
      + intros r Hr. replace r with 0 by lia. apply numbered_ok; reflexivity.
      + intros _. change (pt_dist (p 0)) with [(0, range (Z.of_nat 0) (Z.of_nat (count 0)))]. rewrite range_spec by lia. rewrite Nat.sub_0_r. reflexivity.
    - exists (partOf n d m). split; [apply prepare_ends; [lia|exact HN]|]. split.
      + intros r Hr. apply numbered_ok; try reflexivity. apply offs_full.
      + intros [->|]; [reflexivity|contradiction]. }
  destruct G as (p & E & Nu & D). exists p. split; [exact E|]. split; [exact Nu|]. split.
  - unfold everywhere. assert (A : forall k, k <= n -> map v_glob (flat_map (fun r => m_verts (pt_mesh (p r))) (seq 0 k)) = map Z.of_nat (seq 0 (before count k))).
    { induction k as [|k IH]; intros Hk; [reflexivity|]. rewrite seq_S, flat_map_app, map_app, IH by lia. cbn [flat_map]. rewrite app_nil_r.
      change (0 + k) with k. rewrite (nu_global _ _ _ _ _ (Nu k ltac:(lia))). rewrite before_S, seq_app, map_app. reflexivity. }
    apply A. lia.
  - intros H. rewrite (D H). assert (V : forall r, r < n -> verts (blocks count n) r = seq (before count r) (count r)) by (intros r Hr; unfold verts; rewrite vfind_blocks by exact Hr; reflexivity).
    split; [|exact V]. assert (F : map fst (blocks count n) = seq 0 n) by (unfold blocks; rewrite map_map; apply map_id). split.
    + rewrite F. generalize 0. clear. induction n as [|k IH]; intros a; cbn [seq]; constructor; auto. apply Forall_forall. intros x Hx. apply in_seq in Hx. lia.
    + intros r Hr. rewrite F in Hr. apply in_seq in Hr. lia.
    + rewrite F. apply in_seq. lia.
    + intros r v Hv. destruct (Nat.lt_ge_cases r n) as [Hr|Hr].
      * rewrite V in Hv by exact Hr. apply in_seq in Hv. pose proof (before_mono count (S r) n ltac:(lia)) as B. rewrite before_S in B. unfold N. lia.
      * unfold verts in Hv. rewrite vfind_blocks_none in Hv by exact Hr. destruct Hv.
Qed.
Print Assumptions C50_global_numbering.

(** two ranks with three and two vertices and an empty rank between them *)
Definition pv (x : Q) (g : Z) (t : bool) : vertex := MkVertex [x; 0%Q] g true t.
Definition exProvided (r : nat) : mesh :=
  match r with
  | 0 => MkMesh 2 [pv 0 (-1) false; pv 1 (-1) false; pv 2 (-1) false] [(0, 1)] [] []
  | 2 => MkMesh 2 [pv 3 (-1) false; pv 4 (-1) false] [(0, 1)] [] []
  | _ => emptyMesh 2
  end.
Example C50_example :
  0 < 3 /\ 0 < before (fun r => length (m_verts (exProvided r))) 3 /\
  exists p, all_end 3 (fun r => prepare 3 r true (exProvided r)) p /\
    map v_glob (m_verts (pt_mesh (p 2))) = [3; 4]%Z /\ pt_offsets (p 1) = [3; 3; 5]%Z.
Proof.
  split; [lia|]. split; [cbn; lia|].
  destruct (C50_global_numbering 3 true exProvided) as (p & E & Nu & _); [lia|cbn; lia|].
  exists p. split; [exact E|]. split; [apply (nu_global _ _ _ _ _ (Nu 2 ltac:(lia)))|apply (nu_offsets _ _ _ _ _ (Nu 1 ltac:(lia)))].
Qed.

(** without any vertex the partition of a serial participant trips an assertion *)
Theorem C50_empty_mesh_stops : forall (d : bool) (m : mesh), m_verts m = [] -> prepare 1 0 d m = PErr (EAssert 262).
Proof. intros d m E. unfold prepare. cbn [isPrimary isSecondary Nat.eqb negb andb]. rewrite E. reflexivity. Qed.
Print Assumptions C50_empty_mesh_stops.

(** C49, one-level initialization.  The ranks hold their parts of the mesh, with
    the vertices tagged that they need; the global indices are below [N] and some
    rank needs a vertex.  Whatever the schedule, computing the partition ends on
    every rank, and every needed vertex is owned by exactly one rank, which needs it
    itself.  The partition of a rank has the vertices it needs, those its mappings ask
    for later, and the elements between them, and rank 0 learns all of it. *)
Theorem C49_unique_owner :
  forall (n N : nat) (direct : bool) (extra : nat -> list bool) (m : nat -> mesh),
    1 < n -> (forall r, r < n -> wf_mesh (m r)) ->
    (forall r v, r < n -> In v (m_verts (m r)) -> (0 <= v_glob v < Z.of_nat N)%Z) ->
    (exists r g, r < n /\ needs m r g) ->
    exists p, all_end n (fun r => computeReceived n r N direct (extra r) (m r)) p /\ received_parts n N m extra p.
Proof.
  intros n N direct extra m Hn Wf Ids (r & g & Hr & v & Hv & _ & Ht). apply received_all; auto.
  exists r. split; [exact Hr|]. unfold anyTag. apply existsb_exists. exists v. auto.
Qed.
Print Assumptions C49_unique_owner.

(** vertices 1 and 2 are needed by both ranks, vertex 3 only by rank 1, and the
    mapping of rank 0 asks for vertex 0 later *)
Definition exReceived (r : nat) : mesh :=
  match r with
  | 0 => MkMesh 2 [pv 0 0 false; pv 1 1 true; pv 2 2 true] [(0, 1); (1, 2)] [] []
  | _ => MkMesh 2 [pv 1 1 true; pv 2 2 true; pv 3 3 true; pv 4 4 false] [(0, 1); (2, 3)] [] []
  end.
Definition exLater (r : nat) : list bool := match r with 0 => [true] | _ => [] end.
Lemma exReceived_wf r : wf_mesh (exReceived r).
Proof.
  destruct r as [|r]; split; cbn; auto; try (intros; contradiction).
  - intros v [<-|[<-|[<-|[]]]]; reflexivity.
  - intros a b [E|[E|[]]]; injection E as <- <-; unfold nVertices; cbn; lia.
  - intros v [<-|[<-|[<-|[<-|[]]]]]; reflexivity.
  - intros a b [E|[E|[]]]; injection E as <- <-; unfold nVertices; cbn; lia.
Qed.
Example C49_example : exists p, all_end 2 (fun r => computeReceived 2 r 5 false (exLater r) (exReceived r)) p /\
  received_parts 2 5 exReceived exLater p /\ one_owner 2 (fun r => pt_mesh (p r)) 1 /\ one_owner 2 (fun r => pt_mesh (p r)) 3.
Proof.
  destruct (C49_unique_owner 2 5 false exLater exReceived) as (p & E & R).
  - lia.
  - intros r _. apply exReceived_wf.
  - intros r v Hr Hv. destruct r as [|[|r]]; [| |lia]; [destruct Hv as [<-|[<-|[<-|[]]]]|destruct Hv as [<-|[<-|[<-|[<-|[]]]]]]; cbn; lia.
  - exists 0, 1%Z. split; [lia|]. exists (pv 1 1 true). cbn. auto.
  - exists p. split; [exact E|]. split; [exact R|]. split; apply (rp_one_owner _ _ _ _ _ R 1); try lia.
    + exists (pv 1 1 true). cbn. auto.
    + exists (pv 3 3 true). cbn. auto.
Qed.
