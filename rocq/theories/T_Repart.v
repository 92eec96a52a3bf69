(** Theorems about nearest-neighbor mappings of parallel participants (C67). *)
From Coq Require Import ZArith QArith List Arith Bool Lia Lqa.
From Verif Require Import M_Net M_Mesh M_Box M_Map M_Repart S_Mesh S_Filter S_Map S_Box S_Repart M_M2N M_Part S_Term S_M2N S_Part P_Filter P_Box P_Bary P_Map P_MapTop P_Part P_Repart P_RepartTag T_Part T_Map S_Map.
Import ListNotations.
Open Scope nat_scope.

Section Repartitioning.
Variables big prec : Q.
Variable cv : mesh -> list Q -> nat.
Variable safety : Q.
Hypothesis big_pos : (0 < big)%Q.
Hypothesis prec_ok : (0 <= prec < 1)%Q.
Hypothesis safety_ok : (0 <= safety)%Q.
(** the search finds a nearest vertex *)
Hypothesis cv_ok : forall s u, wf_mesh s -> length u = m_dim s -> m_verts s <> [] -> nearest s u (cv s u).

(** C67.  Every rank of a parallel participant has meshes of its own, between
    which and the received mesh [g] there are nearest-neighbour mappings.  If the
    geometric filter is on, every vertex of these meshes has a nearest vertex
    within the safety factor.  Then computing the partition ends on every rank in
    every schedule, and the part of the received mesh that a rank keeps has a
    vertex that is nearest in the whole mesh, for each vertex of its own meshes. *)
Theorem C67_parts_have_the_nearest_vertices :
  forall (n : nat) (direct : bool) (f : geometricFilter) (g : mesh) (locals : nat -> list mesh),
    1 < n -> global_mesh g -> m_verts g <> [] ->
    (forall r o, r < n -> In o (locals r) -> fits big (m_dim g) o) ->
    (f <> NO_FILTER -> forall r o, r < n -> In o (locals r) -> covered safety g o) ->
    (exists r o, r < n /\ In o (locals r) /\ m_verts o <> []) ->
    exists p, all_end n (fun r => receivedPartition big prec cv safety n r direct f (locals r) g) p /\
    (forall r, r < n -> part_of g (pt_mesh (p r)) /\
       forall o i, In o (locals r) -> i < nVertices o -> holds g (pt_mesh (p r)) (position o i)) /\
    (forall r k, r < n -> In k (map v_glob (m_verts (pt_mesh (p r)))) -> one_owner n (fun r => pt_mesh (p r)) k).
Proof.
  intros n direct f g locals Hn G NE FI CO (r0 & o0 & Hr0 & Io0 & No0).
  assert (forall r, r < n -> exists t, firstSteps big prec cv safety f (locals r) g = Some t /\ part_of g t /\
    forall o i, In o (locals r) -> i < nVertices o -> exists j v, nth_error (m_verts t) j = Some v /\ v_tag v = true /\ nearest g (position o i) (gid t j)) as FS.
  { intros r Hr. destruct (filter_keeps big prec safety big_pos prec_ok safety_ok g f (locals r) G) as (h & E & P & _ & HN & HF).
    - intros o I. apply (FI r o Hr I).
    - intros NF o I. apply (CO NF r o Hr I).
    - unfold firstSteps. rewrite E. destruct (tags_ok cv cv_ok g (locals r) h P) as (t & Et & A & _ & K).
      + intros o I. destruct (FI r o Hr I) as (W & D & _). split; [exact W|]. split; [exact D|]. intros i Hi.
        assert (f = NO_FILTER \/ f <> NO_FILTER) as [EF|NF] by (destruct f; [left; reflexivity|right; discriminate|right; discriminate]); [|apply (HF NF o i I Hi)].
        rewrite (HN EF). assert (nearest g (position o i) (cv g (position o i))) as NN.
        { apply cv_ok; [apply G| |exact NE]. unfold position. destruct (nth_error (m_verts o) i) as [v|] eqn:Ev; [|apply nth_error_None in Ev; unfold nVertices in Hi; lia].
          rewrite <- D. apply (wm_coords o W), (nth_error_In _ _ Ev). }
        exists (cv g (position o i)). split; [apply NN|]. unfold gid. destruct (nth_error (m_verts g) (cv g (position o i))) as [v|] eqn:Ev.
        * rewrite (proj1 (proj2 G _ _ Ev)), Nat2Z.id. exact NN.
        * apply nth_error_None in Ev. destruct NN as (L & _). unfold nVertices in L. lia.
      + exists t. split; [exact Et|]. split; [apply (alike_part g h t P A)|exact K]. }
  assert (exists t, forall r, r < n -> firstSteps big prec cv safety f (locals r) g = Some (t r) /\ part_of g (t r) /\
    forall o i, In o (locals r) -> i < nVertices o -> exists j v, nth_error (m_verts (t r)) j = Some v /\ v_tag v = true /\ nearest g (position o i) (gid (t r) j)) as (t & T).
  { exists (fun r => match firstSteps big prec cv safety f (locals r) g with Some t => t | None => emptyMesh 2 end). intros r Hr. destruct (FS r Hr) as (t & E & K). rewrite E. auto. }
  destruct (C49_unique_owner n (nVertices g) direct (fun _ => []) t Hn) as (p & E & R).
  - intros r Hr. apply (po_wf _ _ (proj1 (proj2 (T r Hr)))).
  - intros r v Hr I. destruct (po_verts _ _ (proj1 (proj2 (T r Hr))) v I) as (w & Ew & _ & GW). destruct (proj2 G _ _ Ew) as (GE & _). rewrite GW in GE. rewrite GE. assert (Z.to_nat (v_glob v) < nVertices g) by (apply nth_error_Some; congruence). lia.
  - destruct o0 as [d vs es ts tts] eqn:Eo. cbn [m_verts] in No0. destruct vs as [|v0 vs]; [contradiction|].
    destruct (proj2 (proj2 (T r0 Hr0)) o0 0) as (j & v & Ev & TV & _); [subst; exact Io0|subst; unfold nVertices; cbn; lia|].
    exists r0, (v_glob v). split; [exact Hr0|]. exists v. split; [apply (nth_error_In _ _ Ev)|auto].
  - exists p. split; [|split].
    + unfold all_end in *. assert (ranks n (fun r => receivedPartition big prec cv safety n r direct f (locals r) g) = ranks n (fun r => computeReceived n r (nVertices g) direct [] (t r))) as ->; [|exact E].
      unfold ranks. apply map_ext_in. intros r I. apply in_seq in I. unfold receivedPartition. replace (n =? 1) with false by (symmetry; apply Nat.eqb_neq; lia).
      rewrite (proj1 (T r ltac:(lia))). reflexivity.
    + intros r Hr. destruct (rp_mesh _ _ _ _ _ R r Hr) as (m2 & TA & F). destruct (T r Hr) as (_ & P & K). split; [apply (partition_ok g (t r) m2 _ [] P TA F)|].
      intros o i I Hi. apply (partition_ok g (t r) m2 _ (position o i) P TA F), (K o i I Hi).
    + intros r k Hr I. destruct (rp_mesh _ _ _ _ _ R r Hr) as (m2 & TA & F). apply (rp_one_owner _ _ _ _ _ R r k Hr).
      pose proof (fl_verts _ _ _ _ F) as FV. cbn [emptyMesh m_verts app] in FV. rewrite FV in I. apply in_map_iff in I. destruct I as (w & <- & I). apply filter_In in I. destruct I as (I & TW).
      apply In_nth_error in I. destruct I as (i & Ei). destruct (alike_back _ _ (tagged_alike _ _ _ TA) i w Ei) as (v & Ev & _ & GV).
      destruct (ta_vertices _ _ _ TA i v Ev) as (w' & Ew & _ & _ & T2). rewrite Ei in Ew. injection Ew as <-. exists v. split; [apply (nth_error_In _ _ Ev)|]. split; [congruence|]. rewrite TW in T2. destruct (v_tag v); [reflexivity|]. destruct i; discriminate T2.
Qed.
End Repartitioning.
Print Assumptions C67_parts_have_the_nearest_vertices.

Section Values.
Variables (len : mesh -> nat * nat -> Q) (area : mesh -> nat * nat * nat -> Q) (vol : mesh -> nat * nat * nat * nat -> Q).
Variable cv : mesh -> list Q -> nat.
Hypothesis cv_ok : forall s u, wf_mesh s -> length u = m_dim s -> m_verts s <> [] -> nearest s u (cv s u).
(** what a rank has of the received mesh [g] for its mesh [o], as in
    [C67_parts_have_the_nearest_vertices] *)
Definition has_neighbours (g h o : mesh) : Prop :=
  part_of g h /\ wf_mesh o /\ m_dim o = m_dim g /\ forall i, i < nVertices o -> holds g h (position o i).

(** C67, reading.  With the values of its vertices, a rank gets for each vertex of its
    mesh the value of a vertex that is nearest in the whole received mesh. *)
Theorem C67_reading : forall g h o dims global received,
  has_neighbours g h o -> values_of dims h global received ->
  exists out, mapNN len area vol cv Consistent h o dims received (zeros dims o) = Some out /\ sized dims o out /\
  forall i, i < nVertices o -> exists j, nearest g (position o i) j /\ forall d, d < dims -> val dims out i d = val dims global j d.
Proof.
  intros g h o dims global received (P & W & D & H) (SI & V).
  destruct (nnConsistent_ok h o (cv h) dims received W) as (l & out & E & EN & SO & K).
  - rewrite D. symmetry. apply (po_dim _ _ P).
  - destruct (Nat.eq_dec (nVertices o) 0) as [Z|NZ]; [right; exact Z|left]. destruct (H 0 ltac:(lia)) as (j & Hj & _). lia.
  - intros u Lu NE. apply cv_ok; [apply (po_wf _ _ P)|exact Lu|exact NE].
  - exact SI.
  - exists out. split; [unfold mapNN; cbn [searchSpaceOf originsOf isConservative]; rewrite E, EN; reflexivity|]. split; [exact SO|].
    intros i Hi. destruct (K i Hi) as (j & N & Q). exists (gid h j). split; [apply (nearest_part g h _ j P (H i Hi) N)|]. intros d Hd. rewrite (Q d Hd). apply V; [apply N|exact Hd].
Qed.
(** if nearest vertices are unique this is the value a serial participant gets,
    whatever the number of its vertex *)
Theorem C67_reading_as_in_serial : forall g h o O dims global received out serial i k d,
  has_neighbours g h o -> values_of dims h global received -> nearest_is_unique g o ->
  wf_mesh g -> wf_mesh O -> m_dim O = m_dim g -> sized dims g global ->
  mapNN len area vol cv Consistent h o dims received (zeros dims o) = Some out ->
  mapNN len area vol cv Consistent g O dims global (zeros dims O) = Some serial ->
  i < nVertices o -> k < nVertices O -> position O k = position o i -> d < dims ->
  val dims out i d = val dims serial k d.
Proof.
  intros g h o O dims global received out serial i k d HN V U WG WO DO SG E1 E2 Hi Hk EP Hd.
  destruct (C67_reading g h o dims global received HN V) as (out' & E1' & _ & K1). rewrite E1 in E1'. injection E1' as <-.
  destruct HN as (P & _ & _ & H). destruct (H i Hi) as (j0 & _ & N0).
  destruct (nnConsistent_ok g O (cv g) dims global WO DO) as (l & out' & E & EN & _ & K2).
  - left. destruct N0 as (L & _). lia.
  - intros u Lu NE. apply cv_ok; assumption.
  - exact SG.
  - unfold mapNN in E2. cbn [searchSpaceOf originsOf isConservative] in E2. rewrite E, EN in E2. injection E2 as <-.
    destruct (K1 i Hi) as (j & N & Q). destruct (K2 k Hk) as (j' & N' & Q'). rewrite (Q d Hd), (Q' d Hd). rewrite EP in N'. rewrite (U i j j' Hi N N'). reflexivity.
Qed.

(** C67, writing.  Each value goes to one vertex that is nearest in the whole mesh;
    what the rank has for its vertex [j] is the sum of the values that go there. *)
Theorem C67_writing : forall g h o dims inp,
  has_neighbours g h o -> sized dims o inp ->
  exists out target, mapNN len area vol cv Conservative o h dims inp (zeros dims h) = Some out /\ sized dims h out /\
  (forall i, i < nVertices o -> nearest g (position o i) (target i)) /\
  (forall j d, j < nVertices h -> d < dims ->
     (val dims out j d == qsum (nVertices o) (fun i => if target i =? gid h j then val dims inp i d else 0))%Q) /\
  forall k d, d < dims ->
    (qsum (nVertices h) (fun j => if gid h j =? k then val dims out j d else 0) == qsum (nVertices o) (fun i => if target i =? k then val dims inp i d else 0))%Q.
Proof.
  intros g h o dims inp (P & W & D & H) SI.
  destruct (nnConservative_ok h o (cv h) dims inp (zeros dims h) W) as (l & out & E & EN & SO & N & V).
  - rewrite D. symmetry. apply (po_dim _ _ P).
  - destruct (Nat.eq_dec (nVertices o) 0) as [Z|NZ]; [right; exact Z|left]. destruct (H 0 ltac:(lia)) as (j & Hj & _). lia.
  - intros u Lu NE. apply cv_ok; [apply (po_wf _ _ P)|exact Lu|exact NE].
  - exact SI.
  - apply sized_zeros.
  - exists out, (fun i => gid h (nth i l 0)).
    split; [unfold mapNN; cbn [searchSpaceOf originsOf isConservative]; rewrite E, EN; reflexivity|]. split; [exact SO|].
    split; [intros i Hi; apply (nearest_part g h _ _ P (H i Hi) (N i Hi))|]. 
    assert (forall i j, i < nVertices o -> j < nVertices h -> (gid h (nth i l 0) =? gid h j) = (nth i l 0 =? j)) as GI.
    { intros i j Hi Hj. destruct (Nat.eqb_spec (nth i l 0) j) as [->|NE]; [apply Nat.eqb_refl|]. apply Nat.eqb_neq. intros EG. apply NE, (gid_inj g h _ _ P (proj1 (N i Hi)) Hj EG). }
    assert (forall j d, j < nVertices h -> d < dims -> (val dims out j d == qsum (nVertices o) (fun i => if gid h (nth i l 0%nat) =? gid h j then val dims inp i d else 0))%Q) as VJ.
    { intros j d Hj Hd. rewrite (V j d Hd), val_zeros, Qplus_0_l. apply qsum_ext. intros i Hi. rewrite (GI i j Hi Hj). reflexivity. }
    split; [exact VJ|]. intros k d Hd.
    transitivity (qsum (nVertices h) (fun j => qsum (nVertices o) (fun i => if nth i l 0%nat =? j then (if gid h (nth i l 0%nat) =? k then val dims inp i d else 0) else 0)))%Q.
    + apply qsum_ext. intros j Hj. destruct (Nat.eqb_spec (gid h j) k) as [EK|NK].
      * rewrite (VJ j d Hj Hd). apply qsum_ext. intros i Hi. rewrite (GI i j Hi Hj). destruct (Nat.eqb_spec (nth i l 0) j) as [->|]; [|reflexivity]. rewrite EK, Nat.eqb_refl. reflexivity.
      * symmetry. transitivity (qsum (nVertices o) (fun _ => 0)%Q); [|apply qsum_zero]. apply qsum_ext. intros i Hi. destruct (Nat.eqb_spec (nth i l 0) j) as [->|]; [|reflexivity]. rewrite (proj2 (Nat.eqb_neq _ _) NK). reflexivity.
    + apply (swap_sum (fun i => nth i l 0) (fun i => if gid h (nth i l 0%nat) =? k then val dims inp i d else 0)%Q). intros i Hi. apply (N i Hi).
Qed.

Lemma qsum_app a b f : (qsum (a + b) f == qsum a f + qsum b (fun i => f (a + i)%nat))%Q.
Proof. induction b as [|b IH]; [rewrite Nat.add_0_r; cbn [qsum]; ring|]. rewrite Nat.add_succ_r. cbn [qsum]. rewrite IH. ring. Qed.
Lemma qsum_blocks cnt f : forall n, (qsum (before cnt n) f == qsum n (fun r => qsum (cnt r) (fun i => f (before cnt r + i)%nat)))%Q.
Proof. induction n as [|n IH]; [reflexivity|]. rewrite before_S, qsum_app, IH. reflexivity. Qed.

(** the parts of all ranks added up, at vertex [k] of the whole mesh, are what a serial
    participant with the vertices of all ranks writes there *)
Theorem C67_writing_as_in_serial : forall n g (h o : nat -> mesh) O dims (inp out : nat -> list Q) input serial,
  (forall r, r < n -> has_neighbours g (h r) (o r) /\ sized dims (o r) (inp r) /\ nearest_is_unique g (o r) /\
     mapNN len area vol cv Conservative (o r) (h r) dims (inp r) (zeros dims (h r)) = Some (out r)) ->
  let first r := before (fun r => nVertices (o r)) r in
  wf_mesh g -> wf_mesh O -> m_dim O = m_dim g -> m_verts g <> [] -> sized dims O input -> nVertices O = first n ->
  (forall r i, r < n -> i < nVertices (o r) -> position O (first r + i) = position (o r) i /\
     forall d, d < dims -> val dims input (first r + i) d = val dims (inp r) i d) ->
  mapNN len area vol cv Conservative O g dims input (zeros dims g) = Some serial ->
  forall k d, d < dims ->
  (qsum n (fun r => qsum (nVertices (h r)) (fun j => if gid (h r) j =? k then val dims (out r) j d else 0)) == val dims serial k d)%Q.
Proof.
  intros n g h o O dims inp out input serial HR first WG WO DO NE SI NO B E k d Hd.
  destruct (nnConservative_ok g O (cv g) dims input (zeros dims g) WO DO) as (l & s & E1 & E2 & SO & N & V).
  - left. unfold nVertices. destruct (m_verts g); [contradiction|cbn; lia].
  - intros u Lu NE'. apply cv_ok; assumption.
  - exact SI.
  - apply sized_zeros.
  - unfold mapNN in E. cbn [searchSpaceOf originsOf isConservative] in E. rewrite E1, E2 in E. injection E as <-.
    rewrite (V k d Hd), val_zeros, Qplus_0_l, NO. unfold first. rewrite (qsum_blocks (fun r => nVertices (o r))).
    apply qsum_ext. intros r Hr. destruct (HR r Hr) as (HN & SR & U & EM).
    destruct (C67_writing g (h r) (o r) dims (inp r) HN SR) as (out' & t & E' & _ & NT & _ & K). rewrite EM in E'. injection E' as <-.
    rewrite (K k d Hd). apply qsum_ext. intros i Hi. destruct (B r i Hr Hi) as (EP & EV).
    assert (before (fun r => nVertices (o r)) r + i < nVertices O) as L.
    { rewrite NO. unfold first. assert (before (fun r => nVertices (o r)) (S r) <= before (fun r => nVertices (o r)) n) by (apply before_mono; lia). rewrite before_S in H. lia. }
    change (before (fun r0 => nVertices (o r0)) r) with (first r) in *. pose proof (N _ L) as N'. rewrite EP in N'. rewrite (U i _ _ Hi (NT i Hi) N').
    destruct (nth (first r + i) l 0 =? k); [|reflexivity]. rewrite (EV d Hd). reflexivity.
Qed.
(** without uniqueness, what all ranks write adds up to what all ranks have *)
Theorem C67_sum_is_preserved : forall g h o dims inp out d,
  has_neighbours g h o -> sized dims o inp ->
  mapNN len area vol cv Conservative o h dims inp (zeros dims h) = Some out -> d < dims ->
  (qsum (nVertices h) (fun j => val dims out j d) == qsum (nVertices o) (fun i => val dims inp i d))%Q.
Proof.
  intros g h o dims inp out d HN SI E Hd. pose proof HN as (P & W & D & H).
  destruct (nnConservative_ok h o (cv h) dims inp (zeros dims h) W) as (l & out' & E1 & EN & SO & N & V).
  - rewrite D. symmetry. apply (po_dim _ _ P).
  - destruct (Nat.eq_dec (nVertices o) 0) as [Z|NZ]; [right; exact Z|left]. destruct (H 0 ltac:(lia)) as (j & Hj & _). lia.
  - intros u Lu NE. apply cv_ok; [apply (po_wf _ _ P)|exact Lu|exact NE].
  - exact SI.
  - apply sized_zeros.
  - unfold mapNN in E. cbn [searchSpaceOf originsOf isConservative] in E. rewrite E1, EN in E. injection E as <-.
    rewrite (qsum_ext _ _ (fun j => qsum (nVertices o) (fun i => if nth i l 0%nat =? j then val dims inp i d else 0))%Q); [|intros j Hj; rewrite (V j d Hd), val_zeros; ring].
    apply (swap_sum (fun i => nth i l 0) (fun i => val dims inp i d)). intros i Hi. apply (N i Hi).
Qed.
End Values.
Print Assumptions C67_reading.
Print Assumptions C67_reading_as_in_serial.
Print Assumptions C67_writing.
Print Assumptions C67_writing_as_in_serial.
Print Assumptions C67_sum_is_preserved.

(** C67, two-level initialization.  The ranks only get the parts of the mesh of the
    ranks whose box overlaps theirs; after the geometric filter they have the
    same vertices as with one-level initialization, where they get all parts. *)
Theorem C67_two_level_initialization_filters_the_same :
  forall (big prec safety : Q) (d : nat) (locals parts : list mesh),
    (0 < big)%Q -> (0 <= prec < 1)%Q -> (0 <= safety)%Q -> (d = 2 \/ d = 3) ->
    (forall o, In o locals -> fits big d o) -> (forall o, In o parts -> fits big d o) ->
    exists all connected, receiveParts parts (emptyMesh d) = Some all /\ receiveConnected big prec safety d locals parts = Some connected /\
    match filterByBoundingBox big prec safety ON_SECONDARY_RANKS locals all, filterByBoundingBox big prec safety ON_SECONDARY_RANKS locals connected with
    | Some a, Some b => m_verts a = m_verts b
    | None, None => True
    | _, _ => False
    end.
Proof. intros big prec safety d locals parts B P S. apply (two_level_same big prec safety B P S). Qed.
Print Assumptions C67_two_level_initialization_filters_the_same.

(** ** examples *)
(** a search that finds the first nearest vertex *)
Fixpoint better (m : mesh) (u : list Q) (js : list nat) (cur : nat) : nat :=
  match js with
  | [] => cur
  | j :: r => better m u r (if qlt (sqdist (m_dim m) u (position m j)) (sqdist (m_dim m) u (position m cur)) then j else cur)
  end.
Definition linear (m : mesh) (u : list Q) : nat := better m u (seq 0 (nVertices m)) 0.
Lemma better_ok m u : forall js cur, (In (better m u js cur) (cur :: js)) /\
  forall k, k = cur \/ In k js -> (sqdist (m_dim m) u (position m (better m u js cur)) <= sqdist (m_dim m) u (position m k))%Q.
Proof.
  induction js as [|j r IH]; intros cur; cbn [better].
  - split; [left; reflexivity|]. intros k [->|[]]. apply Qle_refl.
  - destruct (qlt (sqdist (m_dim m) u (position m j)) (sqdist (m_dim m) u (position m cur))) eqn:E; [apply qlt_iff in E|apply qlt_false in E]; [destruct (IH j) as (I & K)|destruct (IH cur) as (I & K)].
    + split; [right; destruct I as [<-|I]; [left; reflexivity|right; exact I]|]. intros k [->|[->|I']].
      * eapply Qle_trans; [apply (K j); left; reflexivity|]. apply Qlt_le_weak. exact E.
      * apply K. left. reflexivity.
      * apply K. right. exact I'.
    + split; [destruct I as [<-|I]; [left; reflexivity|right; right; exact I]|]. intros k [->|[->|I']].
      * apply K. left. reflexivity.
      * eapply Qle_trans; [apply (K cur); left; reflexivity|]. exact E.
      * apply K. right. exact I'.
Qed.
Lemma linear_ok : forall s u, wf_mesh s -> length u = m_dim s -> m_verts s <> [] -> nearest s u (linear s u).
Proof.
  intros s u _ _ NE. unfold linear. destruct (better_ok s u (seq 0 (nVertices s)) 0) as (I & K).
  assert (0 < nVertices s) as P by (unfold nVertices; destruct (m_verts s); [contradiction|cbn; lia]).
  split; [destruct I as [<-|I]; [exact P|apply in_seq in I; lia]|]. intros k Hk. apply K. right. apply in_seq. lia.
Qed.

(** five vertices on a line, two ranks *)
Definition Vt (x y : Q) (i : Z) : vertex := MkVertex [x; y] i false false.
Definition exG : mesh := MkMesh 2 [Vt 0 0 0; Vt 2 0 1; Vt 4 0 2; Vt 6 0 3; Vt 8 0 4] [(0, 1); (1, 2); (2, 3); (3, 4)] [] [].
Definition exOwn (r : nat) : mesh := match r with 0 => MkMesh 2 [Vt 0 0 (-1); Vt 4 1 (-1)] [] [] [] | _ => MkMesh 2 [Vt 6 0 (-1); Vt 8 1 (-1)] [] [] [] end.
Lemma exG_global : global_mesh exG.
Proof.
  split.
  - constructor; cbn; auto; try contradiction.
    + intros v [<-|[<-|[<-|[<-|[<-|[]]]]]]; reflexivity.
    + intros a b [E|[E|[E|[E|[]]]]]; injection E as <- <-; unfold nVertices; cbn; lia.
  - intros [|[|[|[|[|i]]]]] v E; cbn in E; try (injection E as <-; split; reflexivity). destruct i; discriminate E.
Qed.
Lemma exOwn_fits r : fits 1000 2 (exOwn r).
Proof.
  destruct r as [|r]; (split; [constructor; cbn; auto; try contradiction; intros v [<-|[<-|[]]]; reflexivity|split; [reflexivity|]]; intros v [<-|[<-|[]]]; repeat constructor; cbn; lra).
Qed.
Lemma exOwn_covered r : covered (1#2) exG (exOwn r).
Proof.
  intros i Hi. exists (linear exG (position (exOwn r) i)).
  assert (length (position (exOwn r) i) = 2) as L by (destruct r as [|r], i as [|[|i]]; try reflexivity; unfold nVertices in Hi; cbn in Hi; lia).
  split; [apply linear_ok; [apply exG_global|exact L|discriminate]|]. destruct r as [|r].
  - exists (Vt 4 1 (-1)), (Vt 0 0 (-1)), 0. split; [right; left; reflexivity|]. split; [left; reflexivity|]. split; [cbn; lia|]. intros k Hk. cbn in Hk.
    destruct i as [|[|i]]; [| |unfold nVertices in Hi; cbn in Hi; lia]; (destruct k as [|[|k]]; [| |lia]; vm_compute; split; congruence).
  - exists (Vt 8 1 (-1)), (Vt 6 0 (-1)), 0. split; [right; left; reflexivity|]. split; [left; reflexivity|]. split; [cbn; lia|]. intros k Hk. cbn in Hk.
    destruct i as [|[|i]]; [| |unfold nVertices in Hi; cbn in Hi; lia]; (destruct k as [|[|k]]; [| |lia]; vm_compute; split; congruence).
Qed.
Example C67_example : exists p, all_end 2 (fun r => receivedPartition 1000 (1#100) linear (1#2) 2 r false ON_SECONDARY_RANKS [exOwn r] exG) p /\
  has_neighbours exG (pt_mesh (p 0)) (exOwn 0) /\ has_neighbours exG (pt_mesh (p 1)) (exOwn 1).
Proof.
  destruct (C67_parts_have_the_nearest_vertices 1000 (1#100) linear (1#2)) with (n := 2) (direct := false) (f := ON_SECONDARY_RANKS) (g := exG) (locals := fun r => [exOwn r]) as (p & E & K & _).
  - reflexivity.
  - split; [discriminate|reflexivity].
  - discriminate.
  - exact linear_ok.
  - lia.
  - exact exG_global.
  - discriminate.
  - intros r o _ [<-|[]]. apply exOwn_fits.
  - intros _ r o _ [<-|[]]. apply exOwn_covered.
  - exists 0, (exOwn 0). split; [lia|]. split; [left; reflexivity|discriminate].
  - exists p. split; [exact E|]. split; (split; [apply K; lia|]; split; [apply (exOwn_fits _)|]; split; [reflexivity|]; intros i Hi; apply K; [lia|left; reflexivity|exact Hi]).
Qed.
(** the vertices that the ranks keep after the first steps, with their tags *)
Definition kept (o : option mesh) : option (list (Z * bool)) := match o with Some m => Some (map (fun v => (v_glob v, v_tag v)) (m_verts m)) | None => None end.
Example C67_example_first_steps :
  kept (firstSteps 1000 (1#100) linear (1#2) ON_SECONDARY_RANKS [exOwn 0] exG) = Some [(0%Z, true); (1%Z, false); (2%Z, true); (3%Z, false)] /\
  kept (firstSteps 1000 (1#100) linear (1#2) ON_SECONDARY_RANKS [exOwn 1] exG) = Some [(3%Z, true); (4%Z, true)].
Proof. vm_compute. split; reflexivity. Qed.
Lemma exOwn_one r i j : i < nVertices (exOwn r) -> nearest exG (position (exOwn r) i) j -> j = linear exG (position (exOwn r) i).
Proof.
  intros Hi (Hj & K). pose proof (K (linear exG (position (exOwn r) i))) as K'. clear K. unfold nVertices in Hj, K', Hi.
  destruct r as [|r], i as [|[|i]]; try (cbn in Hi; lia); (destruct j as [|[|[|[|[|j]]]]]; try (cbn in Hj; lia); try (vm_compute; reflexivity); exfalso; specialize (K' ltac:(vm_compute; lia)); vm_compute in K'; apply K'; reflexivity).
Qed.
Example C67_example_unique : forall r, nearest_is_unique exG (exOwn r).
Proof. intros r i j k Hi N1 N2. rewrite (exOwn_one r i j Hi N1), (exOwn_one r i k Hi N2). reflexivity. Qed.

(** ** findings *)
(** a nearest vertex outside the enlarged box is filtered out without notice: rank 0
    has (0,0) and (10,0), and the vertex (0,6) of the received mesh is 6 away from the
    former, but a vertex 14.6 away is used *)
Definition farG : mesh := MkMesh 2 [Vt 0 6 0; Vt 14 4 1] [] [] [].
Definition farOwn : mesh := MkMesh 2 [Vt 0 0 (-1); Vt 10 0 (-1)] [] [] [].
Definition noLen (_ : mesh) (_ : nat * nat) : Q := 0.
Definition noArea (_ : mesh) (_ : nat * nat * nat) : Q := 0.
Definition noVol (_ : mesh) (_ : nat * nat * nat * nat) : Q := 0.
Theorem C67_nearest_vertex_outside_the_box_refuted :
  kept (firstSteps 1000 (1#100) linear (1#2) ON_SECONDARY_RANKS [farOwn] farG) = Some [(1%Z, true)] /\
  nearest farG (position farOwn 0) 0 /\ ~ nearest farG (position farOwn 0) 1 /\
  mapNN noLen noArea noVol linear Consistent (MkMesh 2 [Vt 14 4 1] [] [] []) farOwn 1 [7]%Q (zeros 1 farOwn) = Some [7; 7]%Q /\
  mapNN noLen noArea noVol linear Consistent farG farOwn 1 [3; 7]%Q (zeros 1 farOwn) = Some [3; 7]%Q.
Proof.
  split; [vm_compute; reflexivity|]. split; [|split].
  - split; [unfold nVertices; cbn; lia|]. intros [|[|k]] Hk; [| |unfold nVertices in Hk; cbn in Hk; lia]; vm_compute; discriminate.
  - intros (_ & K). specialize (K 0 ltac:(unfold nVertices; cbn; lia)). vm_compute in K. apply K. reflexivity.
  - split; vm_compute; reflexivity.
Qed.
Print Assumptions C67_nearest_vertex_outside_the_box_refuted.

(** a rank with a single vertex has a box without extent: whatever the safety factor,
    the received mesh is filtered out unless it has a vertex in the same place, and
    the run ends with an error that asks to increase the safety factor *)
Definition oneG : mesh := MkMesh 2 [Vt 1 0 0; Vt 2 0 1] [] [] [].
Definition oneOwn : mesh := MkMesh 2 [Vt 0 0 (-1)] [] [] [].
Theorem C67_single_vertex_refuted : forall safety f, f <> NO_FILTER ->
  firstSteps 1000 (1#100) linear safety f [oneOwn] oneG = None.
Proof.
  intros safety f NF. unfold firstSteps, filterByBoundingBox, prepareBoundingBox. cbn [mergeBoxes oneG m_dim].
  replace (boxOf 1000 (1 # 100) oneOwn) with (Some (MkBox [0; 0] [0; 0])%Q) by (vm_compute; reflexivity).
  unfold scaleBy. replace (isDefault 1000 (1 # 100) (MkBox [0; 0] [0; 0])%Q) with false by (vm_compute; reflexivity).
  set (l := longestEdgeLength _). assert (l == 0)%Q as L by (vm_compute; reflexivity).
  cbn [b_min b_max map]. set (lo := (0 - safety * l)%Q). set (hi := (0 + safety * l)%Q).
  assert (lo == 0)%Q as EL by (unfold lo; rewrite L; ring). assert (hi == 0)%Q as EH by (unfold hi; rewrite L; ring).
  unfold expandByBox. cbn [b_dim defaultBox b_min b_max length Nat.eqb repeat map2].
  destruct (qmin_spec 1000 lo) as (_ & _ & M1). destruct (qmax_spec (- (1000)) hi) as (_ & _ & M2).
  set (bb := MkBox _ _).
  assert (forall x y i, (0 < x)%Q -> inBox bb (Vt x y i) = false) as OUT.
  { intros x y i Px. destruct (inBox bb (Vt x y i)) eqn:B; [|reflexivity]. exfalso. apply (inBox_iff 2 bb (Vt x y i) eq_refl eq_refl eq_refl) in B.
    destruct B as (_ & B). cbn [bb Vt v_coords b_max] in B. inversion B; subst. destruct M2 as [M2|M2]; rewrite M2 in *; lra. }
  assert (filter (inBox bb) (m_verts oneG) = []) as FE by (cbn [oneG m_verts filter]; rewrite !OUT by reflexivity; reflexivity).
  assert (wf_mesh oneG) as W by (constructor; cbn; auto; try contradiction; intros v [<-|[<-|[]]]; reflexivity).
  destruct (filter_add (inBox bb) oneG W) as (h & E1 & E2 & _ & _ & V). cbn [m_dim oneG] in E1, E2. fold oneG. rewrite E1, E2. unfold filteredOut. rewrite V, FE.
  destruct f; [contradiction| |]; reflexivity.
Qed.
Print Assumptions C67_single_vertex_refuted.

(** with two-level initialization, switching the geometric filter off does not
    give the whole mesh: parts whose box is apart from the box of the rank
    are never received *)
Theorem C67_two_level_without_filter_refuted :
  let parts := [MkMesh 2 [Vt 0 6 0; Vt 1 6 1] [] [] []; MkMesh 2 [Vt 14 4 2] [] [] []] in
  kept (receiveConnected 1000 (1#100) (1#2) 2 [farOwn] parts) = Some [(2%Z, false)] /\
  kept (receiveParts parts (emptyMesh 2)) = Some [(0%Z, false); (1%Z, false); (2%Z, false)].
Proof. vm_compute. split; reflexivity. Qed.
Print Assumptions C67_two_level_without_filter_refuted.
