(** Two-level initialization: who owns a vertex (C49). *)
From Coq Require Import ZArith QArith List Arith Bool Lia Sorted.
From Verif Require Import M_Net M_Mesh M_Box M_Comm M_M2N M_Part S_Box S_Term S_Mesh S_Part P_Net P_Term P_Box P_P2P P_P2PRun P_Mail P_Own2 T_Part.
Import ListNotations.
Open Scope nat_scope.

(** what [n] ranks with bounding boxes [boxes] hold: one legal box per rank, vertices
    with [d] coordinates, in increasing order of their global indices *)
Record two_level (n d : nat) (boxes : list box) (m : nat -> mesh) : Prop := {
  tl_boxes : length boxes = n;
  tl_legal : forall b, In b boxes -> legal d b;
  tl_coords : forall r v, r < n -> In v (m_verts (m r)) -> length (v_coords v) = d;
  tl_sorted : forall r, r < n -> StronglySorted Z.lt (map v_glob (m_verts (m r)));
  tl_ids : forall r v, r < n -> In v (m_verts (m r)) -> (0 <= v_glob v)%Z
}.
Definition boxOf (boxes : list box) (r : nat) : box := nth r boxes (MkBox [] []).
(** only the owner of vertices differs *)
Definition only_owner (m m' : mesh) : Prop :=
  same_elements m m' /\ Forall2 (fun v w => v_coords v = v_coords w /\ v_glob v = v_glob w /\ v_tag v = v_tag w) (m_verts m) (m_verts m').

Lemma mo2_only n boxes m r : only_owner (m r) (mo2 n boxes m r).
Proof.
  split; [repeat split|]. unfold mo2. cbn. generalize (m_verts (m r)). induction l; cbn; constructor; auto.
Qed.

(** C49, two-level initialization.  Every rank sends to its neighbours, the ranks with
    overlapping boxes, before it receives from them.  If sends are buffered the
    exchange ends on every rank, and every vertex some rank needs is owned by at least
    one rank, which needs it itself. *)
Theorem C49_two_level_some_owner :
  forall (n d : nat) (boxes : list box) (m : nat -> mesh), two_level n d boxes m ->
    exists mo, all_end_buffered n (fun r => createOwnerInformation2 r boxes (boxOf boxes r) (m r)) mo /\
      (forall r, r < n -> only_owner (m r) (mo r)) /\
      (forall r g, r < n -> owns mo r g -> needs m r g) /\
      (forall r g, r < n -> needs m r g -> exists s, s < n /\ owns mo s g).
Proof.
  intros n d boxes m [A B C D F]. exists (mo2 n boxes m). split; [apply (own2_ends n d boxes m); auto|].
  split; [intros; apply mo2_only|]. split; [intros; eapply own2_needs; eauto|].
  intros r g Hr H. apply (own2_some n boxes m); eauto.
Qed.
Print Assumptions C49_two_level_some_owner.

(** If besides every rank only needs vertices inside its own box, and all ranks agree
    where a vertex is, exactly one rank owns it. *)
Theorem C49_two_level_one_owner :
  forall (n d : nat) (boxes : list box) (m : nat -> mesh), two_level n d boxes m ->
    (forall r v, r < n -> In v (m_verts (m r)) -> v_tag v = true -> inside (v_coords v) (boxOf boxes r)) ->
    (forall r s v w, r < n -> s < n -> In v (m_verts (m r)) -> In w (m_verts (m s)) -> v_glob v = v_glob w -> v_coords v = v_coords w) ->
    exists mo, all_end_buffered n (fun r => createOwnerInformation2 r boxes (boxOf boxes r) (m r)) mo /\
      (forall r, r < n -> only_owner (m r) (mo r)) /\
      (forall r g, r < n -> owns mo r g -> needs m r g) /\
      (forall r g, r < n -> needs m r g -> one_owner n mo g).
Proof.
  intros n d boxes m [A B C D F] I S. exists (mo2 n boxes m). split; [apply (own2_ends n d boxes m); auto|].
  split; [intros; apply mo2_only|]. split; [intros; eapply own2_needs; eauto|].
  intros r g Hr H. apply (own2_one n d boxes m); eauto.
Qed.
Print Assumptions C49_two_level_one_owner.

(** the ranks of [exReceived] with overlapping boxes: the vertices 1 and 2 are shared.
    Rank 0 has fewer vertices of its own and owns them. *)
Definition exBoxes : list box := [MkBox [0; 0]%Q [2; 1]%Q; MkBox [1; 0]%Q [4; 1]%Q].
Lemma exTwo : two_level 2 2 exBoxes exReceived.
Proof.
  split.
  - reflexivity.
  - intros b [<-|[<-|[]]]; repeat split; repeat constructor; cbn; discriminate.
  - intros r v Hr Hv. destruct r as [|[|r]]; [| |lia]; [destruct Hv as [<-|[<-|[<-|[]]]]|destruct Hv as [<-|[<-|[<-|[<-|[]]]]]]; reflexivity.
  - intros r Hr. destruct r as [|[|r]]; [| |lia]; cbn; repeat constructor; lia.
  - intros r v Hr Hv. destruct r as [|[|r]]; [| |lia]; [destruct Hv as [<-|[<-|[<-|[]]]]|destruct Hv as [<-|[<-|[<-|[<-|[]]]]]]; cbn; lia.
Qed.
Example C49_two_level_example : exists mo,
  all_end_buffered 2 (fun r => createOwnerInformation2 r exBoxes (boxOf exBoxes r) (exReceived r)) mo /\
  one_owner 2 mo 1 /\ one_owner 2 mo 2 /\ one_owner 2 mo 3.
Proof.
  destruct (C49_two_level_one_owner 2 2 exBoxes exReceived exTwo) as (mo & E & _ & _ & O).
  - intros r v Hr Hv Ht. destruct r as [|[|r]]; [| |lia]; [destruct Hv as [<-|[<-|[<-|[]]]]|destruct Hv as [<-|[<-|[<-|[<-|[]]]]]]; try discriminate Ht;
      split; repeat constructor; cbn; discriminate.
  - assert (X : forall r v, r < 2 -> In v (m_verts (exReceived r)) -> v_coords v = [inject_Z (v_glob v); 0%Q]).
    { intros r v Hr Hv. destruct r as [|[|r]]; [| |lia]; [destruct Hv as [<-|[<-|[<-|[]]]]|destruct Hv as [<-|[<-|[<-|[<-|[]]]]]]; reflexivity. }
    intros r s v w Hr Hs Hv Hw Eg. rewrite (X r v), (X s w), Eg; auto.
  - exists mo. split; [exact E|]. split; [|split].
    + apply (O 0); [lia|]. exists (pv 1 1 true). cbn. auto.
    + apply (O 0); [lia|]. exists (pv 2 2 true). cbn. auto.
    + apply (O 1); [lia|]. exists (pv 3 3 true). cbn. auto.
Qed.

(** Without a geometric filter a rank may need vertices outside its box.  Two ranks
    whose boxes do not overlap then both own the vertex they both need. *)
Definition exApart : list box := [MkBox [0; 0]%Q [1; 1]%Q; MkBox [3; 0]%Q [4; 1]%Q].
Definition exBoth (r : nat) : mesh := MkMesh 2 [pv 2 7 true] [] [] [].
Lemma exApart_two : two_level 2 2 exApart exBoth.
Proof.
  split.
  - reflexivity.
  - intros b [<-|[<-|[]]]; repeat split; repeat constructor; cbn; discriminate.
  - intros r v Hr [<-|[]]; reflexivity.
  - intros r Hr. repeat constructor.
  - intros r v Hr [<-|[]]; cbn; lia.
Qed.
Theorem C49_two_level_outside_refuted :
  ~ (forall (n d : nat) (boxes : list box) (m : nat -> mesh), two_level n d boxes m ->
      (forall r s v w, r < n -> s < n -> In v (m_verts (m r)) -> In w (m_verts (m s)) -> v_glob v = v_glob w -> v_coords v = v_coords w) ->
      exists mo, all_end_buffered n (fun r => createOwnerInformation2 r boxes (boxOf boxes r) (m r)) mo /\
        forall r g, r < n -> needs m r g -> one_owner n mo g).
Proof.
  intros H. destruct (H 2 2 exApart exBoth exApart_two) as (mo & E & O).
  { intros r s v w _ _ [<-|[]] [<-|[]] _. reflexivity. }
  specialize (O 0 7%Z ltac:(lia)). destruct O as (v & Ev); [exists (pv 2 7 true); cbn; auto|].
  assert (Em : mo 0 = mo2 2 exApart exBoth 0 /\ mo 1 = mo2 2 exApart exBoth 1).
  { destruct exApart_two as [A B C D F]. pose proof (own2_run 2 2 exApart exBoth A B C) as R. destruct E as [_ P]. unfold boxOf in P.
    assert (L : length (ranks 2 (fun r => createOwnerInformation2 r exApart (nth r exApart (MkBox [] [])) (exBoth r))) = 2) by reflexivity. rewrite L in P.
    specialize (P _ R). destruct P as [P|(l & x & P)].
    - injection P as P0 P1. split; symmetry; assumption.
    - exfalso. revert P. apply finished_no_astep. intros i p Hi.
      destruct i as [|[|i]]; cbn in Hi; [| |destruct i; discriminate]; injection Hi as <-; eexists; split; reflexivity. }
  destruct Em as (E0 & E1). unfold everywhere in Ev. cbn [seq flat_map] in Ev. rewrite E0, E1 in Ev. vm_compute in Ev. discriminate.
Qed.
Print Assumptions C49_two_level_outside_refuted.
