(** Mappings: concrete meshes that meet the hypotheses of T_Map.v. *)
From Coq Require Import ZArith QArith Bool List Arith Lia Lqa.
From Verif Require Import M_Mesh M_Prep M_Box M_Quad M_Map S_Mesh S_Map P_Bary P_Map P_MapFind P_MapTop T_Map.
Import ListNotations.
Open Scope nat_scope.

(** * Searching by looking at everything *)
Fixpoint smallest (f : nat -> Q) (n : nat) : nat :=
  match n with O => 0 | S k => let b := smallest f k in if Qle_bool (f b) (f k) then b else k end.
Lemma smallest_ok f : forall n, 0 < n -> smallest f n < n /\ forall k, k < n -> (f (smallest f n) <= f k)%Q.
Proof.
  induction n as [|n IH]; [lia|]. intros _. cbn [smallest]. destruct n as [|n].
  - cbn. split; [destruct (Qle_bool _ _); lia|]. intros k K. assert (k = 0) as -> by lia. destruct (Qle_bool _ _); apply Qle_refl.
  - destruct (IH ltac:(lia)) as (A & B). destruct (Qle_bool (f (smallest f (S n))) (f (S n))) eqn:E.
    + apply Qle_bool_iff in E. split; [lia|]. intros k K. destruct (Nat.eq_dec k (S n)) as [->|]; auto. apply B. lia.
    + assert (L : (f (S n) < f (smallest f (S n)))%Q).
      { destruct (Qlt_le_dec (f (S n)) (f (smallest f (S n)))) as [|G]; auto. apply Qle_bool_iff in G. congruence. }
      split; [lia|]. intros k K. destruct (Nat.eq_dec k (S n)) as [->|]; [apply Qle_refl|].
      eapply Qle_trans; [apply Qlt_le_weak, L|]. apply B. lia.
Qed.
Definition allV (m : mesh) (u : list Q) : nat := smallest (fun k => sqdist (m_dim m) u (position m k)) (nVertices m).
Definition allE (m : mesh) (u : list Q) (n : nat) : list nat := seq 0 (length (m_edges m)).
Definition allT (m : mesh) (u : list Q) (n : nat) : list nat := seq 0 (length (m_tris m)).
Definition allC (m : mesh) (u : list Q) : list nat := seq 0 (length (m_tets m)).

(** searches that satisfy the hypothesis exist for every mesh *)
Theorem searches_exist : forall m, searches allV allE allT allC m.
Proof.
  intro m. split; try (intros; match goal with H : In _ _ |- _ => apply in_seq in H; lia end).
  intros u LU NE. unfold nearest, allV. apply smallest_ok. unfold nVertices. destruct (m_verts m); cbn; [congruence|lia].
Qed.
Print Assumptions searches_exist.

(** * Two meshes *)
Definition pt (x y : Q) : vertex := MkVertex [x; y] (-1) true false.
Definition square : mesh := MkMesh 2 [pt 0 0; pt 1 0; pt 1 1; pt 0 1] [(0, 1); (1, 2); (2, 3); (0, 3); (0, 2)] [(0, 1, 2); (0, 2, 3)] [].
Definition patch : mesh := MkMesh 2 [pt (1 # 2) (1 # 4); pt (5 # 4) (1 # 2); pt (1 # 4) (3 # 4)] [(0, 1); (1, 2); (0, 2)] [(0, 1, 2)] [].
Definition len1 (m : mesh) (e : nat * nat) : Q := 1.
Definition area2 (m : mesh) (t : nat * nat * nat) : Q :=
  let '(a, b, c) := t in
  let p := position m a in let q := position m b in let r := position m c in
  (absQ ((nth 0 q 0 - nth 0 p 0) * (nth 1 r 0 - nth 1 p 0) - (nth 1 q 0 - nth 1 p 0) * (nth 0 r 0 - nth 0 p 0)) / 2)%Q.
Definition vol0 (m : mesh) (t : nat * nat * nat * nat) : Q := 0.

Ltac each := repeat match goal with H : In _ (_ :: _) |- _ => destruct H as [H|H] | H : In _ [] |- _ => destruct H end.
Ltac pairs := repeat match goal with H : (_, _) = (_, _) |- _ => injection H as ? ?; subst end.

Lemma square_wf : wf_mesh square.
Proof. split; cbn; auto; intros; repeat match goal with H : _ \/ _ |- _ => destruct H as [H|H] end; try contradiction; subst; pairs; subst; cbn; auto; unfold nVertices; cbn; lia. Qed.
Lemma patch_wf : wf_mesh patch.
Proof. split; cbn; auto; intros; repeat match goal with H : _ \/ _ |- _ => destruct H as [H|H] end; try contradiction; subst; pairs; subst; cbn; auto; unfold nVertices; cbn; lia. Qed.

Ltac spread :=
  let cs := fresh "cs" in let L := fresh "L" in let EX := fresh "EX" in let T := fresh "T" in let C := fresh "C" in
  intros (cs & L & EX & T & C); cbn in L;
  destruct cs as [|c0 [|c1 [|c2 [|c3 [|]]]]]; try discriminate L;
  assert (C0 := C 0 (le_n_S _ _ (Nat.le_0_l _))); assert (C1 := C 1 (le_n_S _ _ (le_n_S _ _ (Nat.le_0_l _))));
  try assert (C2 := C 2 (le_n_S _ _ (le_n_S _ _ (le_n_S _ _ (Nat.le_0_l _))))); clear C;
  unfold combo in *; cbn in *;
  repeat match goal with H : Exists _ (_ :: _) |- _ => apply Exists_cons in H; destruct H as [H|H] end;
  try (match goal with H : Exists _ [] |- _ => exact (proj1 (Exists_nil _) H) end);
  match goal with H : ~ _ |- _ => apply H; lra end.
Lemma square_proper : proper_triangles square.
Proof. intros t I. cbn in I. destruct I as [<-|[<-|[]]]; cbn; spread. Qed.
Lemma patch_proper : proper_triangles patch.
Proof. intros t I. cbn in I. destruct I as [<-|[]]; cbn; spread. Qed.

(** a linear scalar field and a vector field with two components on the square *)
Definition heat : list Q := [1; 3; 6; 4]%Q.          (* 1 + 2 x + 3 y *)
Definition flow : list Q := [1; 0; 2; -1; 3; 5; 2; 4]%Q.
Definition tiny : Q := (1 # 1000).

Example hypotheses_hold :
  wf_mesh square /\ wf_mesh patch /\ m_dim patch = m_dim square /\ searches allV allE allT allC square /\
  searches allV allE allT allC patch /\ proper_triangles square /\ proper_triangles patch /\
  sized 1 square heat /\ sized 2 square flow /\ connected true square /\ connected true patch /\
  connected false square /\ connected false patch /\ (0 <= tiny)%Q.
Proof.
  split; [exact square_wf|]. split; [exact patch_wf|]. split; [reflexivity|]. split; [apply searches_exist|].
  split; [apply searches_exist|]. split; [exact square_proper|]. split; [exact patch_proper|].
  repeat (split; [first [reflexivity|discriminate]|]). discriminate.
Qed.

(** C40: all three vertices of the patch take a value of the square *)
Example nn_heat : mapNN len1 area2 vol0 allV Consistent square patch 1 heat (zeros 1 patch) = Some [1; 3; 4]%Q.
Proof. vm_compute. reflexivity. Qed.
Example nn_flow : mapNN len1 area2 vol0 allV Consistent square patch 2 flow (zeros 2 patch) = Some [1; 0; 2; -1; 2; 4]%Q.
Proof. vm_compute. reflexivity. Qed.
(** C41: two vertices of the square go to the same vertex of the patch *)
Example nn_sum : exists out, mapNN len1 area2 vol0 allV Conservative square patch 1 heat (zeros 1 patch) = Some out /\
  Forall2 Qeq out [4; 6; 4]%Q.
Proof. eexists. split; [vm_compute; reflexivity|]. repeat constructor. Qed.
(** C42, C61: nearest projection in two dimensions goes to the edges, cell
    interpolation to the triangles and, outside of them, to the edges *)
Example np_heat : exists out, mapNP tiny len1 area2 vol0 allV allE allT Consistent square patch 1 heat (zeros 1 patch) = Some out /\
  Forall2 Qeq out [23 # 8; 9 # 2; 9 # 2]%Q.
Proof. eexists. split; [vm_compute; reflexivity|]. repeat constructor. Qed.
Example cell_heat : exists out, mapCell tiny len1 area2 vol0 allV allE allT allC Consistent square patch 1 heat (zeros 1 patch) = Some out /\
  Forall2 Qeq out [11 # 4; 9 # 2; 15 # 4]%Q.
Proof. eexists. split; [vm_compute; reflexivity|]. repeat constructor. Qed.
Example np_sum : exists out, mapNP tiny len1 area2 vol0 allV allE allT Conservative square patch 1 heat (zeros 1 patch) = Some out /\
  (total out == total heat)%Q /\ ~ (nth 0 out 0 == 0)%Q.
Proof. eexists. split; [vm_compute; reflexivity|]. split; [vm_compute; reflexivity|]. intro H. vm_compute in H. discriminate. Qed.
(** C44: the values are really scaled *)
Example scaled_heat : exists out, mapNP tiny len1 area2 vol0 allV allE allT ScaledVolume square patch 1 heat (zeros 1 patch) = Some out /\
  (volume_integral area2 vol0 patch (fun i => val 1 out i 0) == volume_integral area2 vol0 square (fun i => val 1 heat i 0))%Q /\
  (volume_integral area2 vol0 square (fun i => val 1 heat i 0) == 7 # 2)%Q.
Proof. eexists. split; [vm_compute; reflexivity|]. split; vm_compute; reflexivity. Qed.
(** C61: the patch's first vertex is in a cell *)
Example in_a_cell : exists cs, cell square 0 = Some cs /\ ~ degenerate 2 cs /\ inside 2 (position patch 0) cs.
Proof.
  eexists. split; [reflexivity|]. split; [cbn; spread|]. exists [1 # 2; 1 # 4; 1 # 4]%Q.
  split; auto. split; [repeat constructor; discriminate|]. split; [reflexivity|].
  intros [|[|k]] K; [reflexivity|reflexivity|lia].
Qed.
Example heat_is_linear : forall j, j < nVertices square -> (val 1 heat j 0 == linear 2 1 [2; 3] (position square j))%Q.
Proof. intros [|[|[|[|j]]]] J; try reflexivity. unfold nVertices in J. cbn in J. lia. Qed.
Example gradient_heat : exists out, mapNNG len1 area2 vol0 allV Consistent square patch 1 heat (repeat [2; 3]%Q 4) = Some out /\
  Forall2 Qeq out [11 # 4; 5; 15 # 4]%Q.
Proof. eexists. split; [vm_compute; reflexivity|]. repeat constructor. Qed.

(** C43: not degenerate, with a point inside and a point outside *)
Example c43_edge : ~ degenerate 2 [[0; 0]; [1; 2]]%Q /\ projects_into 2 [2; 1]%Q [[0; 0]; [1; 2]]%Q.
Proof.
  split; [spread|]. exists [1 # 5; 4 # 5]%Q. split; auto. split; [repeat constructor; discriminate|]. split; [reflexivity|].
  intros p q P R. cbn in P, R. destruct P as [<-|[<-|[]]]; destruct R as [<-|[<-|[]]]; vm_compute; reflexivity.
Qed.
Example c43_outside : exists w0 w1 w2, baryTriangle [0; 0]%Q [1; 0]%Q [0; 1]%Q [2; 2]%Q = Some (w0, w1, w2) /\ (w0 == -3 # 1)%Q.
Proof. repeat eexists; vm_compute; reflexivity. Qed.
Example c43_tetra : ~ degenerate 3 [[0; 0; 0]; [1; 0; 0]; [0; 1; 0]; [0; 0; 1]]%Q.
Proof. spread. Qed.
Example c43_triangle3 : ~ degenerate 3 [[0; 0; 1]; [1; 0; 0]; [0; 1; 0]]%Q.
Proof. spread. Qed.

(** A finding: when the unscaled integral is zero the values are left as they are,
    and the integrals differ. *)
Theorem C44_zero_integral_refuted : exists out,
  mapNN (fun _ _ => 1%Q) (fun _ _ => 1%Q) vol0 allV ScaledVolume square patch 1 [1; -2; 5; 1]%Q (zeros 1 patch) = Some out /\
  (volume_integral (fun _ _ => 1%Q) vol0 patch (fun i => val 1 out i 0) == 0)%Q /\
  ~ (volume_integral (fun _ _ => 1%Q) vol0 square (fun i => val 1 [1; -2; 5; 1]%Q i 0) == 0)%Q.
Proof. eexists. split; [vm_compute; reflexivity|]. split; [vm_compute; reflexivity|]. intro H. vm_compute in H. discriminate. Qed.
Print Assumptions C44_zero_integral_refuted.

(** A finding: in three dimensions edges are looked at only if no triangle is a
    candidate, so that the result need not be the closest element: the target
    vertex is 1/10 away from an edge and the value is taken from a triangle at
    distance 1. *)
Definition pt3 (x y z : Q) : vertex := MkVertex [x; y; z] (-1) true false.
Definition roof : mesh := MkMesh 3 [pt3 0 0 0; pt3 8 0 0; pt3 0 8 0; pt3 1 (-9) (11 # 10); pt3 1 11 (11 # 10)] [(3, 4)] [(0, 1, 2)] [].
Definition probe : mesh := MkMesh 3 [pt3 1 1 1] [] [] [].
Theorem C61_closest_element_refuted : exists p,
  npFind tiny allV allE allT roof (position probe 0) = Some p /\
  map fst (p_elems p) = [0; 1; 2] /\ (p_dist2 p == 1)%Q /\
  projects_into 3 (position probe 0) [position roof 3; position roof 4] /\
  (forall q, inside 3 q [position roof 3; position roof 4] -> (nth 0 q 0 == 1 /\ nth 2 q 0 == 11 # 10)%Q) /\
  inside 3 [1; 1; 11 # 10]%Q [position roof 3; position roof 4] /\ (sqdist 3 (position probe 0) [1; 1; 11 # 10]%Q == 1 # 100)%Q.
Proof.
  eexists. split; [vm_compute; reflexivity|]. split; [reflexivity|]. split; [vm_compute; reflexivity|].
  split; [|split; [|split; [|vm_compute; reflexivity]]].
  - exists [1 # 2; 1 # 2]%Q. split; [reflexivity|]. split; [repeat constructor; discriminate|]. split; [reflexivity|].
    intros p q P R. cbn in P, R. destruct P as [<-|[<-|[]]]; destruct R as [<-|[<-|[]]]; vm_compute; reflexivity.
  - intros q (vs & L & _ & T & C). destruct vs as [|v0 [|v1 [|]]]; try discriminate L.
    assert (C0 := C 0 ltac:(lia)). assert (C2 := C 2 ltac:(lia)). unfold combo in C0, C2. cbn in C0, C2, T.
    split; [rewrite <- C0|rewrite <- C2]; lra.
  - exists [1 # 2; 1 # 2]%Q. split; [reflexivity|]. split; [repeat constructor; discriminate|]. split; [reflexivity|].
    intros [|[|[|k]]] K; try reflexivity. lia.
Qed.
Print Assumptions C61_closest_element_refuted.
