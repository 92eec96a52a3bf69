(** Nearest neighbour with gradients: proofs. *)
From Coq Require Import ZArith QArith Bool List Arith Lia Lqa Qfield.
From Verif Require Import M_Mesh M_Prep M_Box M_Quad M_Map S_Mesh S_Map P_Bary P_Map P_MapFind P_MapTop.
Import ListNotations.
Open Scope nat_scope.

Lemma nngLoop_spec dims inp gradients : forall indices offsets i,
  length offsets = length indices ->
  Forall (fun j => j * dims + dims <= length inp /\ j * dims + dims <= length gradients) indices ->
  exists out, nngLoop dims i indices offsets inp gradients = Some out /\ length out = length indices * dims /\
  forall k d j o, d < dims -> nth_error indices k = Some j -> nth_error offsets k = Some o ->
  (val dims out k d == val dims inp j d + vdot o (nth (j * dims + d) gradients []))%Q.
Proof.
  induction indices as [|j r IH]; intros offsets i L F; cbn [nngLoop].
  - exists []. split; auto. split; auto. intros [|k] d j o D E; discriminate.
  - destruct offsets as [|o ro]; [discriminate|]. inversion F as [|j' r' (H1 & H2) Hr]; subst.
    destruct (segment_some dims j inp H1) as (c & -> & LC & VC). rewrite (proj2 (Nat.leb_le _ _) H2).
    destruct (IH ro (S i)) as (out & E & LO & V); [cbn in L; lia|auto|]. rewrite E. cbn [option_map].
    set (h := fun d => (nth d c 0 + vdot o (nth (j * dims + d) gradients []))%Q).
    exists (map h (seq 0 dims) ++ out). split; auto. split.
    { rewrite app_length, map_length, seq_length, LO. cbn. lia. }
    intros k d j0 o0 D EJ EO. unfold val.
    destruct k as [|k]; cbn in EJ, EO.
    + injection EJ as <-. injection EO as <-. cbn [Nat.mul Nat.add].
      rewrite app_nth1 by (rewrite map_length, seq_length; auto).
      rewrite (nth_indep _ 0%Q (h 0)) by (rewrite map_length, seq_length; auto).
      rewrite (map_nth h), seq_nth by auto. cbn [Nat.add]. unfold h. rewrite VC by auto. reflexivity.
    + rewrite app_nth2 by (rewrite map_length, seq_length; nia). rewrite map_length, seq_length.
      replace (S k * dims + d - dims) with (k * dims + d) by nia. exact (V k d j0 o0 D EJ EO).
Qed.

Lemma offsets_nth o s l k j : nth_error l k = Some j ->
  nth_error (offsetsMatched o s l) k = Some (vsub (position o k) (position s j)).
Proof.
  intro E. unfold offsetsMatched.
  assert (C : nth_error (combine (seq 0 (length l)) l) k = Some (k, j)).
  { assert (K : k < length l) by (apply nth_error_Some; congruence).
    assert (G : forall (l : list nat) i k j, nth_error l k = Some j -> nth_error (combine (seq i (length l)) l) k = Some (i + k, j)).
    { clear. induction l as [|x l IH]; intros i [|k] j H; cbn in *; try discriminate.
      - injection H as <-. rewrite Nat.add_0_r. reflexivity.
      - rewrite (IH (S i) k j H). f_equal. f_equal. lia. }
    rewrite (G l 0 k j E). reflexivity. }
  rewrite (map_nth_error _ _ _ C). reflexivity.
Qed.
