(** More vectors than entries are linearly dependent. *)
From Coq Require Import Field Field_theory List Arith Lia Bool.
From Verif Require Import S_Field P_Field.
Import ListNotations.

Section D.
Variable F : field.
Add Field KD : (K_theory F).
Local Infix "+" := (@add F). Local Infix "*" := (@mul F). Local Infix "-" := (@sub F). Local Notation "0" := (@zero F). Local Notation "1" := (@one F).

Definition skip (j i : nat) : nat := if i <? j then i else S i.
Lemma skip_ne j i : skip j i <> j.
Proof. unfold skip. destruct (Nat.ltb_spec i j); lia. Qed.
Lemma skip_lt j i n : i < n -> skip j i < S n.
Proof. unfold skip. destruct (Nat.ltb_spec i j); lia. Qed.
Lemma skip_onto j k n : k < S n -> k <> j -> j < S n -> exists i, i < n /\ k = skip j i.
Proof.
  intros A B C. unfold skip. destruct (lt_dec k j) as [L|L].
  - exists k. destruct (Nat.ltb_spec k j); lia.
  - exists (pred k). destruct (Nat.ltb_spec (pred k) j); lia.
Qed.
Lemma fsum_skip n j (f : nat -> F) : j < S n -> fsum (S n) f = f j + fsum n (fun i => f (skip j i)).
Proof.
  revert j. induction n as [|n IH]; intros j Hj.
  - assert (j = O) by lia. subst j. cbn [fsum]. ring.
  - destruct (Nat.eq_dec j (S n)) as [->|N].
    + transitivity (fsum (S n) f + f (S n)); [reflexivity|]. rewrite (fsum_ext F (S n) (fun i => f (skip (S n) i)) f); [ring|].
      intros k Hk. unfold skip. destruct (Nat.ltb_spec k (S n)); [reflexivity|lia].
    + transitivity (fsum (S n) f + f (S n)); [reflexivity|]. rewrite (IH j) by lia.
      transitivity (f j + (fsum n (fun i => f (skip j i)) + f (skip j n))); [|reflexivity].
      assert (E : skip j n = S n) by (unfold skip; destruct (Nat.ltb_spec n j); lia). rewrite E. ring.
Qed.

Lemma search (P : nat -> Prop) n : (forall j, P j \/ ~ P j) -> (exists j, j < n /\ P j) \/ (forall j, j < n -> ~ P j).
Proof.
  intros D. induction n as [|n [[j [A B]]|IH]].
  - right. intros. lia.
  - left. exists j. split; [lia|exact B].
  - destruct (D n) as [H|H]; [left; exists n; split; [lia|exact H]|right; intros j Hj].
    destruct (Nat.eq_dec j n) as [->|N]; [exact H|apply IH; lia].
Qed.

Lemma dependent n : forall vs : nat -> nat -> F, exists c : nat -> F, (exists j, j < S n /\ c j <> 0) /\ forall e, e < n -> fsum (S n) (fun j => c j * vs j e) = 0.
Proof.
  induction n as [|n IH]; intros vs.
  - exists (fun _ => 1). split; [exists O; split; [lia|apply (F_1_neq_0 (K_theory F))]|intros; lia].
  - destruct (search (fun j => vs j n <> 0) (S (S n))) as [[j [Hj Nz]]|All].
    { intros j. destruct (dec_zero F (vs j n)) as [E|E]; [right; intros C; exact (C E)|left; exact E]. }
    + destruct (IH (fun i e => vs (skip j i) e - div (vs (skip j i) n) (vs j n) * vs j e)) as [c [[i [Hi Ci]] Hc]].
      set (cj := fsum (S n) (fun i => c i * div (vs (skip j i) n) (vs j n))).
      exists (fun k => if k =? j then 0 - cj else c (if k <? j then k else pred k)).
      assert (Sk : forall i, (if skip j i <? j then skip j i else pred (skip j i)) = i).
      { intros i0. unfold skip. destruct (Nat.ltb_spec i0 j) as [L|L]; [destruct (Nat.ltb_spec i0 j)|destruct (Nat.ltb_spec (S i0) j)]; lia. }
      split.
      * exists (skip j i). split; [apply skip_lt; exact Hi|]. rewrite (proj2 (Nat.eqb_neq _ _) (skip_ne j i)), Sk. exact Ci.
      * intros e He. rewrite (fsum_skip (S n) j) by exact Hj. rewrite Nat.eqb_refl.
        rewrite (fsum_ext F (S n) _ (fun i => c i * vs (skip j i) e)).
        2: { intros k Hk. rewrite (proj2 (Nat.eqb_neq _ _) (skip_ne j k)), Sk. reflexivity. }
        destruct (Nat.eq_dec e n) as [->|N].
        -- rewrite (fsum_ext F (S n) _ (fun i => c i * div (vs (skip j i) n) (vs j n) * vs j n)).
           2: { intros k Hk. field. exact Nz. }
           rewrite fsum_scale_r. fold cj. ring.
        -- assert (He' : e < n) by lia. specialize (Hc e He').
           rewrite (fsum_ext F (S n) _ (fun i => c i * (vs (skip j i) e - div (vs (skip j i) n) (vs j n) * vs j e) + c i * div (vs (skip j i) n) (vs j n) * vs j e)).
           2: { intros k Hk. ring. }
           rewrite fsum_plus, Hc, fsum_scale_r. fold cj. ring.
    + destruct (IH vs) as [c [[i [Hi Ci]] Hc]]. exists (fun k => if k =? S n then 0 else c k). split.
      * exists i. split; [lia|]. destruct (Nat.eqb_spec i (S n)); [lia|exact Ci].
      * intros e He. transitivity (fsum (S n) (fun j => (if j =? S n then 0 else c j) * vs j e) + (if S n =? S n then 0 else c (S n)) * vs (S n) e); [reflexivity|].
        rewrite Nat.eqb_refl. rewrite (fsum_ext F (S n) _ (fun j => c j * vs j e)).
        2: { intros k Hk. destruct (Nat.eqb_spec k (S n)); [lia|reflexivity]. }
        destruct (Nat.eq_dec e n) as [->|N]; [|rewrite Hc by lia; ring].
        rewrite fsum_zero; [ring|]. intros k Hk. destruct (dec_zero F (vs k n)) as [E|E]; [rewrite E; ring|].
        exfalso. apply (All k); [lia|exact E].
Qed.
End D.
