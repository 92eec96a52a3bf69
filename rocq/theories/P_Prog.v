From Coq Require Import List Bool.
From Verif Require Import M_Net S_Prog.
Import ListNotations.

Lemma returns_bind {M A B} (p : proc M A) (f : A -> proc M B) b :
  returns (bind p f) b <-> exists a, returns p a /\ returns (f a) b.
Proof.
  induction p as [x|e|d m p IH|s k IH]; cbn.
  - split; [intros H; exists x; auto | intros (a & -> & H); exact H].
  - split; [tauto | intros (a & [] & _)].
  - exact IH.
  - split.
    + intros (m & H). apply IH in H as (a & H1 & H2). exists a; split; auto. exists m; exact H1.
    + intros (a & (m & H1) & H2). exists m. apply IH. exists a; auto.
Qed.

Lemma fails_bind {M A B} (p : proc M A) (f : A -> proc M B) e :
  fails (bind p f) e <-> fails p e \/ exists a, returns p a /\ fails (f a) e.
Proof.
  induction p as [x|e'|d m p IH|s k IH]; cbn.
  - split; [intros H; right; exists x; auto | intros [[]|(a & -> & H)]; exact H].
  - split; [tauto | intros [H|(a & [] & _)]; exact H].
  - exact IH.
  - split.
    + intros (m & H). apply IH in H as [H|(a & H1 & H2)]; [left; exists m; exact H|].
      right; exists a; split; auto. exists m; exact H1.
    + intros [(m & H)|(a & (m & H1) & H2)]; exists m; apply IH; [left; auto|right; exists a; auto].
Qed.

Lemma returns_send {M} d (m : M) a : returns (send d m) a -> a = tt.
Proof. cbn. intros <-. reflexivity. Qed.

(** run a program on given incoming messages *)
Fixpoint feed {M A} (p : proc M A) (l : list M) : option A :=
  match p with
  | PRet a => Some a
  | PErr _ => None
  | PSend _ _ k => feed k l
  | PRecv _ k => match l with [] => None | m :: r => feed (k m) r end
  end.

Lemma feed_returns {M A} (p : proc M A) : forall l a, feed p l = Some a -> returns p a.
Proof.
  induction p as [x|e|d m p IH|s k IH]; intros l a H; cbn in *.
  - congruence.
  - discriminate H.
  - eapply IH; exact H.
  - destruct l as [|m r]; [discriminate H|]. exists m. eapply IH; exact H.
Qed.
