(** C82: products of distributed matrices *)
From Coq Require Import Field QArith Qcanon Bool List Arith Lia.
From Verif Require Import S_Field P_Field M_Cycle S_Cycle P_Cycle.
From Verif Require T_QR.
Import ListNotations.
Close Scope Q_scope. Close Scope Qc_scope. Open Scope nat_scope.

Section T.
Variable F : field.
Implicit Types (a : input F) (result : nat -> nat -> list F) (s t : system F).
Lemma reached a n result s : distributed a -> steps a n (initial result) s -> good F a s.
Proof. intros D H. exact (good_steps F a D n _ _ (good_initial F a result) H). Qed.

(** Round the ring, whatever the order in which ranks go on and messages arrive: no rank ever writes
    out of range of its result or gets a message of another size than that of its buffer *)
Theorem C82_cyclic_safe a n result s : distributed a -> steps a n (initial result) s ->
  forall r, r < i_N a -> at_ (s r) <> Failed.
Proof. intros D H r Hr E. destruct (reached _ _ _ _ D H) as [O _]. destruct (O r Hr) as [K _ _ _ _ _]. rewrite E in K. exact K. Qed.

(** there is no deadlock: as long as not all ranks have finished, some rank or message goes on; at the
    end no message is left *)
Theorem C82_cyclic_progress a n result s : distributed a -> steps a n (initial result) s ->
  (forall r, r < i_N a -> at_ (s r) = Done /\ out (s r) = None /\ inp (s r) = false) \/ exists t, step a s t.
Proof. intros D H. exact (step_dec F a D s (reached _ _ _ _ D H)). Qed.

(** and every execution ends *)
Theorem C82_cyclic_terminates a n result s : distributed a -> steps a n (initial result) s -> n <= i_N a * (4 * i_N a - 1).
Proof.
  intros D H. pose proof (steps_total F a D n _ _ (good_initial F a result) H). pose proof (total_bound F a D s (reached _ _ _ _ D H)). lia.
Qed.

(** a rank that has finished has all rows of the product of the whole left matrix with its part of the
    right matrix *)
Theorem C82_cyclic_result a n result s r : distributed a -> steps a n (initial result) s -> r < i_N a -> at_ (s r) = Done ->
  length (whole a) = i_p a /\
  forall g, g < i_p a -> length (res (s r) g) = i_cols a r /\ forall j, j < i_cols a r -> nth j (res (s r) g) zero = entry (i_q a) (nth g (whole a) []) (i_right a r) j.
Proof.
  intros D H Hr E. split.
  - unfold whole. destruct D as (_ & (_ & Z & R) & P & _). rewrite <- P. clear P E Hr H. assert (Q : forall m, m <= i_N a -> length (flat_map (i_left a) (seq 0 m)) = nth m (i_offsets a) 0); [|apply Q; lia].
    induction m as [|m IH]; intros Hm; [rewrite Z; reflexivity|]. rewrite seq_S, flat_map_app, app_length. cbn [flat_map Nat.add]. rewrite app_nil_r, IH by lia. specialize (R m ltac:(lia)). replace (S m) with (m + 1) by lia. lia.
  - intros g Hg. rewrite (final_rows F a D s r g (reached _ _ _ _ D H) Hr E Hg). unfold rowTimes. rewrite map_length, seq_length. split; [reflexivity|]. intros j Hj.
    rewrite (nth_indep _ zero (entry (i_q a) (nth g (whole a) []) (i_right a r) 0)) by (rewrite map_length, seq_length; exact Hj).
    change (fun j : nat => fsum (i_q a) (fun k => mul (nth k (nth g (whole a) []) zero) (nth j (nth k (i_right a r) []) zero))) with (entry (i_q a) (nth g (whole a) []) (i_right a r)).
    rewrite map_nth, seq_nth by exact Hj. reflexivity.
Qed.

(** so every execution can be continued until all ranks have the product *)
Theorem C82_cyclic_completes a n result s : distributed a -> steps a n (initial result) s ->
  exists m t, steps a m (initial result) t /\ n <= m /\ forall r, r < i_N a -> at_ (t r) = Done /\ out (t r) = None /\ inp (t r) = false.
Proof.
  intros D H. set (b := i_N a * (4 * i_N a - 1)). assert (Q : forall d n s, steps a n (initial result) s -> b < n + d -> exists m t, steps a m (initial result) t /\ n <= m /\ forall r, r < i_N a -> at_ (t r) = Done /\ out (t r) = None /\ inp (t r) = false).
  { induction d as [|d IH]; intros n' s' H' L; pose proof (C82_cyclic_terminates a n' result s' D H') as T; fold b in T; [lia|].
    destruct (C82_cyclic_progress a n' result s' D H') as [E|[t St]]; [exists n', s'; auto|]. destruct (IH (S n') t (steps_S F a n' _ s' t H' St) ltac:(lia)) as (m & u & A & B & C). exists m, u. split; [exact A|]. split; [lia|exact C]. }
  apply (Q (S b) n s H). lia.
Qed.

(** By scalar products: rank [me] gets the rows of the product that are its own, and all of them *)
Theorem C82_dot (a : columns F) n me A B : running (c_N a) n (c_offsets a) -> c_p a = nth (c_N a) (c_offsets a) 0 -> gathers a A B -> me < c_N a ->
  exists m, multiplyDot a me = Some m /\ forall l, l < n me -> exists v, m l = Some v /\ forall j, v j = entryOf a A B (nth me (c_offsets a) 0 + l) j.
Proof.
  intros R P G Hme. destruct (dot_loop F a n me A B R G Hme (seq 0 (c_p a)) (fun _ => None)) as (m & E & H).
  - intros i Hi. apply in_seq in Hi. lia.
  - exists m. split; [exact E|]. intros l Hl. destruct (H l Hl) as [H1 _]. apply H1. apply in_seq. split; [lia|]. rewrite P. cbn [Nat.add].
    pose proof (running_mono _ _ _ R (me + 1) (c_N a - (me + 1)) ltac:(lia)) as M. replace (me + 1 + (c_N a - (me + 1))) with (c_N a) in M by lia. destruct R as (_ & _ & R). rewrite R in M by exact Hme. lia.
Qed.
(** if the left matrix has more rows than the ranks have together, the search for the owner runs out of
    the offsets *)
Theorem C82_dot_rows (a : columns F) n me : running (c_N a) n (c_offsets a) -> nth (c_N a) (c_offsets a) 0 < c_p a -> multiplyDot a me = None.
Proof.
  intros R L. unfold multiplyDot. set (m := fun _ : nat => None). clearbody m. assert (I : In (nth (c_N a) (c_offsets a) 0) (seq 0 (c_p a))) by (apply in_seq; lia). revert m I. induction (seq 0 (c_p a)) as [|i is IH]; intros m I; [destruct I|].
  cbn [dotLoop]. destruct I as [->|I].
  - rewrite (find_none _ _ _ _ R); [reflexivity|lia|lia].
  - destruct (findRank _ i 0 _); [apply IH, I|reflexivity].
Qed.

(** By blocks: every rank gets its rows, in order; the primary rank sends exactly if the other one
    waits for a message *)
Theorem C82_blocks (a : columns F) n me A B : running (c_N a) n (c_offsets a) -> gathers a A B -> me < c_N a ->
  length (multiplyBlocks a me) = n me /\ isSent a me = isReceived a (n me) /\
  forall l v, nth_error (multiplyBlocks a me) l = Some v -> forall j, v j = entryOf a A B (nth me (c_offsets a) 0 + l) j.
Proof.
  intros R G Hme. destruct (blocks_ok F a n me A B R G Hme) as [L V]. split; [exact L|]. split; [|exact V]. unfold isSent, isReceived, sendRows. destruct R as (_ & _ & R). rewrite R by exact Hme. replace (_ + n me - _) with (n me) by lia. reflexivity.
Qed.

(** Small products: every rank gets all of it *)
Theorem C82_small (a : columns F) A B i j : gathers a A B -> multiplySmall a i j = entryOf a A B i j.
Proof. intros G. apply sum_local, G. Qed.
End T.
Print Assumptions C82_cyclic_safe.
Print Assumptions C82_cyclic_progress.
Print Assumptions C82_cyclic_terminates.
Print Assumptions C82_cyclic_result.
Print Assumptions C82_cyclic_completes.
Print Assumptions C82_dot.
Print Assumptions C82_dot_rows.
Print Assumptions C82_blocks.
Print Assumptions C82_small.

(** * Examples: four ranks, of which one has no rows *)
Section Examples.
Notation Qf := T_QR.rationals.
Definition q (z : nat) : Qf := Q2Qc (Z.of_nat z # 1).
Definition lefts (r : nat) : list (list Qf) := match r with 0 => [[q 1; q 2]; [q 3; q 4]] | 2 => [[q 5; q 6]] | 3 => [[q 7; q 8]; [q 1; q 0]; [q 0; q 1]] | _ => [] end.
Definition rights (r : nat) : list (list Qf) := match r with 0 => [[q 1; q 2]; [q 0; q 1]] | 1 => [[]; []] | 2 => [[q 1]; [q 1]] | _ => [[q 2; q 0; q 1]; [q 1; q 1; q 1]] end.
Definition ring4 : input Qf := Input 4 [0; 2; 2; 3; 6] 2 6 lefts rights (fun r => match r with 0 => 2 | 1 => 0 | 2 => 1 | _ => 3 end).
Lemma ring4_ok : distributed ring4.
Proof.
  split; [cbn; lia|]. split; [|split].
  - split; [reflexivity|]. split; [reflexivity|]. intros k Hk. cbn in Hk. do 4 (destruct k as [|k]; [reflexivity|]). lia.
  - reflexivity.
  - intros r Hr. cbn in Hr. do 4 (destruct r as [|r]; [repeat constructor|]). lia.
Qed.
(** all executions end with the product at all ranks: for example row 5 of rank 3 *)
Example ring4_ends : exists n t, steps ring4 n (initial (fun _ _ => [])) t /\ n <= 60 /\ at_ (t 3) = Done /\ map (fun j => nth j (res (t 3) 3) zero) [0; 1; 2] = [q 22; q 8; q 15].
Proof.
  destruct (C82_cyclic_completes Qf ring4 0 (fun _ _ => []) _ ring4_ok (steps_0 _ _ _)) as (m & t & St & _ & E). exists m, t. split; [exact St|].
  split; [apply (C82_cyclic_terminates Qf ring4 m _ t ring4_ok St)|]. destruct (E 3 ltac:(cbn; lia)) as [D _]. split; [exact D|].
  destruct (C82_cyclic_result Qf ring4 m _ t 3 ring4_ok St ltac:(cbn; lia) D) as [_ V]. destruct (V 3 ltac:(cbn; lia)) as [_ V'].
  cbn [map]. rewrite !V' by (cbn; lia). unfold entry. repeat f_equal; apply Qc_is_canon; reflexivity.
Qed.
(** rank 2 goes on first, its message waits until rank 3 is there *)
Example ring4_order : exists t, steps ring4 3 (initial (fun _ _ => [])) t /\ at_ (t 2) = Wait1 1 /\ out (t 2) = None /\ inp (t 2) = false /\ rcv (t 3) = lefts 2 /\ at_ (t 0) = Begin.
Proof.
  set (s0 := initial (fun _ _ => []) : system Qf). set (s1 := put s0 2 (begin ring4 2 (s0 2))). set (s2 := put s1 3 (begin ring4 3 (s1 3))).
  assert (H1 : step ring4 s0 s1) by (apply step_act; [cbn; lia|reflexivity]). assert (H2 : step ring4 s1 s2) by (apply step_act; [cbn; lia|reflexivity]).
  pose proof (step_transfer Qf ring4 s2 2 (lefts 2) ltac:(cbn; lia) eq_refl eq_refl) as H3.
  eexists. split; [eapply steps_S; [eapply steps_S; [eapply steps_S; [apply steps_0|exact H1]|exact H2]|exact H3]|]. split; [reflexivity|]. split; [reflexivity|]. split; [reflexivity|]. split; reflexivity.
Qed.

(** three ranks with 2, 0 and 1 columns of the left matrix, and 1, 0 and 2 rows of the result *)
Definition wide : columns Qf := Columns 3 [0; 1; 1; 3] (fun k => match k with 0 => 2 | 1 => 0 | _ => 1 end) 3 2 (fun k i e => q (i + 3 * k + e)) (fun k e j => q (1 + k + 2 * e + j)).
Definition wideLeft (i c : nat) : Qf := match c with 0 => q i | 1 => q (i + 1) | _ => q (i + 6) end.
Definition wideRight (c j : nat) : Qf := match c with 0 => q (1 + j) | 1 => q (3 + j) | _ => q (3 + j) end.
Lemma wide_running : running (c_N wide) (fun k => match k with 0 => 1 | 1 => 0 | _ => 2 end) (c_offsets wide).
Proof. split; [reflexivity|]. split; [reflexivity|]. intros k Hk. cbn in Hk. do 3 (destruct k as [|k]; [reflexivity|]). lia. Qed.
Lemma wide_gathers : gathers wide wideLeft wideRight.
Proof.
  intros k e Hk He. cbn in Hk, He. destruct k as [|[|[|k]]]; [| | |lia].
  - destruct e as [|[|e]]; [| |lia]; (split; intros x); cbn; f_equal; lia.
  - lia.
  - destruct e as [|e]; [|lia]. split; intros x; cbn; f_equal; lia.
Qed.
Example wide_dot : exists m v, multiplyDot wide 2 = Some m /\ m 1 = Some v /\ v 1 = q 48.
Proof.
  destruct (C82_dot Qf wide _ 2 _ _ wide_running eq_refl wide_gathers ltac:(cbn; lia)) as (m & E & H). destruct (H 1 ltac:(lia)) as (v & V & W). exists m, v. split; [exact E|]. split; [exact V|]. rewrite W. apply Qc_is_canon. reflexivity.
Qed.
Example wide_blocks : length (multiplyBlocks wide 2) = 2 /\ isSent wide 1 = false /\ isReceived wide 0 = false.
Proof. split; [|split; reflexivity]. apply (C82_blocks Qf wide _ 2 _ _ wide_running wide_gathers). cbn. lia. Qed.
End Examples.
