(** C84: the steps in time the quasi-Newton acceleration works with *)
From Coq Require Import List Arith Bool ZArith QArith Qcanon Lqa Lia.
From Verif Require Import M_Grid S_Grid P_Grid.
Import ListNotations.
Open Scope list_scope.
Open Scope nat_scope.

(** Whatever windows and iterations there are: no access is out of bounds and no assertion fails, the
    vectors have the values of all data at the steps of the first window, moved to the current one, and
    nothing else, and the data have these steps and the updated values afterwards *)
Theorem C84_history (eps : Qc) (V : Type) (zero : V) (interp : wave -> Qc -> list V) (relax : list V -> list V -> list V) : (0 <= eps)%Qc ->
  (forall w t k, w <> [] -> Forall (fun p => length (snd p) = k) w -> length (interp w t) = k) ->
  forall n ids prim reduced force evs, NoDup ids -> incl prim ids -> possible eps n ids begin evs ->
  exists outs, run eps zero interp relax (start ids prim reduced force) evs = Some outs /\ asExpected interp relax n ids prim reduced force begin evs outs.
Proof. intros E0 IL n ids prim reduced force evs ND Sub P. exact (run_ok eps E0 zero interp relax IL n ids prim reduced force ND Sub evs _ _ (inv_start n ids prim reduced force) P). Qed.

(** The moved steps begin and end with the window, are as many as in the first one and have the same
    relative distances *)
Theorem C84_steps l a b : (hd 0 l < last l 0)%Qc -> placed (relative l) (hd 0%Qc l, last l 0%Qc) = l /\ length (placed (relative l) (a, b)) = length l /\ hd 0%Qc (placed (relative l) (a, b)) = a /\ last (placed (relative l) (a, b)) 0%Qc = b /\
  forall i j, i < length l -> j < length l -> ((nth i (placed (relative l) (a, b)) 0 - nth j (placed (relative l) (a, b)) 0) * (last l 0 - hd 0 l) = (nth i l 0 - nth j l 0) * (b - a))%Qc.
Proof.
  intros L. assert (N : l <> []) by (intros ->; cbn [hd last] in L; q). pose proof (Qc_nz _ _ L) as D.
  assert (P : forall u v, placed (relative l) (u, v) = map (fun t => u + (t - hd 0 l) / (last l 0 - hd 0 l) * (v - u))%Qc l) by (intros u v; unfold placed, relative; rewrite map_map; reflexivity).
  split; [|split; [|split; [|split]]].
  - rewrite P. transitivity (map (fun t : Qc => t) l); [|apply map_id]. apply map_ext. intros t. field. exact D.
  - rewrite P. apply map_length.
  - rewrite P. destruct l as [|x r]; [congruence|]. cbn [hd map]. cbn [hd] in D. field. exact D.
  - rewrite P. rewrite (map_last _ _ 0%Qc) by exact N. field. exact D.
  - intros i j I J. rewrite P. rewrite (nth_indep _ _ (a + (0 - hd 0 l) / (last l 0 - hd 0 l) * (b - a))%Qc) by (rewrite map_length; exact I). rewrite (nth_indep (n := j) _ _ (a + (0 - hd 0 l) / (last l 0 - hd 0 l) * (b - a))%Qc) by (rewrite map_length; exact J).
    rewrite !(map_nth (fun t => a + (t - hd 0 l) / (last l 0 - hd 0 l) * (b - a))%Qc). field. exact D.
Qed.

Lemma flat_hits {V} (interp : @wave V -> Qc -> list V) w (l : @wave V) : (forall p, In p l -> interp w (fst p) = snd p) -> flat_map (interp w) (times l) = flat_map snd l.
Proof. induction l as [|p q IH]; intros H; [reflexivity|]. unfold times in *. cbn [map flat_map]. rewrite (H p) by (left; reflexivity). f_equal. apply IH. intros p' Q. apply H. right. exact Q. Qed.
(** Data with these steps are left alone by an update that changes nothing *)
Theorem C84_identity (V : Type) (interp : wave -> Qc -> list V) (relax : list V -> list V -> list V) n ids prim reduced force y m t f s m' :
  (forall id p, In id ids -> In p (waveOf m id) -> interp (waveOf m id) (fst p) = snd p) -> (forall id, In id ids -> times (waveOf m id) = t :: steps y id /\ Forall (fun p => length (snd p) = n id) (waveOf m id)) ->
  first y && (unset y || force) = false -> f (gathered interp (waveOf m) ids (steps y)) = gathered interp (waveOf m) ids (steps y) ->
  output interp relax n ids prim reduced force y (Iterate m t f) s m' -> forall id, In id ids -> waveOf m' id = waveOf m id.
Proof.
  intros Hit Ts Rx Fi O. unfold output in O. cbn [mapIn] in O. rewrite Rx in O. destruct O as (_ & _ & _ & _ & Fl & W & _). rewrite Fi in Fl. unfold gathered in Fl.
  assert (K : forall l, (forall id, In id l -> In id ids) -> flat_map (fun id => flat_map snd (tl (waveOf m' id))) l = flat_map (fun id => flat_map (interp (waveOf m id)) (steps y id)) l -> forall id, In id l -> waveOf m' id = waveOf m id); [|apply K; auto].
  induction l as [|i r IH]; intros I E id J; [contradiction|]. cbn [flat_map] in E. destruct (W i (I i (or_introl eq_refl))) as (W1 & W2 & _ & W4). destruct (Ts i (I i (or_introl eq_refl))) as [T1 T2]. pose proof (Hit i) as Hi.
  assert (B : flat_map (interp (waveOf m i)) (steps y i) = flat_map snd (tl (waveOf m i))).
  { assert (H : forall p, In p (tl (waveOf m i)) -> interp (waveOf m i) (fst p) = snd p) by (intros p Q; apply Hi; [apply I; left; reflexivity|destruct (waveOf m i); [contradiction|right; exact Q]]). replace (steps y i) with (times (tl (waveOf m i))) by (destruct (waveOf m i) as [|p0 w]; [discriminate T1|]; injection T1 as _ T1; exact T1). apply flat_hits, H. }
  rewrite B in E. assert (Eq : waveOf m' i = waveOf m i /\ flat_map (fun id => flat_map snd (tl (waveOf m' id))) r = flat_map (fun id => flat_map (interp (waveOf m id)) (steps y id)) r).
  { destruct (waveOf m' i) as [|p' w'] eqn:E1; [discriminate W1|]. destruct (waveOf m i) as [|p w] eqn:E2; [discriminate T1|]. cbn [hd_error] in W2. injection W2 as ->. cbn [tl] in E. assert (TT : times w' = times w) by (cbn [times map] in W1, T1; injection W1 as _ W1; injection T1 as _ T1; unfold times; congruence).
    apply Forall_inv_tail in W4, T2. assert (X : w' = w /\ flat_map (fun id => flat_map snd (tl (waveOf m' id))) r = flat_map (fun id => flat_map (interp (waveOf m id)) (steps y id)) r); [|destruct X as [-> X]; auto]. revert E. generalize (flat_map (fun id => flat_map snd (tl (waveOf m' id))) r) (flat_map (fun id => flat_map (interp (waveOf m id)) (steps y id)) r). clear - W4 T2 TT. revert w T2 TT.
    induction w' as [|[t1 x1] w' IH]; intros [|[t2 x2] w] T2 TT a b E; try discriminate TT; [auto|]. cbn [times map fst] in TT. injection TT as -> TT. cbn [flat_map snd] in E. rewrite <- !app_assoc in E. pose proof (Forall_inv W4) as L1. pose proof (Forall_inv T2) as L2. cbn [snd] in L1, L2.
    assert (X : x1 = x2 /\ flat_map snd w' ++ a = flat_map snd w ++ b). { clear - E L1 L2. rewrite <- L2 in L1. clear L2. revert x2 L1 E. induction x1 as [|u x1 IH]; intros [|u2 x2] L E; try discriminate L; [auto|]. cbn [app] in E. injection E as -> E. injection L as L. destruct (IH x2 L E) as [-> H]. auto. }
    destruct X as [-> X]. destruct (IH (Forall_inv_tail W4) w (Forall_inv_tail T2) TT a b X) as [-> Y]. auto. }
  destruct Eq as [Q1 Q2]. destruct J as [<-|J]; [exact Q1|]. apply IH; auto. intros k Hk. apply I. right. exact Hk.
Qed.

(** The numbers of unknowns of the ranks agree with the offsets: [count id r]: the vertices of rank r *)
Theorem C84_offsets ids (count : nat -> nat -> nat) offsets dims steps r : (forall id i, i <= r -> nth i (offsets id) 0 = list_sum (map (count id) (seq 0 (S i)))) ->
  dimOffset ids offsets dims steps (S r) = dimOffset ids offsets dims steps r + list_sum (map (fun id => steps id * (count id r * dims id)) ids).
Proof.
  intros O. assert (K : forall g k l, fold_left (fun sum (id : nat) => sum + g id) l k = k + list_sum (map g l)). { intros g k l. revert k. induction l as [|i l IH]; intros k; cbn; [lia|]. rewrite IH. unfold list_sum. lia. }
  unfold dimOffset. rewrite (K (fun id => nth r (offsets id) 0 * dims id * steps id)). destruct r as [|r].
  - cbn [Nat.add]. f_equal. apply map_ext. intros id. rewrite (O id 0) by lia. cbn. lia.
  - rewrite (K (fun id => nth r (offsets id) 0 * dims id * steps id)). cbn [Nat.add]. induction ids as [|id l IH]; [reflexivity|]. cbn [map list_sum fold_right]. unfold list_sum in IH. rewrite IH. rewrite (O id (S r)), (O id r) by lia. rewrite (seq_S (S r)), map_app, list_sum_app. cbn [map list_sum fold_right Nat.add]. lia.
Qed.

(** * Linear interpolation *)
Definition mix (s u t : Qc) (x y : list Qc) : list Qc := map (fun p => (fst p + (snd p - fst p) * ((t - s) / (u - s)))%Qc) (combine x y).
Fixpoint lin (w : list (Qc * list Qc)) (t : Qc) : list Qc :=
  match w with [] => [] | (s, x) :: r => match r with [] => x | (u, y) :: _ => if ltb u t then lin r t else mix s u t x y end end.
Theorem lin_length w t k : w <> [] -> Forall (fun p => length (snd p) = k) w -> length (lin w t) = k.
Proof.
  induction w as [|[s x] r IH]; intros N H; [congruence|]. pose proof (Forall_inv H) as L. cbn [snd] in L. cbn [lin]. destruct r as [|[u y] r']; [exact L|]. destruct (ltb u t); [apply IH; [discriminate|exact (Forall_inv_tail H)]|].
  pose proof (Forall_inv (Forall_inv_tail H)) as L2. cbn [snd] in L2. unfold mix. rewrite map_length, combine_length. lia.
Qed.
Definition half x y : list Qc := map (fun p => ((fst p + snd p) / (1 + 1))%Qc) (combine x y).

(** * What goes wrong *)
Definition z (n : Z) : Qc := Q2Qc (inject_Z n).
Definition h (n : Z) : Qc := Q2Qc (n # 2).
Definition single (l : list (Qc * Qc)) : @dataMap Qc := [(7, Data 1 (map (fun p => (fst p, [snd p])) l) [(z 0, [z 0])])].
(** the first window is done in one step, the second one in two: what was written at the first of them is
    lost, although the update changes nothing *)
Definition adaptive : list (@event Qc) := [Iterate (single [(z 0, z 0); (z 1, z 1)]) (z 0) (fun v => v); Converge (single [(z 0, z 0); (z 1, z 1)]) (z 0); Iterate (single [(z 1, z 0); (h 3, z 5); (z 2, z 1)]) (z 1) (fun v => v)].
Definition lost (r : option (list (@qn Qc * @dataMap Qc))) : bool :=
  match r with Some [_; _; (_, m')] => match lin (waveOf m' 7) (h 3), length (waveOf m' 7) with [v], 2 => eqb v (h 1) | _, _ => false end | _ => false end.
Lemma lost_spec r : lost r = true -> exists o1 o2 s m', r = Some [o1; o2; (s, m')] /\ lin (waveOf m' 7) (h 3) = [h 1] /\ length (waveOf m' 7) = 2.
Proof.
  intros H. destruct r as [[|o1 [|o2 [|[s m'] [|? ?]]]]|]; try discriminate H. exists o1, o2, s, m'. split; [reflexivity|]. unfold lost in H. destruct (lin (waveOf m' 7) (h 3)) as [|v [|? ?]]; try discriminate H. destruct (length (waveOf m' 7)) as [|[|[|k]]]; try discriminate H. unfold eqb in H. destruct (Qc_eq_dec v (h 1)) as [->|_]; [auto|discriminate H].
Qed.
Theorem C84_adaptive_refuted : exists o1 o2 s m', run (z 0) (z 0) lin half (start [7] [7] false false) adaptive = Some [o1; o2; (s, m')] /\ lin (waveOf (single [(z 1, z 0); (h 3, z 5); (z 2, z 1)]) 7) (h 3) = [z 5] /\ lin (waveOf m' 7) (h 3) = [h 1].
Proof.
  destruct (lost_spec (run (z 0) (z 0) lin half (start [7] [7] false false) adaptive)) as (o1 & o2 & s & m' & E & L & _); [vm_compute; reflexivity|]. exists o1, o2, s, m'. split; [exact E|]. split; [|exact L].
  cbn [single waveOf at_ Nat.eqb d_wave map fst snd lin]. unfold mix. destruct (ltb (h 3) (h 3)) eqn:X; [apply ltb_lt in X; q|]. cbn [combine map fst snd]. f_equal.
Qed.
(** a window shorter than the tolerance times the number of steps: steps are left out, so the values of
    the second data take the place of those of the first one, and old values stay behind *)
Definition both (l : list (Qc * Qc)) (k : list (Qc * Qc)) : @dataMap Qc := single l ++ [(8, Data 1 (map (fun p => (fst p, [snd p])) k) [(z 0, [z 0])])].
Definition short : list (@event Qc) := [Iterate (both [(z 0, z 0); (z 2, z 11); (z 4, z 12)] [(z 0, z 0); (z 2, z 21); (z 4, z 22)]) (z 0) (fun v => v); Converge (both [(z 0, z 0); (z 2, z 11); (z 4, z 12)] [(z 0, z 0); (z 2, z 21); (z 4, z 22)]) (z 0);
  Converge (both [(z 4, z 12); (z 6, z 34)] [(z 4, z 22); (z 6, z 44)]) (z 4)].
Definition misplaced (r : option (list (@qn Qc * @dataMap Qc))) : bool :=
  match r with Some [_; _; (s, _)] => match q_values s with [a; b; c; d] => eqb a (z 34) && eqb b (z 44) && eqb c (z 21) && eqb d (z 22) | _ => false end | _ => false end.
Lemma misplaced_spec r : misplaced r = true -> exists o1 o2 s m', r = Some [o1; o2; (s, m')] /\ q_values s = [z 34; z 44; z 21; z 22].
Proof.
  intros H. destruct r as [[|o1 [|o2 [|[s m'] [|? ?]]]]|]; try discriminate H. exists o1, o2, s, m'. split; [reflexivity|]. unfold misplaced in H. destruct (q_values s) as [|a [|b [|c [|d [|? ?]]]]]; try discriminate H. unfold eqb in H.
  destruct (Qc_eq_dec a (z 34)) as [->|_]; [|discriminate H]. destruct (Qc_eq_dec b (z 44)) as [->|_]; [|discriminate H]. destruct (Qc_eq_dec c (z 21)) as [->|_]; [|discriminate H]. destruct (Qc_eq_dec d (z 22)) as [->|_]; [reflexivity|discriminate H].
Qed.
Theorem C84_short_refuted : exists o1 o2 s m', run (z 1) (z 0) lin half (start [7; 8] [7; 8] false false) short = Some [o1; o2; (s, m')] /\ q_values s = [z 34; z 44; z 21; z 22].
Proof. apply misplaced_spec. vm_compute. reflexivity. Qed.
Print Assumptions C84_history.
Print Assumptions C84_steps.
Print Assumptions C84_identity.
Print Assumptions C84_offsets.
Print Assumptions C84_adaptive_refuted.
Print Assumptions C84_short_refuted.

(** * Examples *)
Definition data3 (a b c : Z) (x y u : Z) : @data Qc := Data 2 [(z a, [z x; z x]); (z b, [z y; z y]); (z c, [z u; z x])] [(z a, [z x; z x]); (z c, [z 0; z 0])].
Definition data2 (a c : Z) (x u : Z) : @data Qc := Data 1 [(z a, [z x]); (z c, [z u])] [(z a, [z x])].
(** two data with their own steps; two windows, the second one with other steps and of another length *)
Definition varied : list (@event Qc) :=
  [Iterate [(3, data3 0 1 4 5 6 7); (5, data2 0 4 1 2)] (z 0) (fun v => v); Iterate [(3, data3 0 1 4 5 6 8); (5, data2 0 4 1 3)] (z 0) (map (fun x => x + 1)%Qc); Converge [(3, data3 0 1 4 5 7 8); (5, data2 0 4 1 3)] (z 0);
   Iterate [(3, data3 4 10 12 8 7 6); (5, data2 4 12 3 4)] (z 4) (map (fun x => x + 1)%Qc)].
Lemma ineq a b c : ltb a (b - c)%Qc = true -> (a < b - c)%Qc.
Proof. apply ltb_lt. Qed.
Ltac fit := match goal with |- fits _ _ _ _ _ => intros id [<-|[<-|[]]]; (do 4 eexists); (split; [reflexivity|]); (split; [reflexivity|]); (split; [reflexivity|]); (split; [cbn [times map fst spread d_wave data3 data2]; repeat split; apply ineq; vm_compute; reflexivity|]); (split; [repeat constructor|]); (split; [discriminate|repeat constructor]) end.
Example varied_possible : possible (z 0) (fun id => if id =? 3 then 2 else 1) [3; 5] begin varied.
Proof.
  unfold varied. cbn [possible]. split; [fit|]. split; [|split; [auto|]].
  { intros id [<-|[<-|[]]]; (split; [apply Qc_is_canon; vm_compute; reflexivity|]); cbn [steps enter begin S_Grid.R S_Grid.F unset first andb waveOf mapIn at_ Nat.eqb d_wave data3 data2 times map fst relative placed tl hd last spread startIn]; repeat split; apply ineq; vm_compute; reflexivity. }
  split; [fit|]. split; [|split; [intros; apply map_length|]].
  { intros id [<-|[<-|[]]]; (split; [apply Qc_is_canon; vm_compute; reflexivity|]); cbn [steps enter leave begin S_Grid.R S_Grid.F unset first andb waveOf mapIn at_ Nat.eqb d_wave data3 data2 times map fst relative placed tl hd last spread startIn]; repeat split; apply ineq; vm_compute; reflexivity. }
  split; [fit|]. split; [|split; [auto|]].
  { intros id [<-|[<-|[]]]; (split; [apply Qc_is_canon; vm_compute; reflexivity|]); cbn [steps enter leave begin S_Grid.R S_Grid.F unset first andb waveOf mapIn at_ Nat.eqb d_wave data3 data2 times map fst relative placed tl hd last spread startIn]; repeat split; apply ineq; vm_compute; reflexivity. }
  split; [fit|]. split; [|split; [intros; apply map_length|exact Logic.I]].
  { intros id [<-|[<-|[]]]; (split; [apply Qc_is_canon; vm_compute; reflexivity|]); cbn [steps enter leave begin S_Grid.R S_Grid.F unset first andb waveOf mapIn at_ Nat.eqb d_wave data3 data2 times map fst relative placed tl hd last spread startIn]; repeat split; apply ineq; vm_compute; reflexivity. }
Qed.
(** the step at 1 of the window from 0 to 4 is at 6 in the window from 4 to 12; the values there are 23/3 *)
Definition sameAs (l r : list Qc) : bool := (length l =? length r) && forallb (fun p => eqb (fst p) (snd p)) (combine l r).
Definition varied_check : bool := match run (z 0) (z 0) lin half (start [3; 5] [3] true false) varied with
  | Some [_; _; _; (s, m')] => sameAs (q_values s) [Q2Qc (26 # 3); Q2Qc (26 # 3); z 7; z 9; z 5] && sameAs (times (waveOf m' 3)) [z 4; z 6; z 12] && sameAs (times (waveOf m' 5)) [z 4; z 12] && sameAs (q_pvalues s) [z 6; z 8]
  | _ => false end.
Example varied_runs : varied_check = true.
Proof. vm_compute. reflexivity. Qed.
