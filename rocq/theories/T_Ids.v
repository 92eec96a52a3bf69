(** C90: meshes and data have numbers of their own. *)
From Coq Require Import Bool String List Arith ZArith Lia.
From Verif Require Import M_Ids S_Ids P_Ids.
Import ListNotations.

(** Whatever calls there were: a free number is the smallest one that is not in use, and a number is inserted exactly if
    it is not in use. *)
Theorem C90_answers os l : history fresh os = Ok l -> length l = length os /\
  (forall j z, nth_error l j = Some (Number z) -> (0 <= z)%Z /\ ~ in_use l j z /\ forall y, (0 <= y < z)%Z -> in_use l j y)
  /\ (forall j z b, nth_error l j = Some (Inserted z b) -> (b = true <-> ~ in_use l j z)).
Proof.
  intros H. destruct (history_spec os fresh [] l fresh_inv) as (L & G); [|exact H|].
  { intros z. cbn. split; [contradiction|]. intros (i & Hi & _). lia. }
  split; [exact L|]. cbn [app length Nat.add] in G. split; [intros j z Hj; exact (G j _ Hj)|]. intros j z b Hj. specialize (G j _ Hj). cbn in G. destruct b; split; intros E; try discriminate E; try reflexivity.
  - intros U. apply G in U. discriminate U.
  - destruct E. apply G. reflexivity.
Qed.

(** The answers are to the calls that were made. *)
Theorem C90_questions os l : history fresh os = Ok l -> Forall2 (fun o a => match o, a with GetFree, Number _ => True | Insert z, Inserted y _ => y = z | Reset, Done => True | _, _ => False end) os l.
Proof.
  generalize fresh. revert l. induction os as [|o os IH]; intros l m; cbn [history]; [intros H; injection H as <-; constructor|].
  rewrite bind_ok. intros ((m1 & a) & H1 & H). rewrite bind_ok in H. destruct H as (l1 & H2 & H). injection H as <-. cbn [fst snd] in *. constructor; [|exact (IH l1 m1 H2)].
  destruct o; cbn [perform] in H1; [rewrite bind_ok in H1; destruct H1 as (p & _ & H1)|..]; injection H1 as _ <-; cbn; auto.
Qed.

(** No number is in use twice. *)
Theorem C90_distinct os l i j y z : history fresh os = Ok l -> i < j -> (forall k, i < k < j -> nth_error l k <> Some Done) ->
  nth_error l i = Some (Number y) \/ nth_error l i = Some (Inserted y true) -> nth_error l j = Some (Number z) \/ nth_error l j = Some (Inserted z true) -> y <> z.
Proof.
  intros H Lt N Hi Hj <-. destruct (C90_answers os l H) as (_ & G1 & G2). assert (U : in_use l j y) by (exists i; auto).
  destruct Hj as [Hj|Hj]; [apply (G1 j y Hj), U|]. apply (proj1 (G2 j y true Hj) eq_refl), U.
Qed.

(** The search for a free number ends, and no number overflows, for up to a thousand million calls. *)
Theorem C90_ends os : (Z.of_nat (length os) <= 2 ^ 30 - 1)%Z -> exists l, history fresh os = Ok l.
Proof. intros B. apply history_total; [apply fresh_inv|]. cbn [ids fresh length Nat.add]. lia. Qed.

(** Meshes are numbered in the order of their tags, and all data of all meshes in the order of their tags, whatever names they have. *)
Theorem C90_meshes known tags s : configure known (State [] fresh fresh) tags = Ok s ->
  map m_name (meshes s) = map fst tags /\ map (fun m => map fst (m_data m)) (meshes s) = map snd tags
  /\ map m_id (meshes s) = first_numbers (length tags) /\ map snd (concat (map m_data (meshes s))) = first_numbers (length (concat (map snd tags))).
Proof.
  intros H. destruct (configure_counted known tags (State [] fresh fresh) 0 0 counted_fresh counted_fresh s H) as (new & E & N1 & N2 & N3 & N4 & _). cbn [meshes app] in E. rewrite E. auto.
Qed.

(** Hence no two meshes and no two data have the same number. *)
Theorem C90_different known tags s : configure known (State [] fresh fresh) tags = Ok s ->
  NoDup (map m_id (meshes s)) /\ NoDup (map snd (concat (map m_data (meshes s)))).
Proof.
  intros H. destruct (C90_meshes known tags s H) as (_ & _ & -> & ->). assert (N : forall n, NoDup (first_numbers n)) by (intros n; apply FinFun.Injective_map_NoDup; [intros a b; lia|apply seq_NoDup]). auto.
Qed.

(** Meshes are numbered exactly if all data they use are known; the checks of repeated names are in [M_Wiring]. *)
Theorem C90_known known tags : (Z.of_nat (length tags) <= 2 ^ 30 - 1)%Z -> (Z.of_nat (length (concat (map snd tags))) <= 2 ^ 30 - 1)%Z ->
  ((exists s, configure known (State [] fresh fresh) tags = Ok s) <-> forall t x, In t tags -> In x (snd t) -> In x known).
Proof.
  intros B1 B2. split.
  - intros (s & H). destruct (configure_counted known tags (State [] fresh fresh) 0 0 counted_fresh counted_fresh s H) as (new & _ & _ & _ & _ & _ & K). exact K.
  - intros K. apply (configure_total known tags (State [] fresh fresh) 0 0 counted_fresh counted_fresh); cbn [Nat.add]; [lia|lia|exact K].
Qed.
Print Assumptions C90_answers. Print Assumptions C90_questions. Print Assumptions C90_distinct. Print Assumptions C90_ends. Print Assumptions C90_meshes. Print Assumptions C90_different. Print Assumptions C90_known.

(** inserted numbers are skipped; a reset starts again *)
Example some_calls : history fresh [GetFree; Insert 2; Insert 1; GetFree; Insert 3; Insert (-4); GetFree; Reset; Insert 3; GetFree]
  = Ok [Number 0; Inserted 2 true; Inserted 1 true; Number 3; Inserted 3 false; Inserted (-4) true; Number 4; Done; Inserted 3 true; Number 0].
Proof. vm_compute. reflexivity. Qed.
Example two_meshes : configure ["F"; "T"]%string (State [] fresh fresh) [("A", ["F"; "T"]); ("B", ["T"])]%string
  = Ok (State [Mesh "A" 0 [("F"%string, 0%Z); ("T"%string, 1%Z)]; Mesh "B" 1 [("T"%string, 2%Z)]] (Manager [0; 1]%Z 2) (Manager [0; 1; 2]%Z 3)).
Proof. vm_compute. reflexivity. Qed.
Example unknown_data : configure ["F"]%string (State [] fresh fresh) [("A", ["F"; "T"])]%string = Reported.
Proof. vm_compute. reflexivity. Qed.
