(** C88: data actions are the ones of the configuration. *)
From Coq Require Import Bool String List Arith Lia.
From Verif Require Import M_ActConf S_ActConf P_ActConf.
Import ListNotations.

Section T.
Variable isDirectory : string -> bool.
Variable python : bool.
(** the empty path is no directory *)
Hypothesis noPath : isDirectory "" = false.

(** Whatever is accepted is as documented, refers to existing meshes and data, and the action has them, in this order. *)
Theorem C88_accepted ms e a : proper ms -> ~ In ""%string (names TargetData e) -> configureAction isDirectory python ms e = Ok a ->
  documented e /\ known ms e /\ describes ms e a /\ same_dims a /\ (e_type e = Python -> isDirectory (a_path a) = true).
Proof.
  intros (Nm & Pm) Ne. rewrite configure_eq. destruct (okTags _ _ _) eqn:O; [|discriminate]. destruct (areAllSubtagsConfigured _ _) eqn:A; [|discriminate].
  assert (D : documented e) by (apply documented_spec; auto). intros H. split; [exact D|].
  rewrite create_eq in H. destruct (collect_fields (e_tags e) (fresh e)) as (Ft & Fi & Fm & Fs & Fg & Fp & Fo). cbv zeta in *. cbn [fresh c_type c_timing c_mesh c_sources c_target c_path c_module app] in *.
  change (nm SourceData (e_tags e)) with (names SourceData e) in Fs. change (nm TargetData (e_tags e)) with (names TargetData e) in Fg. change (nm ModulePath (e_tags e)) with (names ModulePath e) in Fp. change (nm ModuleName (e_tags e)) with (names ModuleName e) in Fo.
  set (c := collect (e_tags e) (fresh e)) in *. rewrite Fm, Fs, Fg in H.
  destruct (meshByName ms (e_mesh e)) as [m|] eqn:M; [|discriminate H]. apply byMesh_some in M. destruct M as [Hm Em]. destruct (Pm m Hm) as (Nn & Ni & _).
  destruct (targetID m _) as [t| |] eqn:T; try discriminate H. cbn [bindR] in H. destruct (sourceIDs m _) as [ids| |] eqn:S; try discriminate H. cbn [bindR] in H.
  destruct (sources_spec m (names SourceData e) Nn Ni) as (S1 & _ & _). destruct (S1 ids S) as (ds & D1 & D2 & D3 & D4).
  assert (Tone : length (names TargetData e) = 1 -> exists d, In d (m_data m) /\ names TargetData e = [d_name d] /\ t = Some (d_id d) /\ lookUp m t = Ok d).
  { intros L. apply length_1 in L. destruct L as (n & L). rewrite L in *. cbn [last] in T. destruct (target_one m n t Ni) as (d & Hd & En & Et & Lt); [intros ->; apply Ne; left; reflexivity|exact T|].
    exists d. subst n. auto. }
  assert (Tzero : length (names TargetData e) = 0 -> names TargetData e = [] /\ t = None).
  { intros L. apply length_0 in L. rewrite L in *. cbn in T. injection T as <-. auto. }
  assert (Kn : forall l, names TargetData e = l -> (forall n, In n l -> exists d, In d (m_data m) /\ d_name d = n) -> known ms e).
  { intros l El Hl. exists m. split; [exact Hm|]. split; [exact Em|]. intros n Hn. apply in_app_or in Hn. destruct Hn as [Hn|Hn]; [|rewrite El in Hn; apply Hl; exact Hn].
    rewrite <- D1 in Hn. apply in_map_iff in Hn. destruct Hn as (d & <- & Hd). exists d. split; [apply D3; exact Hd|reflexivity]. }
  assert (K1 : forall d, In d (m_data m) -> forall n, In n [d_name d] -> exists d, In d (m_data m) /\ d_name d = n) by (intros d Hd n [<-|[]]; exists d; auto).
  unfold construct in H. rewrite Ft in H. unfold documented in D. cbv zeta in D. unfold describes, same_dims. destruct (e_type e) eqn:Et.
  - destruct D as (Dt & Ds & Dp & Do). destruct (Tone Dt) as (d & Hd & En & -> & Lt). rewrite Lt in H. cbn [bindR] in H. injection H as <-. apply length_0 in Ds.
    split; [apply (Kn _ En), K1, Hd|]. cbn [a_type a_timing a_mesh a_target a_sources a_path map]. rewrite Ds, En, Fi. repeat split; auto; try discriminate.
    intros x [[]|Hx]. injection Hx as <-. exact Hd.
  - destruct D as (Dt & Ds & Dp & Do). destruct (Tone Dt) as (d & Hd & En & -> & Lt). rewrite Lt in H. cbn [bindR] in H. injection H as <-. apply length_0 in Ds.
    split; [apply (Kn _ En), K1, Hd|]. cbn [a_type a_timing a_mesh a_target a_sources a_path map]. rewrite Ds, En, Fi. repeat split; auto; try discriminate.
    intros x [[]|Hx]. injection Hx as <-. exact Hd.
  - destruct D as (Dt & Ds & Dp & Do). destruct (Tone Dt) as (d & Hd & En & -> & Lt). rewrite Lt in H. cbn [bindR] in H. rewrite D4 in H. cbn [bindR] in H. unfold check in H.
    destruct (forallb _ ds) eqn:B; [|discriminate H]. injection H as <-. split; [apply (Kn _ En), K1, Hd|]. cbn [a_type a_timing a_mesh a_target a_sources a_path map]. rewrite En, Fi.
    split; [repeat split; auto; try discriminate; intros x [Hx|Hx]; [apply D3; exact Hx|injection Hx as <-; exact Hd]|].
    split; [|discriminate]. intros _ s u Hs Hu. injection Hu as <-. rewrite forallb_forall in B. apply Nat.eqb_eq, B, Hs.
  - destruct D as (Dt & Ds & Dp & Do). destruct (Tzero Dt) as (En & ->). injection H as <-. apply length_0 in Ds.
    split; [apply (Kn _ En); intros n []|]. cbn [a_type a_timing a_mesh a_target a_sources a_path map]. rewrite Ds, En, Fi. repeat split; auto; try discriminate.
    intros x [[]|Hx]. discriminate Hx.
  - destruct D as (Dt & Ds & Dp & Do). destruct python; [|discriminate H]. destruct (rev ids) as [|i r] eqn:R; [discriminate H|]. unfold check in H.
    destruct (isDirectory (c_path c)) eqn:P; [|discriminate H].
    assert (Hs : exists s, ds = [s] /\ i = d_id s /\ lookUp m (Some i) = Ok s).
    { assert (Ld : length ids = length ds) by (rewrite <- D2, map_length; reflexivity). assert (Ln : length ds <= 1) by (rewrite <- D1, map_length in Ds; exact Ds).
      assert (Li : 0 < length ids) by (rewrite <- rev_length, R; cbn; lia). destruct ds as [|s [|? ?]]; cbn [length] in *; try lia. exists s. cbn [map] in D2. subst ids. cbn in R. injection R as <- _. split; [reflexivity|]. split; [reflexivity|].
      cbn [lookUps] in D4. destruct (lookUp m (Some (d_id s))); try discriminate D4. cbn in D4. injection D4 as ->. reflexivity. }
    destruct Hs as (s & -> & -> & Ls).
    assert (Pp : [c_path c] = names ModulePath e).
    { destruct (names ModulePath e) as [|p [|? ?]]; cbn [last length] in *; [congruence|congruence|lia]. }
    assert (Po : [c_module c] = names ModuleName e).
    { apply length_1 in Do. destruct Do as (o & Do). rewrite Do in *. cbn [last] in Fo. congruence. }
    destruct (Nat.eq_dec (length (names TargetData e)) 0) as [Z|Z].
    + destruct (Tzero Z) as (En & ->). cbn [bindR] in H. rewrite Ls in H. cbn [bindR] in H. injection H as <-.
      split; [apply (Kn _ En); intros n []|]. cbn [a_type a_timing a_mesh a_target a_sources a_path a_module map] in *. rewrite <- D1, En, Fi. repeat split; auto; try discriminate.
      intros x [[<-|[]]|Hx]; [apply D3; left; reflexivity|discriminate Hx].
    + destruct Tone as (d & Hd & En & -> & Lt); [lia|]. rewrite Lt in H. cbn [bindR] in H. rewrite Ls in H. cbn [bindR] in H. injection H as <-.
      split; [apply (Kn _ En), K1, Hd|]. cbn [a_type a_timing a_mesh a_target a_sources a_path a_module map] in *. rewrite <- D1, En, Fi. repeat split; auto; try discriminate.
      intros x [[<-|[]]|Hx]; [apply D3; left; reflexivity|injection Hx as <-; exact Hd].
Qed.

(** Whatever is as documented and refers to existing meshes and data is accepted; Python actions with source data and path. *)
Definition usable (ms : list mesh) (e : element) : Prop :=
  match e_type e with
  | Python => python = true /\ names SourceData e <> [] /\ exists p, names ModulePath e = [p] /\ isDirectory p = true
  | Summation => forall m s t, In m ms -> m_name m = e_mesh e -> In s (m_data m) -> In t (m_data m) -> In (d_name s) (names SourceData e) -> In (d_name t) (names TargetData e) -> d_dims s = d_dims t
  | _ => True
  end.
Theorem C88_created ms e : proper ms -> documented e -> known ms e -> usable ms e -> exists a, configureAction isDirectory python ms e = Ok a.
Proof.
  intros (Nm & Pm) D (m & Hm & Em & K) U. rewrite configure_eq. destruct (proj1 (documented_spec e) D) as [-> ->].
  rewrite create_eq. destruct (collect_fields (e_tags e) (fresh e)) as (Ft & Fi & Fm & Fs & Fg & Fp & Fo). cbv zeta in *. cbn [fresh c_type c_timing c_mesh c_sources c_target c_path c_module app] in *.
  change (nm SourceData (e_tags e)) with (names SourceData e) in Fs. change (nm TargetData (e_tags e)) with (names TargetData e) in Fg. change (nm ModulePath (e_tags e)) with (names ModulePath e) in Fp. change (nm ModuleName (e_tags e)) with (names ModuleName e) in Fo.
  set (c := collect (e_tags e) (fresh e)) in *. rewrite Fm, Fs, Fg, <- Em, (byMesh ms m Nm Hm). destruct (Pm m Hm) as (Nn & Ni & Nz).
  destruct (sources_spec m (names SourceData e) Nn Ni) as (S1 & S2 & _). destruct S2 as (ids & S); [intros n Hn; apply K, in_or_app; left; exact Hn|].
  destruct (S1 ids S) as (ds & D1 & D2 & D3 & D4).
  assert (Tone : forall n, names TargetData e = [n] -> exists d, In d (m_data m) /\ d_name d = n /\ targetID m n = Ok (Some (d_id d)) /\ lookUp m (Some (d_id d)) = Ok d).
  { intros n En. destruct (K n) as (d & Hd & <-); [apply in_or_app; right; rewrite En; left; reflexivity|]. exists d. split; [exact Hd|]. split; [reflexivity|]. split.
    - apply target_known; [exact Nn|exact Hd|]. intros Z. apply Nz. rewrite <- Z. apply in_map. exact Hd.
    - cbn [lookUp]. rewrite byID by assumption. reflexivity. }
  unfold documented in D. cbv zeta in D. unfold usable in U. unfold construct. rewrite Ft. destruct (e_type e) eqn:Et.
  - destruct D as (Dt & _). apply length_1 in Dt. destruct Dt as (n & Dt). rewrite Dt. destruct (Tone n Dt) as (d & Hd & _ & T & L). cbn [last]. rewrite T, S. cbn [bindR]. rewrite L. eexists. reflexivity.
  - destruct D as (Dt & _). apply length_1 in Dt. destruct Dt as (n & Dt). rewrite Dt. destruct (Tone n Dt) as (d & Hd & _ & T & L). cbn [last]. rewrite T, S. cbn [bindR]. rewrite L. eexists. reflexivity.
  - destruct D as (Dt & _). apply length_1 in Dt. destruct Dt as (n & Dt). destruct (Tone n Dt) as (d & Hd & En & T & L). rewrite Dt. cbn [last]. rewrite T, S. cbn [bindR]. rewrite L. cbn [bindR]. rewrite D4. cbn [bindR]. unfold check.
    replace (forallb _ ds) with true; [eexists; reflexivity|]. symmetry. apply forallb_forall. intros s Hs. apply Nat.eqb_eq. apply (U m s d Hm Em); [apply D3; exact Hs|exact Hd|rewrite <- D1; apply in_map; exact Hs|rewrite Dt; left; symmetry; exact En].
  - destruct D as (Dt & _). apply length_0 in Dt. rewrite Dt. cbn [last targetID String.eqb]. unfold targetID. cbn [String.eqb bindR]. rewrite S. cbn [bindR]. eexists. reflexivity.
  - destruct D as (Dt & Ds & _). destruct U as (Hp & U & (p & Pp & P)). rewrite Hp. rewrite Pp in Fp. cbn [last] in Fp. rewrite Fp.
    assert (Hs : exists s, ds = [s]).
    { rewrite <- D1, map_length in Ds. destruct ds as [|s [|? ?]]; cbn in Ds; [|exists s; reflexivity|lia]. exfalso. apply U. rewrite <- D1. reflexivity. }
    destruct Hs as (s & ->). cbn [map] in D2. subst ids. cbn [lookUps] in D4. destruct (lookUp m (Some (d_id s))) as [s'| |] eqn:Ls; try discriminate D4.
    destruct (names TargetData e) as [|n [|? ?]] eqn:En; cbn [length] in Dt; [| |lia].
    + cbn [last]. unfold targetID. cbn [String.eqb bindR]. rewrite S. cbn [bindR rev app]. rewrite P. unfold check. cbn [bindR]. rewrite Ls. cbn [bindR]. eexists. reflexivity.
    + destruct (Tone n eq_refl) as (d & Hd & _ & T & L). cbn [last]. rewrite T, S. cbn [bindR rev app]. rewrite P. unfold check. rewrite L. cbn [bindR]. rewrite Ls. cbn [bindR]. eexists. reflexivity.
Qed.

(** A participant has its actions in the order of the configuration, all on meshes it uses. *)
Theorem C88_participant ms used es l : participantActions isDirectory python ms used es = Ok l ->
  Forall2 (fun e a => configureAction isDirectory python ms e = Ok a) es l /\ forall a, In a l -> In (m_name (a_mesh a)) used.
Proof.
  unfold participantActions. destruct (configureActions _ _ ms es) as [k| |] eqn:E; try discriminate. cbn [bindR]. unfold check. destruct (forallb _ k) eqn:B; [|discriminate]. intros H. injection H as <-. split.
  - clear B. revert k E. induction es as [|e es IH]; intros k E; cbn [configureActions] in E; [injection E as <-; constructor|].
    destruct (configureAction _ _ ms e) as [a| |] eqn:A; try discriminate E. cbn [bindR] in E. destruct (configureActions _ _ ms es) as [r| |]; try discriminate E. cbn [bindR] in E. injection E as <-. constructor; [exact A|apply IH; reflexivity].
  - intros a Ha. rewrite forallb_forall in B. specialize (B a Ha). apply existsb_exists in B. destruct B as (n & Hn & En). apply String.eqb_eq in En. rewrite En. exact Hn.
Qed.

(** "Source data can be omitted": then the last element of an empty vector is taken. *)
Theorem C88_no_source_refuted ms e : proper ms -> documented e -> known ms e -> e_type e = Python -> names SourceData e = [] -> configureAction isDirectory python ms e = Undefined.
Proof.
  intros (Nm & Pm) D (m & Hm & Em & K) Et Es. rewrite configure_eq. destruct (proj1 (documented_spec e) D) as [-> ->].
  rewrite create_eq. destruct (collect_fields (e_tags e) (fresh e)) as (Ft & _ & Fm & Fs & Fg & _). cbv zeta in *. cbn [fresh c_type c_timing c_mesh c_sources c_target c_path c_module app] in *.
  change (nm SourceData (e_tags e)) with (names SourceData e) in Fs. change (nm TargetData (e_tags e)) with (names TargetData e) in Fg. rewrite Fm, Fs, Fg, <- Em, (byMesh ms m Nm Hm), Es. destruct (Pm m Hm) as (Nn & Ni & Nz).
  assert (T : exists t, targetID m (last (names TargetData e) ""%string) = Ok t).
  { unfold documented in D. rewrite Et in D. destruct D as (Dt & _). destruct (names TargetData e) as [|n [|? ?]] eqn:En; cbn [length] in Dt; [exists None; reflexivity| |lia].
    destruct (K n) as (d & Hd & <-); [apply in_or_app; right; left; reflexivity|]. eexists. cbn [last]. apply target_known; [exact Nn|exact Hd|]. intros Z. apply Nz. rewrite <- Z. apply in_map. exact Hd. }
  destruct T as (t & ->). cbn [bindR sourceIDs]. unfold construct. rewrite Ft, Et. destruct python; reflexivity.
Qed.
(** "Without path the current path is used": every Python action without path is refused, or undefined *)
Theorem C88_no_path_refuted ms e a : e_type e = Python -> names ModulePath e = [] -> configureAction isDirectory python ms e <> Ok a.
Proof.
  intros Et Ep. rewrite configure_eq. destruct (okTags _ _ _); [|discriminate]. destruct (areAllSubtagsConfigured _ _); [|discriminate]. rewrite create_eq.
  destruct (collect_fields (e_tags e) (fresh e)) as (Ft & _ & _ & _ & _ & Fp & _). cbv zeta in *. change (nm ModulePath (e_tags e)) with (names ModulePath e) in Fp. rewrite Ep in Fp. cbn in Fp, Ft.
  destruct (meshByName ms _) as [m|]; [|discriminate]. destruct (targetID m _) as [t| |]; try discriminate. cbn [bindR]. destruct (sourceIDs m _) as [ids| |]; try discriminate. cbn [bindR]. unfold construct. rewrite Ft, Et, Fp, noPath.
  destruct python; [|discriminate]. destruct (rev ids); discriminate.
Qed.
(** A build without Python does not refuse Python actions. *)
Theorem C88_no_python_refuted ms e : python = false -> proper ms -> documented e -> known ms e -> e_type e = Python -> configureAction isDirectory python ms e = Undefined.
Proof.
  intros P (Nm & Pm) D (m & Hm & Em & K) Et. rewrite configure_eq. destruct (proj1 (documented_spec e) D) as [-> ->].
  rewrite create_eq. destruct (collect_fields (e_tags e) (fresh e)) as (Ft & _ & Fm & Fs & Fg & _). cbv zeta in *. cbn [fresh c_type c_timing c_mesh c_sources c_target c_path c_module app] in *.
  change (nm SourceData (e_tags e)) with (names SourceData e) in Fs. change (nm TargetData (e_tags e)) with (names TargetData e) in Fg. rewrite Fm, Fs, Fg, <- Em, (byMesh ms m Nm Hm). destruct (Pm m Hm) as (Nn & Ni & Nz).
  assert (T : exists t, targetID m (last (names TargetData e) ""%string) = Ok t).
  { unfold documented in D. rewrite Et in D. destruct D as (Dt & _). destruct (names TargetData e) as [|n [|? ?]] eqn:En; cbn [length] in Dt; [exists None; reflexivity| |lia].
    destruct (K n) as (d & Hd & <-); [apply in_or_app; right; left; reflexivity|]. eexists. cbn [last]. apply target_known; [exact Nn|exact Hd|]. intros Z. apply Nz. rewrite <- Z. apply in_map. exact Hd. }
  destruct T as (t & ->). cbn [bindR]. destruct (sources_spec m (names SourceData e) Nn Ni) as (_ & S2 & _). destruct S2 as (ids & ->); [intros n Hn; apply K, in_or_app; left; exact Hn|].
  cbn [bindR]. unfold construct. rewrite Ft, Et, P. reflexivity.
Qed.
(** An empty name of target data is not refused: data number -1 is looked up. *)
Theorem C88_empty_target_refuted ms e m : proper ms -> documented e -> In m ms -> m_name m = e_mesh e -> e_type e = MultiplyByArea \/ e_type e = DivideByArea -> names TargetData e = [""%string] ->
  configureAction isDirectory python ms e = Undefined.
Proof.
  intros (Nm & Pm) D Hm Em Et En. rewrite configure_eq. destruct (proj1 (documented_spec e) D) as [-> ->].
  rewrite create_eq. destruct (collect_fields (e_tags e) (fresh e)) as (Ft & _ & Fm & Fs & Fg & _). cbv zeta in *. cbn [fresh c_type c_timing c_mesh c_sources c_target c_path c_module app] in *.
  change (nm SourceData (e_tags e)) with (names SourceData e) in Fs. change (nm TargetData (e_tags e)) with (names TargetData e) in Fg. rewrite Fm, Fs, Fg, <- Em, (byMesh ms m Nm Hm), En. cbn [last]. unfold targetID. cbn [String.eqb bindR].
  assert (Es : names SourceData e = []) by (unfold documented in D; destruct Et as [Et|Et]; rewrite Et in D; apply length_0; apply D). rewrite Es. cbn [sourceIDs bindR]. unfold construct. rewrite Ft. destruct Et as [Et|Et]; rewrite Et; reflexivity.
Qed.
End T.

Section Run.
Variables time values : Type.
Variable sameTime : time -> time -> bool.
Notation store := (store time values).
Notation script := (time -> option values -> values -> option values).

(** what a script makes of one sample *)
Definition made (f : script) (sources : list (time * values)) (i : nat) (old new : time * values) : Prop :=
  fst new = fst old /\ f (fst old) (option_map snd (nth_error sources i)) (snd old) = Some (snd new).
(** A Python action calls the script once for each sample of the target, in order, with its time, the source values of the
    same time and the target values, and stores what it makes of them.  Other data stays as it is. *)
Theorem C88_python script target source (s s' : store) : performPython sameTime script target source s = Ok s' ->
  exists d f, target = Some d /\ script = Some f /\ samples s d <> [] /\
    (let sources := match source with None => [] | Some u => samples s u end in
     length (samples s' d) = length (samples s d) /\
     (forall i old new, nth_error (samples s d) i = Some old -> nth_error (samples s' d) i = Some new -> made f sources i old new) /\
     (forall u, source = Some u -> length (samples s u) = length (samples s d) /\
        forall i x y, nth_error (samples s u) i = Some x -> nth_error (samples s d) i = Some y -> sameTime (fst x) (fst y) = true)) /\
    (forall k, k <> d -> samples s' k = samples s k /\ global s' k = global s k) /\
    exists before t v, samples s' d = before ++ [(t, v)] /\ global s' d = Some v.
Proof.
  unfold performPython. destruct target as [d|]; [|discriminate].
  assert (R1 : forall f l l', runTarget f l = Ok l' -> length l' = length l /\ forall i old new, nth_error l i = Some old -> nth_error l' i = Some new -> made f [] i old new).
  { intros f. induction l as [|(t & v) l IH]; intros l' H; cbn [runTarget] in H; [injection H as <-; split; [reflexivity|intros [|i]; discriminate]|].
    destruct (f t None v) as [v'|] eqn:E; [|discriminate H]. destruct (runTarget f l) as [r| |]; try discriminate H. cbn [bindR] in H. injection H as <-. destruct (IH r eq_refl) as [L K].
    split; [cbn [length]; rewrite L; reflexivity|]. intros [|i] old new Ho Hn; cbn [nth_error] in *.
    - injection Ho as <-. injection Hn as <-. split; [reflexivity|exact E].
    - specialize (K i old new Ho Hn). unfold made in *. destruct i; exact K. }
  assert (R2 : forall f sources l l', length l = length sources -> runBoth sameTime f sources l = Ok l' -> length l' = length l /\
    (forall i old new, nth_error l i = Some old -> nth_error l' i = Some new -> made f sources i old new) /\ (forall i x y, nth_error sources i = Some x -> nth_error l i = Some y -> sameTime (fst x) (fst y) = true)).
  { intros f. induction sources as [|(u & w) sources IH]; intros [|(t & v) l] l' Le H; try discriminate Le; cbn [runBoth] in H; [injection H as <-; split; [reflexivity|split; intros [|i]; discriminate]|].
    destruct (sameTime u t) eqn:St; [|discriminate H]. destruct (f t (Some w) v) as [v'|] eqn:E; [|discriminate H]. destruct (runBoth sameTime f sources l) as [r| |] eqn:Er; try discriminate H. cbn [bindR] in H. injection H as <-.
    injection Le as Le. destruct (IH l r Le Er) as (L & K & T). split; [cbn [length]; rewrite L; reflexivity|]. split.
    - intros [|i] old new Ho Hn; cbn [nth_error] in *; [injection Ho as <-; injection Hn as <-; split; [reflexivity|exact E]|exact (K i old new Ho Hn)].
    - intros [|i] x y Hx Hy; cbn [nth_error] in *; [injection Hx as <-; injection Hy as <-; exact St|exact (T i x y Hx Hy)]. }
  intros H. destruct (samples s d) as [|p0 l0] eqn:E0.
  { exfalso. destruct source as [u|]; [|discriminate H]. unfold check in H. destruct (_ =? _); discriminate H. }
  destruct script as [f|]; [|exfalso; destruct source as [u|]; [unfold check in H; destruct (_ =? _)|]; discriminate H].
  exists d, f. split; [reflexivity|]. split; [reflexivity|]. split; [congruence|]. rewrite <- E0 in *.
  assert (Main : exists l before t v, l = before ++ [(t, v)] /\ s' = Store (fun k => if k =? d then l else samples s k) (fun k => if k =? d then Some v else global s k) /\
    length l = length (samples s d) /\ (forall i old new, nth_error (samples s d) i = Some old -> nth_error l i = Some new -> made f (match source with None => [] | Some u => samples s u end) i old new) /\
    (forall u, source = Some u -> length (samples s u) = length (samples s d) /\ forall i x y, nth_error (samples s u) i = Some x -> nth_error (samples s d) i = Some y -> sameTime (fst x) (fst y) = true)).
  { destruct source as [u|].
    - unfold check in H. destruct (Nat.eqb_spec (length (samples s d)) (length (samples s u))) as [Le|Le]; [|discriminate H].
      destruct (runBoth sameTime f (samples s u) (samples s d)) as [l| |] eqn:Er; try discriminate H. cbn [bindR] in H.
      destruct (R2 _ _ _ _ Le Er) as (L & K & T). destruct (rev l) as [|(t & v) b] eqn:Rl; [discriminate H|]. injection H as <-.
      exists l, (rev b), t, v. split; [rewrite <- (rev_involutive l), Rl; reflexivity|]. split; [reflexivity|]. split; [exact L|]. split; [exact K|]. intros u' Hu. injection Hu as <-. split; [congruence|exact T].
    - destruct (runTarget f (samples s d)) as [l| |] eqn:Er; try discriminate H. cbn [bindR] in H.
      destruct (R1 _ _ _ Er) as (L & K). destruct (rev l) as [|(t & v) b] eqn:Rl; [discriminate H|]. injection H as <-.
      exists l, (rev b), t, v. split; [rewrite <- (rev_involutive l), Rl; reflexivity|]. split; [reflexivity|]. split; [exact L|]. split; [exact K|]. discriminate. }
  destruct Main as (l & before & t & v & El & -> & L & K & T). cbn [samples global]. rewrite !Nat.eqb_refl. cbv zeta. split; [split; [exact L|split; [exact K|exact T]]|]. split.
  - intros k Hk. destruct (Nat.eqb_spec k d); [contradiction|]. split; reflexivity.
  - exists before, t, v. split; [exact El|reflexivity].
Qed.
(** "Target data can be omitted": the action is created, but performing it is undefined. *)
Theorem C88_no_target_refuted script source (s : store) : performPython sameTime script None source s = Undefined.
Proof. reflexivity. Qed.
(** A module without the function gives a warning only, the action is undefined as soon as there are samples. *)
Theorem C88_no_function_refuted d (s : store) : samples s d <> [] -> performPython sameTime None (Some d) None s = Undefined.
Proof. intros H. unfold performPython. destruct (samples s d); [contradiction|reflexivity]. Qed.

(** Actions are performed at their timing only, in the order of the configuration. *)
Theorem C88_timing (perform : action -> store -> res store) t l s :
  performDataActions perform t l s = fold_left (fun r a => bindR r (perform a)) (filter (fun a => match a_timing a, t with WriteMappingPost, WriteMappingPost | ReadMappingPost, ReadMappingPost => true | _, _ => false end) l) (Ok s).
Proof.
  assert (B : forall l (r : res store), (forall x, r <> Ok x) -> fold_left (fun r a => bindR r (perform a)) l r = r).
  { induction l0 as [|a l0 IH]; intros r Hr; [reflexivity|]. cbn [fold_left]. destruct r as [x| |]; [exfalso; apply (Hr x); reflexivity| |]; cbn [bindR]; apply IH; discriminate. }
  revert s. induction l as [|a l IH]; intros s; [reflexivity|]. cbn [performDataActions filter].
  assert (E : timing_eqb (a_timing a) t = match a_timing a, t with WriteMappingPost, WriteMappingPost | ReadMappingPost, ReadMappingPost => true | _, _ => false end) by reflexivity.
  rewrite <- E. destruct (timing_eqb (a_timing a) t); cbn [bindR fold_left]; [|apply IH].
  destruct (perform a s) as [x| |]; cbn [bindR]; [apply IH| |]; symmetry; apply B; discriminate.
Qed.
End Run.

(** *** Examples *)
Open Scope string_scope.
Definition ms : list mesh := [Mesh "Fluid" [Data "Force" 0 2; Data "Stress" 1 2; Data "Heat" 2 1]; Mesh "Solid" [Data "Force" 3 2]].
Definition sum : element := Element Summation WriteMappingPost "Fluid" [(SourceData, "Stress"); (SourceData, "Force"); (TargetData, "Force")].
Definition py : element := Element Python ReadMappingPost "Fluid" [(ModulePath, "scripts"); (ModuleName, "act"); (SourceData, "Heat"); (TargetData, "Stress")].
Definition dir (p : string) : bool := String.eqb p "scripts".
Lemma ms_proper : proper ms.
Proof.
  split; [repeat constructor; cbn; intuition discriminate|]. intros m [<-|[<-|[]]]; (split; [|split]); cbn; try (repeat constructor; cbn; intuition discriminate); intuition discriminate.
Qed.
Example configured_sum : exists a, configureAction dir true ms sum = Ok a /\ describes ms sum a /\ map d_id (a_sources a) = [1; 0].
Proof. eexists. split; [reflexivity|]. split; [apply (C88_accepted dir true eq_refl ms sum _ ms_proper); [cbn; intuition discriminate|reflexivity]|reflexivity]. Qed.
Example configured_python : exists a, participantActions dir true ms ["Fluid"] [py; sum] = Ok a /\ List.length a = 2.
Proof. eexists. split; reflexivity. Qed.
Example py_created : documented py /\ known ms py /\ usable dir true ms py.
Proof.
  split; [cbn; lia|]. split; [|split; [reflexivity|split; [discriminate|exists "scripts"; split; reflexivity]]].
  exists (Mesh "Fluid" [Data "Force" 0 2; Data "Stress" 1 2; Data "Heat" 2 1]). split; [left; reflexivity|]. split; [reflexivity|].
  intros n [<-|[<-|[]]]; [exists (Data "Heat" 2 1)|exists (Data "Stress" 1 2)]; cbn; auto.
Qed.
Example refusals :
  configureAction dir true ms (Element Summation WriteMappingPost "Fluid" [(SourceData, "Heat"); (TargetData, "Force")]) = Reported /\
  configureAction dir true ms (Element Summation WriteMappingPost "Fluid" [(TargetData, "Force")]) = Reported /\
  configureAction dir true ms (Element MultiplyByArea WriteMappingPost "Fluid" [(TargetData, "Force"); (TargetData, "Force")]) = Reported /\
  configureAction dir true ms (Element MultiplyByArea WriteMappingPost "Solid" [(TargetData, "Heat")]) = Reported /\
  configureAction dir true ms (Element Python WriteMappingPost "Solid" [(ModuleName, "act"); (SourceData, "Force")]) = Reported /\
  participantActions dir true ms ["Solid"] [sum] = Reported.
Proof. repeat split. Qed.
(** the documented example without source data, and an empty name *)
Example undefined_cases :
  configureAction dir true ms (Element Python WriteMappingPost "Fluid" [(ModulePath, "scripts"); (ModuleName, "act"); (TargetData, "Stress")]) = Undefined /\
  configureAction dir true ms (Element DivideByArea WriteMappingPost "Fluid" [(TargetData, "")]) = Undefined.
Proof. repeat split. Qed.
(** without target data: created, see C88_no_target_refuted *)
Example no_target : exists a, configureAction dir true ms (Element Python WriteMappingPost "Fluid" [(ModulePath, "scripts"); (ModuleName, "act"); (SourceData, "Stress")]) = Ok a /\ a_target a = None.
Proof. eexists. split; reflexivity. Qed.
(** the script adds the source and the time *)
Definition f (t : nat) (u : option nat) (v : nat) : option nat := Some (v + t + match u with Some u => u | None => 0 end).
Definition st : store nat nat := Store (fun k => match k with 0 => [(1, 10); (2, 20)] | 1 => [(1, 100); (2, 200)] | _ => [] end) (fun _ => None).
Example python_run : exists s, performPython Nat.eqb (Some f) (Some 0) (Some 1) st = Ok s /\ samples s 0 = [(1, 111); (2, 222)] /\ samples s 1 = samples st 1 /\ global s 0 = Some 222.
Proof. eexists. split; [reflexivity|]. repeat split. Qed.

Print Assumptions C88_accepted.
Print Assumptions C88_created.
Print Assumptions C88_participant.
Print Assumptions C88_python.
Print Assumptions C88_timing.
Print Assumptions C88_no_source_refuted.
Print Assumptions C88_no_path_refuted.
Print Assumptions C88_no_python_refuted.
Print Assumptions C88_empty_target_refuted.
Print Assumptions C88_no_target_refuted.
Print Assumptions C88_no_function_refuted.
