(** Proofs about heliostats with equal names. *)
From Coq Require Import List Arith Bool String Ascii Sorted Permutation Reals Lra Lia.
From Verif Require Import ModelField ModelHdf5 SpecHdf5 ProofsHdf5 ModelScenario SpecScenario SpecDuplicates ProofsScenario.
Import ListNotations.
Local Open Scope string_scope.

(** ** All heliostats of the groups *)
Lemma filter_split : forall {A} (key : A -> string) k ks l, ~ In k ks ->
  Permutation (filter (fun x => if in_dec string_dec (key x) (k :: ks) then true else false) l)
    (filter (fun x => String.eqb (key x) k) l ++ filter (fun x => if in_dec string_dec (key x) ks then true else false) l).
Proof.
  intros A key k ks l N. induction l as [|a l IH]; auto. cbn [filter]. destruct (String.eqb_spec (key a) k) as [E|E].
  - destruct (in_dec string_dec (key a) (k :: ks)) as [I|I]; [|exfalso; apply I; left; auto]. destruct (in_dec string_dec (key a) ks) as [J|J]; [exfalso; apply N; rewrite <- E; auto|].
    cbn [app]. auto.
  - destruct (in_dec string_dec (key a) (k :: ks)) as [I|I], (in_dec string_dec (key a) ks) as [J|J].
    + rewrite IH. apply Permutation_middle.
    + exfalso. destruct I; auto.
    + exfalso. apply I. right. auto.
    + auto.
Qed.
Lemma groups_permutation : forall {A} (key : A -> string) ks l, NoDup ks -> (forall x, In x l -> In (key x) ks) ->
  Permutation (flat_map (fun k => filter (fun x => String.eqb (key x) k) l) ks) l.
Proof.
  intros A key ks l N C.
  assert (G : forall ks, NoDup ks -> Permutation (flat_map (fun k => filter (fun x => String.eqb (key x) k) l) ks) (filter (fun x => if in_dec string_dec (key x) ks then true else false) l)).
  { clear. induction ks as [|k ks IH]; intros N.
    - cbn [flat_map]. induction l as [|a l IH]; auto.
    - inversion N; subst. cbn [flat_map]. rewrite (filter_split key k ks l) by auto. apply Permutation_app_head. auto. }
  rewrite (G ks N). rewrite (filter_ext_in _ (fun _ => true)); [|intros x I; destruct in_dec as [_|J]; auto; destruct J; auto].
  clear. induction l as [|a l IH]; cbn; auto.
Qed.
Theorem all_loaded : forall c, valid c -> kinematics_available c -> exists file s,
  generate_scenario c = Ok file /\ load_scenario file = Ok s /\ Permutation (all_heliostats s) (map (expected c) (sc_heliostats c)).
Proof.
  intros c V O. destruct (round_trip_groups c V O) as (file & s & G & L & ND & GS & GC). exists file, s. do 2 (split; auto).
  unfold all_heliostats. set (l := in_order h_name (sc_heliostats c)) in *. assert (P : Permutation l (sc_heliostats c)) by (apply in_order_perm).
  transitivity (map (expected c) l); [|apply Permutation_map; auto].
  transitivity (flat_map (fun k => filter (fun x => String.eqb (key_of x) k) (map (expected c) l)) (map g_key (s_groups s))).
  - rewrite flat_map_concat_map, flat_map_concat_map, map_map. match goal with |- Permutation (_ ?a) (_ ?b) => assert (EQ : a = b); [|rewrite EQ; reflexivity] end.
    apply map_ext_in. intros g I. destruct (GS g I) as (_ & E). rewrite E, map_filter. auto.
  - apply groups_permutation; auto. intros x I. apply in_map_iff in I. destruct I as (h & <- & I). destruct (GC h) as (g & J & K & _).
    + apply (Permutation_in _ P); auto.
    + rewrite <- K. apply in_map. auto.
Qed.

(** ** The number of groups in a file does not matter for loading *)
Definition key := "number_of_heliostat_groups".
Definition swap (v : value) (links : list (string * h5)) : list (string * h5) := map (fun '(k, h) => if String.eqb k key then (k, Dataset v) else (k, h)) links.
Lemma find_swap : forall v k links, k <> key -> find_link k (swap v links) = find_link k links.
Proof.
  intros v k links N. induction links as [|[k' h] links IH]; auto. cbn [swap map find_link]. fold (swap v links). destruct (String.eqb_spec k' key) as [E|E]; cbn [find_link].
  - subst. apply String.eqb_neq in N. rewrite N. auto.
  - rewrite IH. auto.
Qed.
Lemma set_swap : forall v k h links, k <> key -> set_link k h (swap v links) = swap v (set_link k h links).
Proof.
  intros v k h links N. assert (K : String.eqb k key = false) by (apply String.eqb_neq; auto).
  induction links as [|[k' h'] links IH]; [cbn [swap map set_link]; rewrite K; auto|]. cbn [swap map]. fold (swap v links).
  destruct (String.eqb_spec k' key) as [E|E].
  - subst k'. cbn [set_link]. destruct (String.compare k key) eqn:C.
    + exfalso. apply N. apply compare_eq. auto.
    + cbn [swap map]. rewrite K, String.eqb_refl. auto.
    + cbn [swap map]. rewrite String.eqb_refl, IH. auto.
  - apply String.eqb_neq in E. cbn [set_link]. destruct (String.compare k k') eqn:C; cbn [swap map]; rewrite ?K, ?E; auto. rewrite IH. auto.
Qed.
Definition res_map {A B} (f : A -> B) (r : res A) : res B := bind r (fun a => Ok (f a)).
Lemma put_swap : forall v w k rest links, k <> key -> put (swap w links) (k :: rest) v = res_map (swap w) (put links (k :: rest) v).
Proof.
  intros v w k rest links N. cbn [put]. rewrite find_swap by auto. destruct rest as [|k2 rest].
  - destruct (find_link k links); [reflexivity|]. unfold res_map. cbn [bind]. rewrite set_swap; auto.
  - destruct (find_link k links) as [[d|sub]|]; [reflexivity| |].
    + destruct (put sub (k2 :: rest) v); cbn [bind res_map]; [rewrite set_swap; auto|auto].
    + destruct (put [] (k2 :: rest) v); cbn [bind res_map]; [rewrite set_swap; auto|auto].
Qed.
Lemma include_swap : forall w prefix parameters links, proper_name prefix -> prefix <> key ->
  include_parameters (swap w links) prefix parameters = res_map (swap w) (include_parameters links prefix parameters).
Proof.
  intros w prefix parameters links (P1 & P2 & P3) N. revert links. induction parameters as [|[k v] rest IH]; intros links; [reflexivity|].
  assert (C : components (prefix ++ "/" ++ k) = prefix :: components k) by (unfold components; apply (components_slash prefix "" k); auto).
  cbn [include_parameters]. rewrite C. destruct v; auto.
  all: rewrite put_swap by auto; unfold res_map; destruct (put links (prefix :: components k) _); cbn [bind]; [rewrite IH; reflexivity|auto].
Qed.
Lemma load_swap : forall w links, load_scenario (Group (swap w links)) = load_scenario (Group links).
Proof.
  intros w links. assert (I : forall k, k <> key -> item (Group (swap w links)) k = item (Group links) k).
  { intros k N. unfold item. rewrite find_swap; auto. }
  unfold load_scenario, load_planar, load_cylindrical, load_light_sources, load_prototypes, load_field.
  rewrite !I by discriminate. reflexivity.
Qed.

(** ** Equal names *)
Lemma dict_fold_new : forall {A} (l : list (string * A)) d, NoDup (map fst l) -> (forall k, In k (map fst l) -> ~ In k (map fst d)) ->
  fold_left (fun d '(k, v) => dict_set k v d) l d = (d ++ l)%list.
Proof.
  intros A l. induction l as [|[k v] l IH]; intros d N D; [rewrite app_nil_r; auto|]. cbn [fold_left]. inversion N; subst. rewrite dict_set_new by (apply D; left; auto).
  rewrite IH; auto.
  - rewrite <- app_assoc. auto.
  - intros k' I J. rewrite map_app in J. apply in_app_or in J. destruct J as [J|[J|[]]]; [apply (D k'); auto; right; auto|]. cbn in J. subst. auto.
Qed.
Lemma dict_set_middle : forall {A} k (v w : A) d1 d2, ~ In k (map fst d1) -> dict_set k v (d1 ++ (k, w) :: d2) = (d1 ++ (k, v) :: d2)%list.
Proof.
  intros A k v w d1 d2 N. induction d1 as [|[k' u] d1 IH]; cbn [app dict_set]; [rewrite String.eqb_refl; auto|].
  destruct (String.eqb_spec k k') as [E|E]; [exfalso; apply N; left; auto|]. rewrite IH; auto. intros I. apply N. right. auto.
Qed.
Lemma nodup_parts : forall {A} (a b : list A), NoDup (a ++ b) -> NoDup a /\ NoDup b.
Proof.
  intros A a b. induction a as [|x a IH]; intros N; [split; [constructor|auto]|]. cbn [app] in N. inversion N; subst. destruct (IH H2). split; auto. constructor; auto.
  intros I. apply H1. apply in_or_app. auto.
Qed.
Lemma dict_of_twice : forall {A} k (v w : A) l1 l2 l3, NoDup (map fst (l1 ++ (k, w) :: l2 ++ l3)) ->
  dict_of (l1 ++ (k, v) :: l2 ++ (k, w) :: l3) = (l1 ++ (k, w) :: l2 ++ l3)%list.
Proof.
  intros A k v w l1 l2 l3 N. unfold dict_of. replace (l1 ++ (k, v) :: l2 ++ (k, w) :: l3)%list with ((l1 ++ (k, v) :: l2) ++ (k, w) :: l3)%list by (rewrite <- app_assoc; auto).
  assert (N' : NoDup (map fst ((l1 ++ (k, w) :: l2) ++ l3))) by (rewrite <- app_assoc; auto).
  rewrite fold_left_app. rewrite (dict_fold_new (l1 ++ (k, v) :: l2) []); [|rewrite map_app in N'; apply nodup_parts in N'; destruct N' as (N' & _); rewrite map_app in *; auto|intros; auto].
  cbn [fold_left app]. rewrite dict_set_middle.
  - rewrite dict_fold_new.
    + rewrite <- app_assoc. auto.
    + rewrite map_app in N'. apply nodup_parts in N'. apply N'.
    + intros k' I J. rewrite map_app in N'. clear - I J N'. induction (map fst (l1 ++ (k, w) :: l2)) as [|a m IH]; [auto|]. cbn [app] in N'. inversion N'; subst.
      destruct J as [->|J]; [apply H1; apply in_or_app; auto|auto].
  - rewrite map_app in N. cbn [map fst] in N. apply NoDup_remove_2 in N. intros I. apply N. apply in_or_app. auto.
Qed.

Theorem duplicate_lost : forall c l1 x l2 y l3, h_name x = h_name y -> (forall f, h_surface x = Some f -> List.length f = List.length (pr_surface (sc_prototype c))) ->
  valid (with_heliostats c (l1 ++ y :: l2 ++ l3)) -> kinematics_available (with_heliostats c (l1 ++ y :: l2 ++ l3)) ->
  exists file file' s,
    generate_scenario (with_heliostats c (l1 ++ y :: l2 ++ l3)) = Ok file /\ load_scenario file = Ok s
    /\ generate_scenario (with_heliostats c (l1 ++ x :: l2 ++ y :: l3)) = Ok file' /\ load_scenario file' = Ok s
    /\ stored_number_of_groups file' = Ok (INR (number_of_heliostat_groups (with_heliostats c (l1 ++ x :: l2 ++ y :: l3)))).
Proof.
  intros c l1 x l2 y l3 EN FX V O. set (d := with_heliostats c (l1 ++ y :: l2 ++ l3)) in *. set (d' := with_heliostats c (l1 ++ x :: l2 ++ y :: l3)).
  destruct (round_trip_count d V O) as (file & s & G & L & N).
  assert (ND : NoDup (map h_name (l1 ++ y :: l2 ++ l3))) by (destruct V as [_ _ _ (_ & ND & _) _ _ _]; exact ND).
  assert (D : dict_of (map (fun h => (h_name h, heliostat_dict h)) (sc_heliostats d')) = dict_of (map (fun h => (h_name h, heliostat_dict h)) (sc_heliostats d))).
  { cbn [sc_heliostats d d' with_heliostats]. rewrite !map_app. cbn [map]. rewrite !map_app. cbn [map]. rewrite EN.
    rewrite dict_of_twice, dict_of_nodup; auto.
    all: rewrite !map_app; cbn [map fst]; rewrite !map_app, !map_map; cbn [fst]; rewrite !map_app in ND; cbn [map] in ND; rewrite !map_app in ND; auto. }
  assert (FE : check_equal_facet_numbers d' = check_equal_facet_numbers d).
  { unfold check_equal_facet_numbers. cbn [sc_heliostats sc_prototype d d' with_heliostats]. rewrite !forallb_app. cbn [forallb]. rewrite !forallb_app. cbn [forallb].
    assert (X : match h_surface x with Some s0 => (List.length s0 =? List.length (pr_surface (sc_prototype c)))%nat | None => true end = true).
    { destruct (h_surface x) as [f|]; auto. apply Nat.eqb_eq. auto. }
    rewrite X. cbn [andb]. repeat match goal with |- context[forallb ?p ?l] => generalize (forallb p l); intros [] end; cbn [andb]; auto; rewrite ?andb_true_r, ?andb_false_r; auto. }
  set (w := Array (Scalar (INR (number_of_heliostat_groups d')))).
  assert (G' : generate_scenario d' = res_map (fun h => match h with Group links => Group (swap w links) | other => other end) (generate_scenario d)
    /\ exists links, file = Group links /\ In key (map fst links)).
  { unfold generate_scenario in G |- *. rewrite FE, D. change (sc_light_sources d') with (sc_light_sources d). change (sc_position d') with (sc_position d). change (sc_planar d') with (sc_planar d).
    change (sc_cylindrical d') with (sc_cylindrical d). change (sc_prototype d') with (sc_prototype d).
    destruct (negb (forallb _ (sc_light_sources d))); [discriminate|]. destruct (negb (check_equal_facet_numbers d)); [discriminate|].
    cbn [put find_link bind set_link] in *.
    change [("number_of_heliostat_groups", Dataset (Array (Scalar (INR (number_of_heliostat_groups d')))))] with (swap w [(key, Dataset (Array (Scalar (INR (number_of_heliostat_groups d)))))]).
    change [("number_of_heliostat_groups", Dataset (Array (Scalar (INR (number_of_heliostat_groups d)))))] with [(key, Dataset (Array (Scalar (INR (number_of_heliostat_groups d)))))] in *.
    assert (K : forall prefix parameters links links', proper_name prefix -> include_parameters links prefix parameters = Ok links' -> In key (map fst links) -> In key (map fst links')).
    { clear. intros prefix parameters. induction parameters as [|[k v] rest IH]; intros links links' P E I; [injection E as <-; auto|]. cbn [include_parameters] in E.
      destruct v; try discriminate; destruct (put links (components (prefix ++ "/" ++ k)) _) as [m|] eqn:Q; try discriminate; cbn [bind] in E; apply (IH m links'); auto; clear - Q I;
        destruct (components (prefix ++ "/" ++ k)) as [|k0 rest0]; try discriminate; cbn [put] in Q;
        assert (S : forall h, In key (map fst (set_link k0 h links))) by (clear - I; intros h; apply in_map_iff in I; destruct I as ([q u] & <- & I); cbn [fst] in *;
          destruct (find_link q (set_link k0 h links)) eqn:F; [apply (in_map fst) with (x := (q, h0)); apply find_in; auto|];
          exfalso; rewrite find_set in F; destruct (String.eqb q k0); [discriminate|]; apply find_not_in in F; apply F; apply (in_map fst) in I; auto);
        destruct rest0; destruct (find_link k0 links) as [[]|]; try discriminate; try (injection Q as <-; apply S);
        match type of Q with bind ?r _ = _ => destruct r; try discriminate; injection Q as <-; apply S end. }
    assert (S : forall prefix parameters links (f g : list (string * h5) -> res h5), proper_name prefix -> prefix <> key ->
      (forall links', include_parameters links prefix parameters = Ok links' -> f (swap w links') = res_map (fun h => match h with Group l => Group (swap w l) | other => other end) (g links')) ->
      bind (include_parameters (swap w links) prefix parameters) f = res_map (fun h => match h with Group l => Group (swap w l) | other => other end) (bind (include_parameters links prefix parameters) g)).
    { intros prefix parameters links f g P1 P2 H. rewrite include_swap by auto. unfold res_map in *. destruct (include_parameters links prefix parameters); cbn [bind]; auto. }
    split.
    - do 6 (apply S; [repeat split; discriminate|discriminate|intros; cbv beta zeta]). reflexivity.
    - assert (I0 : In key (map fst [(key, Dataset (Array (Scalar (INR (number_of_heliostat_groups d)))))])) by (left; auto).
      do 6 (match type of G with bind (include_parameters ?l ?p ?q) _ = _ => destruct (include_parameters l p q) as [?f|] eqn:?Q; [|discriminate]; cbn [bind] in G;
        match goal with J : In key (map fst l), Q : include_parameters l p q = Ok ?f |- _ => assert (In key (map fst f)) by (apply (K p q l f); auto; repeat split; discriminate); clear J Q end end; cbv beta zeta in G).
      injection G as <-. eauto. }
  destruct G' as (G' & links & -> & IK). exists (Group links), (Group (swap w links)), s. split; auto. split; auto. split; [rewrite G', G; reflexivity|]. split; [rewrite load_swap; auto|].
  unfold stored_number_of_groups, read_number, read, item. assert (F : find_link "number_of_heliostat_groups" (swap w links) = Some (Dataset w)); [|rewrite F; reflexivity].
  clear - IK. induction links as [|[k h] links IH]; [destruct IK|]. cbn [swap map]. fold (swap w links). change "number_of_heliostat_groups" with key in *. destruct (String.eqb_spec k key) as [E|E].
  - subst. cbn [find_link]. rewrite String.eqb_refl. auto.
  - cbn [find_link]. destruct (String.eqb_spec key k) as [E'|E']; [congruence|]. apply IH. destruct IK as [IK|IK]; [cbn in IK; congruence|auto].
Qed.
Theorem duplicate_counted : forall c l1 x l2 y l3, h_name x = h_name y -> (forall f, h_surface x = Some f -> List.length f = List.length (pr_surface (sc_prototype c))) ->
  valid (with_heliostats c (l1 ++ y :: l2 ++ l3)) -> kinematics_available (with_heliostats c (l1 ++ y :: l2 ++ l3)) ->
  (exists p, In p (type_pairs (sc_prototype c) x) /\ forall h, In h (l1 ++ y :: l2 ++ l3) -> ~ In p (type_pairs (sc_prototype c) h)) ->
  exists file s n, generate_scenario (with_heliostats c (l1 ++ x :: l2 ++ y :: l3)) = Ok file /\ load_scenario file = Ok s
  /\ stored_number_of_groups file = Ok (INR n) /\ List.length (s_groups s) < n.
Proof.
  intros c l1 x l2 y l3 EN FX V O (p & PI & PN). destruct (duplicate_lost c l1 x l2 y l3 EN FX V O) as (file & file' & s & G & L & G' & L' & N').
  exists file', s. eexists. split; [exact G'|]. split; [exact L'|]. split; [exact N'|].
  destruct (round_trip_count _ V O) as (f2 & s2 & G2 & L2 & N2). destruct (load_before_field _ V) as (f3 & h6 & G3 & _ & _ & _ & _ & _ & _ & _ & N3).
  assert (f2 = file) by congruence. subst f2. assert (f3 = file) by congruence. subst f3. assert (s2 = s) by congruence. subst s2.
  assert (E : List.length (s_groups s) = number_of_heliostat_groups (with_heliostats c (l1 ++ y :: l2 ++ l3))) by (apply INR_eq; congruence).
  rewrite E. unfold number_of_heliostat_groups. cbn [sc_heliostats sc_prototype with_heliostats]. set (t := type_pairs (sc_prototype c)) in *.
  set (a := flat_map t (l1 ++ y :: l2 ++ l3)). set (b := flat_map t (l1 ++ x :: l2 ++ y :: l3)).
  change (List.length (p :: nodup pair_dec a) <= List.length (nodup pair_dec b)). apply NoDup_incl_length.
  - constructor; [|apply NoDup_nodup]. rewrite nodup_In. unfold a. intros I. apply in_flat_map in I. destruct I as (h & J & K). apply (PN h J K).
  - intros q Q. apply nodup_In. unfold b. apply in_flat_map. destruct Q as [<-|Q].
    + exists x. split; auto. apply in_or_app. right. left. auto.
    + apply nodup_In in Q. unfold a in Q. apply in_flat_map in Q. destruct Q as (h & J & K). exists h. split; auto.
      clear - J. apply in_app_or in J. destruct J as [J|[J|J]]; [apply in_or_app; auto| |].
      * subst. apply in_or_app. right. right. apply in_or_app. right. left. auto.
      * apply in_app_or in J. apply in_or_app. right. right. apply in_or_app. destruct J; [left|right; right]; auto.
Qed.
