(** Proofs for C132. *)
From Coq Require Import List Arith Lia Bool String Ascii Reals Permutation.
From Verif Require Import ModelField ModelHdf5 SpecHdf5 ProofsHdf5 ModelScenario SpecScenario ProofsScenario ModelInterrupted SpecInterrupted.
Import ListNotations.
Local Open Scope string_scope.
Local Open Scope nat_scope.

(** ** The datasets together are the generated file *)
Lemma write_app : forall a b file, write_datasets file (a ++ b) = bind (write_datasets file a) (fun f => write_datasets f b).
Proof.
  induction a as [|[p v] a IH]; intros b file; [reflexivity|]. cbn [app write_datasets].
  destruct v; auto; destruct (put file (components p) _) as [f|e]; cbn [bind]; auto.
Qed.
Lemma write_section : forall prefix parameters file, write_datasets file (section prefix parameters) = include_parameters file prefix parameters.
Proof.
  intros prefix. induction parameters as [|[k v] l IH]; intros file; [reflexivity|]. unfold section in *. cbn [map write_datasets include_parameters].
  destruct v; auto; destruct (put file _ _) as [f|e]; cbn [bind]; auto.
Qed.
Lemma generated_all : forall c, writable c -> generate_scenario c = bind (write_datasets [] (datasets c)) (fun links => Ok (Group links)).
Proof.
  intros c W. unfold generate_scenario.
  assert (E1 : forallb (fun l => String.eqb (ls_distribution l) "normal") (sc_light_sources c) = true).
  { apply forallb_forall. intros l I. apply String.eqb_eq. apply (proj2 (writable_light_sources c W)); auto. }
  assert (E2 : check_equal_facet_numbers c = true).
  { unfold check_equal_facet_numbers. apply forallb_forall. intros h I. destruct (h_surface h) as [s|] eqn:E; auto. apply Nat.eqb_eq. apply (proj1 (writable_parts c W h I)); auto. }
  rewrite E1, E2. cbn [negb]. unfold datasets, datasets_before, heliostat_datasets. cbn [app write_datasets].
  change (components "number_of_heliostat_groups") with ["number_of_heliostat_groups"].
  destruct (put [] ["number_of_heliostat_groups"] _) as [f0|]; cbn [bind]; auto.
  rewrite <- !app_assoc.
  rewrite !write_app, write_section. destruct (include_parameters f0 _ _) as [f1|]; cbn [bind]; auto.
  rewrite !write_app, write_section. destruct (include_parameters f1 _ _) as [f2|]; cbn [bind]; auto.
  rewrite !write_app, write_section. destruct (include_parameters f2 _ _) as [f3|]; cbn [bind]; auto.
  rewrite !write_app, write_section. destruct (include_parameters f3 _ _) as [f4|]; cbn [bind]; auto.
  rewrite !write_app, write_section. cbv zeta. destruct (include_parameters f4 _ _) as [f5|]; cbn [bind]; auto.
  rewrite write_section. auto.
Qed.
Theorem nothing_missing : forall c, writable c -> interrupted c (List.length (datasets c)) = generate_scenario c.
Proof. intros c W. unfold interrupted. rewrite firstn_all. symmetry. apply generated_all; auto. Qed.

(** ** The dataset with the number of groups does not matter for loading *)
Definition alike (n : string) (a b : list (string * h5)) : Prop := forall k, k <> n -> find_link k a = find_link k b.
Lemma put_alike : forall n k rest v a b a', alike n a b -> k <> n -> put a (k :: rest) v = Ok a' -> exists b', put b (k :: rest) v = Ok b' /\ alike n a' b'.
Proof.
  intros n k rest v a b a' A K P. assert (F := A k K).
  assert (S : forall h, alike n (set_link k h a) (set_link k h b)).
  { intros h k' N. rewrite !find_set. destruct (String.eqb k' k); auto. }
  destruct rest as [|k2 rest].
  - cbn [put] in P |- *. rewrite <- F. destruct (find_link k a); [discriminate|]. injection P as <-. eauto.
  - change (put a (k :: k2 :: rest) v) with (match find_link k a with Some (Dataset _) => Err ValueError
      | Some (Group sub) => bind (put sub (k2 :: rest) v) (fun sub' => Ok (set_link k (Group sub') a))
      | None => bind (put [] (k2 :: rest) v) (fun sub' => Ok (set_link k (Group sub') a)) end) in P.
    change (put b (k :: k2 :: rest) v) with (match find_link k b with Some (Dataset _) => Err ValueError
      | Some (Group sub) => bind (put sub (k2 :: rest) v) (fun sub' => Ok (set_link k (Group sub') b))
      | None => bind (put [] (k2 :: rest) v) (fun sub' => Ok (set_link k (Group sub') b)) end).
    rewrite <- F. destruct (find_link k a) as [[w|sub]|]; [discriminate| |].
    + destruct (put sub (k2 :: rest) v) as [s|]; [|discriminate]. cbn [bind] in P |- *. injection P as <-. eauto.
    + destruct (put [] (k2 :: rest) v) as [s|]; [|discriminate]. cbn [bind] in P |- *. injection P as <-. eauto.
Qed.
Definition elsewhere (n : string) (l : list (string * value)) : Prop := forall p v, In (p, v) l -> exists k rest, components p = k :: rest /\ k <> n.
Lemma write_alike : forall n l a b a', alike n a b -> elsewhere n l -> write_datasets a l = Ok a' -> exists b', write_datasets b l = Ok b' /\ alike n a' b'.
Proof.
  intros n. induction l as [|[p v] l IH]; intros a b a' A E W; [cbn in *; injection W as <-; eauto|].
  destruct (E p v (or_introl eq_refl)) as (k & rest & C & N). cbn [write_datasets] in W |- *. rewrite C in W |- *.
  destruct v; try discriminate;
    (match type of W with bind (put a ?q ?w) _ = _ => destruct (put a q w) as [f|] eqn:P; [|discriminate]; destruct (put_alike n k rest w a b f A N P) as (f' & P' & A') end;
     rewrite P'; cbn [bind] in W |- *; apply (IH f f' a'); auto; intros p' v' I; apply (E p' v'); right; auto).
Qed.
Lemma load_alike : forall a b, alike "number_of_heliostat_groups" a b -> load_scenario (Group a) = load_scenario (Group b).
Proof.
  intros a b A.
  assert (I : forall k, k <> "number_of_heliostat_groups" -> item (Group a) k = item (Group b) k) by (intros k K; cbn [item]; rewrite (A k K); auto).
  unfold load_scenario, load_planar, load_cylindrical, load_light_sources, load_prototypes, load_field. rewrite !I by discriminate. auto.
Qed.
Lemma section_elsewhere : forall n prefix parameters, proper_name prefix -> prefix <> n -> elsewhere n (section prefix parameters).
Proof.
  intros n prefix parameters (P1 & P2 & P3) N p v I. unfold section in I. apply in_map_iff in I as ([k w] & E & _). injection E as <- <-.
  exists prefix, (components k). split; [|exact N]. unfold components. apply (components_slash prefix "" k); auto.
Qed.
Lemma elsewhere_app : forall n a b, elsewhere n a -> elsewhere n b -> elsewhere n (a ++ b).
Proof. intros n a b A B p v I. apply in_app_or in I as [I|I]; eauto. Qed.

(** ** Without the heliostats nothing can be loaded *)
Lemma put_elsewhere : forall n k rest v a a', k <> n -> put a (k :: rest) v = Ok a' -> find_link n a' = find_link n a.
Proof.
  intros n k rest v a a' K P.
  assert (S : forall h, find_link n (set_link k h a) = find_link n a).
  { intros h. rewrite find_set. apply not_eq_sym, String.eqb_neq in K. rewrite K. auto. }
  destruct rest as [|k2 rest].
  - cbn [put] in P. destruct (find_link k a); [discriminate|]. injection P as <-. auto.
  - change (put a (k :: k2 :: rest) v) with (match find_link k a with Some (Dataset _) => Err ValueError
      | Some (Group sub) => bind (put sub (k2 :: rest) v) (fun sub' => Ok (set_link k (Group sub') a))
      | None => bind (put [] (k2 :: rest) v) (fun sub' => Ok (set_link k (Group sub') a)) end) in P.
    destruct (find_link k a) as [[w|sub]|]; [discriminate| |].
    + destruct (put sub (k2 :: rest) v) as [s|]; [|discriminate]. injection P as <-. auto.
    + destruct (put [] (k2 :: rest) v) as [s|]; [|discriminate]. injection P as <-. auto.
Qed.
Lemma write_elsewhere : forall n l a a', elsewhere n l -> write_datasets a l = Ok a' -> find_link n a' = find_link n a.
Proof.
  intros n. induction l as [|[p v] l IH]; intros a a' E W; [cbn in W; injection W as <-; auto|].
  destruct (E p v (or_introl eq_refl)) as (k & rest & C & N). cbn [write_datasets] in W. rewrite C in W.
  destruct v; try discriminate;
    (match type of W with bind (put a ?q ?w) _ = _ => destruct (put a q w) as [f|] eqn:P; [|discriminate] end;
     rewrite <- (put_elsewhere n k rest _ a f N P); apply IH; auto; intros p' v' I; apply (E p' v'); right; auto).
Qed.
Ltac named_section := apply section_elsewhere; [repeat split; discriminate|discriminate].
Lemma before_elsewhere : forall c, elsewhere "heliostats" (datasets_before c).
Proof.
  intros c. unfold datasets_before. intros p v [E|I].
  - injection E as <- <-. exists "number_of_heliostat_groups", []. split; [reflexivity|discriminate].
  - revert p v I. repeat (apply elsewhere_app; [named_section|]). named_section.
Qed.
Lemma rest_elsewhere : forall c, exists l, datasets_before c = ("number_of_heliostat_groups", Array (Scalar (INR (number_of_heliostat_groups c)))) :: l
  /\ (forall c', sc_position c' = sc_position c -> sc_planar c' = sc_planar c -> sc_cylindrical c' = sc_cylindrical c -> sc_light_sources c' = sc_light_sources c -> sc_prototype c' = sc_prototype c ->
        datasets_before c' = ("number_of_heliostat_groups", Array (Scalar (INR (number_of_heliostat_groups c')))) :: l)
  /\ elsewhere "number_of_heliostat_groups" l.
Proof.
  intros c. eexists. split; [reflexivity|]. split.
  - intros c' E1 E2 E3 E4 E5. unfold datasets_before. rewrite E1, E2, E3, E4, E5. auto.
  - repeat (apply elsewhere_app; [named_section|]). named_section.
Qed.
Theorem nothing_without_heliostats : forall c k file s, k <= List.length (datasets_before c) -> interrupted c k = Ok file -> load_scenario file <> Ok s.
Proof.
  intros c k file s K I L. unfold interrupted, datasets in I. rewrite firstn_app in I. replace (k - List.length (datasets_before c)) with 0 in I by lia.
  cbn [firstn] in I. rewrite app_nil_r in I. destruct (write_datasets [] _) as [links|] eqn:W; [|discriminate]. cbn [bind] in I. injection I as <-.
  apply (write_elsewhere "heliostats") in W.
  - unfold load_scenario in L. 
    assert (F : forall p, load_field p (Group links) = Err KeyError) by (intros p; unfold load_field; cbn [item]; rewrite W; reflexivity).
    destruct (bind (item _ "power_plant") _); [|discriminate]. cbn [bind] in L. destruct (load_planar _); [|discriminate]. cbn [bind] in L.
    destruct (load_cylindrical _); [|discriminate]. cbn [bind] in L. destruct (load_light_sources _); [|discriminate]. cbn [bind] in L.
    destruct (load_prototypes _); [|discriminate]. cbn [bind] in L. rewrite F in L. discriminate.
  - intros p v J. apply (before_elsewhere c p v). rewrite <- (firstn_skipn k). apply in_or_app. auto.
Qed.

(** ** Heliostats are written one after the other *)
Lemma heliostats_flat : forall hs, named h_name hs -> (forall h, In h hs -> proper (heliostat_dict h)) ->
  heliostat_datasets hs = section "heliostats" (map (fun '(p, v) => (joined p, v)) (flat_map (fun h => map (fun '(p, v) => (h_name h :: p, v)) (leaves (heliostat_dict h))) hs)).
Proof.
  intros hs N P. unfold heliostat_datasets. rewrite (dict_of_named h_name heliostat_dict) by apply N.
  rewrite flatten_value by (apply proper_list; auto). rewrite leaves_node. f_equal. f_equal.
  rewrite !flat_map_concat_map, map_map. auto.
Qed.
Lemma valid_proper : forall c, valid c -> forall h, In h (sc_heliostats c) -> proper (heliostat_dict h).
Proof.
  intros c V h I. destruct (valid_parts c V h I) as (S & _ & A). apply heliostat_proper.
  - intros s E. apply (S s E).
  - intros a E. apply (A a E).
Qed.

(** The file of a configuration with other heliostats, whose datasets come first, is a file of this kind. *)
Lemma shorter_file : forall c hs more, valid c -> valid (with_heliostats c hs) -> kinematics_available (with_heliostats c hs) ->
  heliostat_datasets (sc_heliostats c) = (heliostat_datasets hs ++ more)%list ->
  exists k file file' s, k + List.length more = List.length (datasets c)
  /\ interrupted c k = Ok file /\ generate_scenario (with_heliostats c hs) = Ok file' /\ load_scenario file' = Ok s /\ load_scenario file = Ok s
  /\ stored_number_of_groups file = Ok (INR (number_of_heliostat_groups c))
  /\ stored_number_of_groups file' = Ok (INR (List.length (s_groups s))).
Proof.
  intros c hs more V V' K D. set (c' := with_heliostats c hs) in *.
  destruct (round_trip_count c' V' K) as (file' & s & G & L & N).
  rewrite (generated_all c' (valid_writable c' V')) in G. destruct (write_datasets [] (datasets c')) as [links'|] eqn:W'; [|discriminate]. cbn [bind] in G. injection G as <-.
  destruct (rest_elsewhere c) as (l & E & E' & EL). specialize (E' c' eq_refl eq_refl eq_refl eq_refl eq_refl).
  set (l' := (l ++ heliostat_datasets hs)%list).
  assert (EL' : elsewhere "number_of_heliostat_groups" l') by (apply elsewhere_app; auto; named_section).
  set (n := Array (Scalar (INR (number_of_heliostat_groups c)))) in *. set (n' := Array (Scalar (INR (number_of_heliostat_groups c')))) in *.
  unfold datasets in W'. rewrite E' in W'. change (sc_heliostats c') with hs in W'. cbn [app] in W'. fold l' in W'.
  change (write_datasets [] (("number_of_heliostat_groups", n') :: l')) with (write_datasets [("number_of_heliostat_groups", Dataset n')] l') in W'.
  destruct (write_alike "number_of_heliostat_groups" l' [("number_of_heliostat_groups", Dataset n')] [("number_of_heliostat_groups", Dataset n)] links') as (links & W & A); auto.
  { intros k NK. cbn [find_link]. apply String.eqb_neq in NK. rewrite NK. auto. }
  assert (DL : datasets c = ((("number_of_heliostat_groups", n) :: l') ++ more)%list).
  { unfold datasets, l'. rewrite E, D. cbn [app]. rewrite <- app_assoc. auto. }
  exists (List.length (("number_of_heliostat_groups", n) :: l')), (Group links), (Group links'), s.
  split; [rewrite DL, app_length; auto|]. split; [|split; [|split; [|split; [|split]]]]; auto.
  - unfold interrupted. rewrite DL, firstn_app, firstn_all, Nat.sub_diag. cbn [firstn]. rewrite app_nil_r.
    change (write_datasets [] (("number_of_heliostat_groups", n) :: l')) with (write_datasets [("number_of_heliostat_groups", Dataset n)] l'). rewrite W. auto.
  - rewrite (generated_all c' (valid_writable c' V')). unfold datasets. rewrite E'. change (sc_heliostats c') with hs. cbn [app]. fold l'.
    change (write_datasets [] (("number_of_heliostat_groups", n') :: l')) with (write_datasets [("number_of_heliostat_groups", Dataset n')] l'). rewrite W'. auto.
  - rewrite <- (load_alike _ _ A). auto.
  - unfold stored_number_of_groups, read_number, read. cbn [item]. rewrite (write_elsewhere _ _ _ _ EL' W). cbn [find_link]. rewrite String.eqb_refl. reflexivity.
Qed.

Lemma split_named : forall {A} (name : A -> string) a b, named name (a ++ b) -> named name a.
Proof.
  intros A name a b (N & P). split; [|intros x I; apply P, in_or_app; auto].
  rewrite map_app in N. clear P. induction (map name a) as [|x l IH]; [constructor|]. cbn in N. inversion N as [|? ? N1 N2]; subst. constructor; auto.
  intros I. apply N1, in_or_app. auto.
Qed.
Lemma fewer_valid : forall c hs more, valid c -> sc_heliostats c = (hs ++ more)%list -> hs <> [] -> valid (with_heliostats c hs).
Proof.
  intros c hs more [VP VC VL (_ & VH) VPR (s & VF) VPARTS] E NE. rewrite E in *.
  constructor; cbn [with_heliostats sc_planar sc_cylindrical sc_light_sources sc_heliostats sc_prototype]; auto.
  - split; auto. eapply split_named; eauto.
  - exists s. intros h f I J. apply (VF h f); [apply in_or_app; auto|]. exact J.
  - intros h I. apply VPARTS, in_or_app. auto.
Qed.
Lemma heliostat_leaves : forall h, leaves (heliostat_dict h) <> [].
Proof. intros h. unfold heliostat_dict. cbn [app]. rewrite leaves_node. cbn [flat_map leaves number map app]. discriminate. Qed.

Theorem heliostats_missing : forall c written missing, valid c -> sc_heliostats c = (written ++ missing)%list -> written <> [] -> missing <> [] ->
  kinematics_available (with_heliostats c written) ->
  exists k file s, k < List.length (datasets c) /\ interrupted c k = Ok file /\ load_scenario file = Ok s
  /\ (forall g l, In g (s_groups s) -> In l (g_heliostats g) -> exists h, In h written /\ l = expected c h)
  /\ (forall h, In h written -> exists g, In g (s_groups s) /\ In (expected c h) (g_heliostats g))
  /\ (stored_number_of_groups file = Ok (INR (List.length (s_groups s)))
      <-> number_of_heliostat_groups (with_heliostats c written) = number_of_heliostat_groups c).
Proof.
  intros c written missing V E NW NM K. pose proof (fewer_valid c written missing V E NW) as V'.
  assert (NN : named h_name (written ++ missing)) by (rewrite <- E; apply (proj2 (valid_heliostats c V))).
  pose proof (valid_proper c V) as PR. rewrite E in PR.
  set (more := section "heliostats" (map (fun '(p, v) => (joined p, v)) (flat_map (fun h => map (fun '(p, v) => (h_name h :: p, v)) (leaves (heliostat_dict h))) missing))).
  assert (D : heliostat_datasets (sc_heliostats c) = (heliostat_datasets written ++ more)%list).
  { rewrite E, heliostats_flat by auto. rewrite (heliostats_flat written).
    - unfold more, section. rewrite flat_map_app, !map_app. auto.
    - eapply split_named; eauto.
    - intros h I. apply PR, in_or_app. auto. }
  destruct (shorter_file c written more V V' K D) as (k & file & file' & s & KL & I & G & L & L' & N & N').
  exists k, file, s. split.
  { assert (0 < List.length more); [|lia]. unfold more, section. rewrite !map_length. destruct missing as [|h missing]; [congruence|]. cbn [flat_map].
    rewrite app_length, map_length. pose proof (heliostat_leaves h). destruct (leaves (heliostat_dict h)); [congruence|cbn; lia]. }
  split; auto. split; auto.
  destruct (round_trip_contents _ V' K) as (file2 & s2 & G2 & L2 & _ & _ & _ & _ & C1 & C2). rewrite G in G2. injection G2 as <-. rewrite L in L2. injection L2 as <-.
  split; [intros g l J1 J2; destruct (C2 g l J1 J2) as (h & H1 & H2); exists h; auto|]. split; [exact C1|].
  destruct (generate_holds _ (valid_writable _ V')) as (file3 & G3 & H3). rewrite G in G3. injection G3 as <-.
  assert (N3 : stored_number_of_groups file' = Ok (INR (number_of_heliostat_groups (with_heliostats c written)))).
  { unfold stored_number_of_groups, read_number. rewrite (holds_read _ _ "number_of_heliostat_groups" _ H3) by reflexivity. reflexivity. }
  rewrite N3 in N'. injection N' as N'. rewrite N. split.
  - intros Q. injection Q as Q. apply INR_eq. congruence.
  - intros Q. rewrite <- N', Q. auto.
Qed.

Theorem parts_missing : forall c written h missing, valid c -> sc_heliostats c = (written ++ h :: missing)%list ->
  h_surface h <> None \/ h_kinematics h <> None \/ h_actuators h <> None ->
  let c' := with_heliostats c (written ++ [without_parts h]) in valid c' -> kinematics_available c' ->
  exists k file s, k < List.length (datasets c) /\ interrupted c k = Ok file /\ load_scenario file = Ok s
  /\ exists g l, In g (s_groups s) /\ In l (g_heliostats g) /\ l_name l = h_name h /\ l_position l = h_position h
     /\ l_facets l = map as_loaded (in_order f_key (pr_surface (sc_prototype c)))
     /\ l_kinematics_type l = k_type (pr_kinematics (sc_prototype c)) /\ l_orientation l = k_orientation (pr_kinematics (sc_prototype c)).
Proof.
  intros c written h missing V E OWN c' V' K.
  assert (NN : named h_name (written ++ h :: missing)) by (rewrite <- E; apply (proj2 (valid_heliostats c V))).
  pose proof (valid_proper c V) as PR. rewrite E in PR. pose proof (valid_proper c' V') as PR'. cbn [c' with_heliostats sc_heliostats] in PR'.
  assert (NN' : named h_name (written ++ [without_parts h])) by (apply (proj2 (valid_heliostats c' V'))).
  set (own := flat_map (fun '(k, t) => map (fun '(p, v) => (k :: p, v)) (leaves t))
     (match h_surface h with Some s => [("surface", surface_dict s)] | None => [] end
      ++ match h_kinematics h with Some k => [("kinematics", kinematics_dict k)] | None => [] end
      ++ match h_actuators h with Some a => [("actuator", actuator_list_dict a)] | None => [] end)).
  assert (LH : leaves (heliostat_dict h) = (leaves (heliostat_dict (without_parts h)) ++ own)%list).
  { unfold heliostat_dict, own. rewrite !leaves_node, !flat_map_app. reflexivity. }
  set (more := section "heliostats" (map (fun '(p, v) => (joined p, v)) (map (fun '(p, v) => (h_name h :: p, v)) own ++
     flat_map (fun h => map (fun '(p, v) => (h_name h :: p, v)) (leaves (heliostat_dict h))) missing))).
  assert (D : heliostat_datasets (sc_heliostats c) = (heliostat_datasets (written ++ [without_parts h]) ++ more)%list).
  { rewrite E, !heliostats_flat by auto. unfold more, section. rewrite !flat_map_app. cbn [flat_map]. rewrite LH, app_nil_r. rewrite !map_app, <- !app_assoc. reflexivity. }
  destruct (shorter_file c (written ++ [without_parts h]) more V V' K D) as (k & file & file' & s & KL & I & G & L & L' & N & N').
  exists k, file, s. split.
  { assert (0 < List.length more); [|lia]. unfold more, section. rewrite !map_length, app_length, map_length.
    assert (0 < List.length own); [|lia]. unfold own. rewrite !flat_map_app, !app_length.
    destruct (valid_parts c V h) as (SS & _ & AA); [rewrite E; apply in_or_app; right; left; auto|].
    destruct OWN as [O|[O|O]].
    - destruct (h_surface h) as [sf|] eqn:ES; [|congruence]. cbn [flat_map]. rewrite app_nil_r, map_length.
      assert (NE : sf <> []). { intros ->. destruct (SS [] eq_refl) as (_ & LS). destruct (valid_prototype c V) as (NP & _). destruct (pr_surface (sc_prototype c)); [congruence|discriminate]. }
      assert (X : leaves (surface_dict sf) <> []); [|destruct (leaves (surface_dict sf)); [congruence|cbn [List.length]; lia]].
      destruct (SS sf eq_refl) as ((NS & _) & _). destruct (surface_inhabited sf NS NE) as (q & v & Q). apply leaves_spec in Q; [|apply surface_proper; auto]. intros X. rewrite X in Q. destruct Q.
    - destruct (h_kinematics h) as [kc|]; [|congruence]. cbn [flat_map]. rewrite app_nil_r, map_length. unfold kinematics_dict. rewrite leaves_node. cbn [app flat_map leaves map List.length]. lia.
    - destruct (h_actuators h) as [ac|] eqn:EA; [|congruence]. cbn [flat_map]. rewrite app_nil_r, map_length.
      assert (X : leaves (actuator_list_dict ac) <> []); [|destruct (leaves (actuator_list_dict ac)); [congruence|cbn [List.length]; lia]].
      destruct (actuators_inhabited ac (AA ac eq_refl)) as (q & v & Q). apply leaves_spec in Q; [|apply actuators_proper, (AA ac eq_refl)]. intros X. rewrite X in Q. destruct Q. }
  split; auto. split; auto.
  destruct (round_trip_contents _ V' K) as (file2 & s2 & G2 & L2 & _ & _ & _ & _ & C1 & _). fold c' in G. rewrite G in G2. injection G2 as <-. rewrite L in L2. injection L2 as <-.
  destruct (C1 (without_parts h)) as (g & J1 & J2); [cbn [c' with_heliostats sc_heliostats]; apply in_or_app; right; left; auto|].
  exists g, (expected c' (without_parts h)). repeat split; auto.
Qed.
