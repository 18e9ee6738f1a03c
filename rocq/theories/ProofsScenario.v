(** Proofs of the scenario round trip (C59, C67, C79, C80). *)
From Coq Require Import List Arith Bool String Ascii Sorted Permutation Reals Lra Lia Classical_Prop.
From Verif Require Import ModelField ModelVectors ProofsVectors ModelTransforms ModelHdf5 SpecHdf5 ProofsHdf5 ModelScenario SpecScenario.
Import ListNotations.
Local Open Scope string_scope.

(** ** Alphabetical order *)
Section Order.
Variable A : Type.
Variable name : A -> string.
Lemma insert_perm : forall x l, Permutation (insert_by name x l) (x :: l).
Proof. intros x l. induction l as [|y l IH]; cbn; auto. destruct String.compare; auto. rewrite IH. apply perm_swap. Qed.
Lemma in_order_perm : forall l, Permutation (in_order name l) l.
Proof. induction l as [|x l IH]; cbn; auto. rewrite insert_perm. rewrite IH. auto. Qed.
Lemma insert_sorted : forall x l, StronglySorted before (map name l) -> ~ In (name x) (map name l) -> StronglySorted before (map name (insert_by name x l)).
Proof.
  intros x l. induction l as [|y l IH]; intros S N; [repeat constructor|]. cbn in S, N. inversion S as [|? ? S1 S2]; subst. rewrite Forall_forall in S2. cbn.
  destruct (String.compare (name x) (name y)) eqn:C.
  - apply compare_eq in C. exfalso. auto.
  - cbn. constructor; auto. rewrite Forall_forall. intros z [<-|I]; auto. eapply before_trans; [exact C|apply S2; auto].
  - cbn. constructor; [apply IH; auto|]. rewrite Forall_forall. intros z I. apply in_map_iff in I. destruct I as (w & <- & I).
    apply (Permutation_in _ (insert_perm x l)) in I. destruct I as [<-|I]; [|apply S2; apply in_map; auto]. unfold before. rewrite String.compare_antisym, C. auto.
Qed.
Lemma in_order_sorted : forall l, NoDup (map name l) -> StronglySorted before (map name (in_order name l)).
Proof.
  induction l as [|x l IH]; intros N; [constructor|]. cbn [map] in N. inversion N as [|? ? N1 N2]; subst. cbn. apply insert_sorted; [apply IH; auto|].
  intros I. apply N1. apply (Permutation_in _ (Permutation_map name (in_order_perm l))). auto.
Qed.
Lemma in_order_in : forall l x, In x (in_order name l) <-> In x l.
Proof. intros l x. split; apply Permutation_in; [|symmetry]; apply in_order_perm. Qed.
End Order.
Arguments in_order_in {A} name {l x}.

(** ** Files that hold a dictionary *)
Definition holds (h : h5) (t : tree) : Prop := tidy h /\ forall p, stored_at h p = parameter_at t p.
Definition inhabited (t : tree) : Prop := exists p v, parameter_at t p = Some v.
Lemma inhabited_leaf : forall v, inhabited (Leaf v).
Proof. intros v. exists [], v. auto. Qed.
Lemma inhabited_node : forall d k t, find_link k d = Some t -> inhabited t -> inhabited (Node d).
Proof. intros d k t F (p & v & E). exists (k :: p), v. rewrite parameter_cons, F. auto. Qed.
Lemma holds_group : forall h d, holds h (Node d) -> exists links, h = Group links.
Proof. intros [v|links] d (T & H); [|eauto]. specialize (H []). rewrite stored_nil, parameter_nil in H. discriminate. Qed.
Lemma holds_leaf : forall h v, holds h (Leaf v) -> h = Dataset v.
Proof. intros [w|links] v (T & H); specialize (H []); rewrite stored_nil, parameter_nil in H; congruence. Qed.
Lemma holds_child : forall h d k t, holds h (Node d) -> find_link k d = Some t -> inhabited t ->
  exists h', item h k = Ok h' /\ has_key h k = true /\ holds h' t /\ forall p, get h (k :: p) = get h' p.
Proof.
  intros h d k t H F I. destruct (holds_group _ _ H) as (links & ->). destruct H as (T & H).
  destruct I as (p & v & E). pose proof (H (k :: p)) as Q. rewrite stored_cons, parameter_cons, F, E in Q. cbn [item has_key get].
  destruct (find_link k links) as [h'|] eqn:FL; [|discriminate]. exists h'. split; auto. split; auto. split; auto. split.
  - apply tidy_group in T. apply (proj2 T k). apply find_in; auto.
  - intros q. specialize (H (k :: q)). rewrite stored_cons, parameter_cons, F, FL in H. auto.
Qed.
Lemma holds_missing : forall h d k, holds h (Node d) -> (forall t, find_link k d = Some t -> ~ inhabited t) ->
  item h k = Err KeyError /\ has_key h k = false /\ forall p, get h (k :: p) = None.
Proof.
  intros h d k H F. destruct (holds_group _ _ H) as (links & ->). destruct H as (T & H). cbn [item has_key get].
  destruct (find_link k links) as [h'|] eqn:FL; auto. exfalso. apply tidy_group in T. destruct (proj2 T k h') as (N & T'); [apply find_in; auto|].
  destruct (tidy_inhabited h') as (q & v & Q); auto. specialize (H (k :: q)). rewrite stored_cons, parameter_cons, FL, Q in H.
  destruct (find_link k d) as [t|] eqn:FD; [|discriminate]. apply (F t); auto. exists q, v. auto.
Qed.
Lemma holds_read : forall h d k v, holds h (Node d) -> find_link k d = Some (Leaf v) -> read h k = Ok v.
Proof.
  intros h d k v H F. destruct (holds_child h d k (Leaf v)) as (h' & E & _ & H' & _); auto using inhabited_leaf.
  unfold read. rewrite E. cbn [bind]. apply holds_leaf in H'. subst. auto.
Qed.
(** A dictionary made from a list of named things. *)
Lemma holds_keys : forall {A} (name : A -> string) (dict : A -> tree) l h, NoDup (map name l) -> (forall x, In x l -> inhabited (dict x)) ->
  holds h (Node (map (fun x => (name x, dict x)) l)) -> keys h = map name (in_order name l).
Proof.
  intros A name dict l h N I H. destruct (holds_group _ _ H) as (links & ->). destruct H as (T & H). cbn [keys].
  assert (NM : map fst (map (fun x => (name x, dict x)) l) = map name l) by (rewrite map_map; auto).
  apply sorted_unique; [apply tidy_group in T; apply T|apply in_order_sorted; auto|]. intros k. rewrite keys_spec by auto. split.
  - intros (q & v & Q). rewrite H, parameter_cons in Q. destruct (find_link k _) as [t|] eqn:F; [|discriminate]. apply find_in in F. apply in_map_iff in F.
    destruct F as (x & E & F). injection E as <- _. apply in_map_iff. exists x. split; auto. apply (proj2 (in_order_in name)); auto.
  - intros K. apply in_map_iff in K. destruct K as (x & <- & K). apply (proj1 (in_order_in name)) in K. destruct (I x K) as (p & v & E). exists p, v.
    rewrite H, parameter_cons. rewrite (in_find (name x) (dict x)); auto; [rewrite NM; auto|]. apply in_map_iff. exists x. auto.
Qed.
Lemma holds_entry : forall {A} (name : A -> string) (dict : A -> tree) l h x, NoDup (map name l) -> In x l -> inhabited (dict x) ->
  holds h (Node (map (fun x => (name x, dict x)) l)) -> exists h', item h (name x) = Ok h' /\ holds h' (dict x).
Proof.
  intros A name dict l h x N I J H. destruct (holds_child h _ (name x) (dict x) H) as (h' & E & _ & H' & _); eauto.
  apply in_find; [rewrite map_map; auto|]. apply in_map_iff. exists x. auto.
Qed.
Lemma map_res_ok : forall {A B C} (f : B -> res C) (g : A -> B) (r : A -> C) l, (forall x, In x l -> f (g x) = Ok (r x)) -> map_res f (map g l) = Ok (map r l).
Proof.
  intros A B C f g r l. induction l as [|x l IH]; intros H; cbn; auto. rewrite H by (left; auto). cbn [bind]. rewrite IH by (intros; apply H; right; auto). auto.
Qed.
Lemma list_inhabited : forall {A} (name : A -> string) (dict : A -> tree) l, l <> [] -> (forall x, In x l -> inhabited (dict x)) ->
  inhabited (Node (map (fun x => (name x, dict x)) l)).
Proof.
  intros A name dict [|x l] N I; [congruence|]. apply (inhabited_node _ (name x) (dict x)); [cbn; rewrite String.eqb_refl; auto|]. apply I. left; auto.
Qed.
Lemma dict_of_named : forall {A} (name : A -> string) (dict : A -> tree) l, NoDup (map name l) ->
  dict_of (map (fun x => (name x, dict x)) l) = map (fun x => (name x, dict x)) l.
Proof. intros. apply dict_of_nodup. rewrite map_map. auto. Qed.

(** ** Proper dictionaries *)
Ltac names := repeat split; try discriminate; try reflexivity.
Lemma proper_list : forall {A} (name : A -> string) (dict : A -> tree) l, named name l -> (forall x, In x l -> proper (dict x)) ->
  proper (Node (map (fun x => (name x, dict x)) l)).
Proof.
  intros A name dict l (N & P) D. apply proper_node. split; [rewrite map_map; auto|]. intros k t I. apply in_map_iff in I. destruct I as (x & E & I).
  injection E as <- <-. auto.
Qed.
Lemma complete_list : forall {A} (name : A -> string) (dict : A -> tree) l, (forall x, In x l -> complete (dict x)) ->
  complete (Node (map (fun x => (name x, dict x)) l)).
Proof. intros A name dict l D. apply complete_node. intros k t I. apply in_map_iff in I. destruct I as (x & E & I). injection E as <- <-. auto. Qed.
Ltac entry J := lazymatch type of J with
  | _ \/ _ => destruct J as [J|J]; [injection J as <- <-; split; [names|try exact Logic.I]|entry J]
  | False => contradiction J end.
Ltac entry' J tac := lazymatch type of J with
  | _ \/ _ => destruct J as [J|J]; [injection J as <- <-; tac|entry' J tac]
  | False => contradiction J end.
Ltac nodup := repeat (constructor; [cbn; intuition discriminate|]); constructor.
Lemma facet_proper : forall f, proper (facet_dict f) /\ complete (facet_dict f) /\ inhabited (facet_dict f).
Proof.
  intros f. unfold facet_dict. split; [|split].
  - apply proper_node. split; [cbn; nodup|]. intros k t J. cbn in J. entry J.
  - cbn. repeat split; discriminate.
  - apply (inhabited_node _ "degrees" (Leaf (Array (f_degrees f)))); auto using inhabited_leaf.
Qed.
Lemma surface_proper : forall s, named f_key s -> proper (surface_dict s) /\ complete (surface_dict s).
Proof.
  intros s N. unfold surface_dict. rewrite dict_of_named by apply N. split.
  - apply proper_node. split; [cbn; nodup|]. intros k t [E|[]]. injection E as <- <-. split; [names|]. apply proper_list; auto. intros f _. apply facet_proper.
  - apply complete_node. intros k t [E|[]]. injection E as <- <-. apply complete_list. intros f _. apply facet_proper.
Qed.
Lemma members_in : forall {D} (name : D -> string) all values k t, In (k, t) (members name all values) -> exists d x, In d all /\ k = name d /\ t = number x /\ values d = Some x.
Proof.
  intros D name all values k t I. unfold members in I. apply in_flat_map in I. destruct I as (d & J & I). destruct (values d) as [x|] eqn:V; [|contradiction].
  destruct I as [E|[]]. injection E as <- <-. eauto 6.
Qed.
Lemma members_nodup : forall {D} (name : D -> string) all values, NoDup (map name all) -> NoDup (map fst (members name all values)).
Proof.
  intros D name all values. induction all as [|d all IH]; intros N; [constructor|]. cbn [map] in N. inversion N as [|? ? N1 N2]; subst. unfold members. cbn [flat_map].
  destruct (values d) as [x|] eqn:V; [|apply IH; auto]. cbn [app map fst]. constructor; [|apply IH; auto]. intros I. apply in_map_iff in I. destruct I as ((k & t) & E & I).
  apply members_in in I. destruct I as (d' & y & J & -> & _). cbn in E. apply N1. rewrite <- E. apply in_map. auto.
Qed.
Lemma members_proper : forall {D} (name : D -> string) all values, NoDup (map name all) -> (forall d, proper_name (name d)) ->
  proper (Node (members name all values)) /\ complete (Node (members name all values)).
Proof.
  intros D name all values N P. split.
  - apply proper_node. split; [apply members_nodup; auto|]. intros k t I. apply members_in in I. destruct I as (d & x & _ & -> & -> & _). split; [auto|exact Logic.I].
  - apply complete_node. intros k t I. apply members_in in I. destruct I as (d & x & _ & -> & -> & _). cbn. discriminate.
Qed.
Lemma members_find : forall {D} (name : D -> string) all values d, NoDup (map name all) -> In d all ->
  find_link (name d) (members name all values) = option_map number (values d).
Proof.
  intros D name all values d N I. destruct (values d) as [x|] eqn:V; cbn.
  - apply in_find; [apply members_nodup; auto|]. unfold members. apply in_flat_map. exists d. split; auto. rewrite V. left; auto.
  - apply find_not_in. intros J. apply in_map_iff in J. destruct J as ((k & t) & E & J). apply members_in in J. destruct J as (d' & y & J & -> & -> & V'). cbn in E.
    assert (d' = d) as ->; [|congruence]. clear -N I J E. induction all as [|a all IH]; [contradiction|]. cbn in N. inversion N as [|? ? N1 N2]; subst.
    destruct I as [->|I], J as [->|J]; auto.
    + exfalso. apply N1. rewrite <- E. apply in_map; auto.
    + exfalso. apply N1. rewrite E. apply in_map; auto.
Qed.
Lemma deviation_names : NoDup (map deviation_name deviations_in_order) /\ (forall d, proper_name (deviation_name d)) /\ forall d, In d deviations_in_order.
Proof. split; [cbn; nodup|]. split; [intros []; names|]. intros []; cbn; tauto. Qed.
Definition parameters_in_order := [Increment; InitialStrokeLength; Offset; PivotRadius; InitialAngle].
Lemma parameter_names : NoDup (map parameter_name parameters_in_order) /\ (forall d, proper_name (parameter_name d)) /\ forall d, In d parameters_in_order.
Proof. split; [cbn; nodup|]. split; [intros []; names|]. intros []; cbn; tauto. Qed.
Lemma kinematics_proper : forall k, proper (kinematics_dict k) /\ complete (kinematics_dict k) /\ inhabited (kinematics_dict k).
Proof.
  intros k. unfold kinematics_dict. destruct deviation_names as (N & P & _). split; [|split].
  - apply proper_node. split; [destruct (k_deviations k); cbn; nodup|]. intros n t J. destruct (k_deviations k) as [d|]; cbn [app In] in J; entry J.
    exact (proj1 (members_proper _ _ _ N P)).
  - apply complete_node. intros n t J. destruct (k_deviations k) as [d|]; cbn [app In] in J; entry' J ltac:(try solve [cbn; discriminate]).
    exact (proj2 (members_proper _ _ _ N P)).
  - apply (inhabited_node _ "type" (Leaf (Text (k_type k)))); auto using inhabited_leaf.
Qed.
Lemma actuator_proper : forall a, proper (actuator_dict a) /\ complete (actuator_dict a) /\ inhabited (actuator_dict a).
Proof.
  intros a. unfold actuator_dict. destruct parameter_names as (N & P & _). split; [|split].
  - apply proper_node. split; [destruct (ac_parameters a); cbn; nodup|]. intros n t J. destruct (ac_parameters a) as [d|]; cbn [app In] in J; entry J.
    exact (proj1 (members_proper _ _ _ N P)).
  - apply complete_node. intros n t J. destruct (ac_parameters a) as [d|]; cbn [app In] in J; entry' J ltac:(try solve [cbn; discriminate]).
    exact (proj2 (members_proper _ _ _ N P)).
  - apply (inhabited_node _ "type" (Leaf (Text (ac_type a)))); auto using inhabited_leaf.
Qed.
Lemma actuators_proper : forall l, named ac_key l -> proper (actuator_list_dict l) /\ complete (actuator_list_dict l).
Proof.
  intros l N. unfold actuator_list_dict. rewrite dict_of_named by apply N. split; [apply proper_list; auto|apply complete_list]; intros a _; apply actuator_proper.
Qed.

(** ** Loading the parts *)
Ltac reading H := unfold read_text, read_array, read_number, read_flag; repeat (rewrite (holds_read _ _ _ _ H) by reflexivity; cbn [bind]).
Lemma holds_read' : forall h d k v, holds h (Node d) -> find_link k d = Some (Leaf v) ->
  read_text h k = match v with Text s => Ok s | _ => Err TypeError end
  /\ read_array h k = match v with Array a => Ok a | _ => Err TypeError end
  /\ read_number h k = match v with Array (Scalar x) => Ok x | _ => Err TypeError end
  /\ read_flag h k = match v with Flag b => Ok b | _ => Err TypeError end.
Proof. intros h d k v H F. unfold read_text, read_array, read_number, read_flag. rewrite (holds_read _ _ _ _ H F). auto. Qed.
Lemma load_facet_ok : forall h f, holds h (facet_dict f) -> (exists u v, f_degrees f = Rows [Scalar u; Scalar v]) -> load_facet h = Ok (as_loaded f).
Proof.
  intros h f H (u & v & D). unfold facet_dict in H. unfold load_facet.
  destruct (holds_read' h _ "control_points" _ H eq_refl) as (_ & -> & _). destruct (holds_read' h _ "degrees" _ H eq_refl) as (_ & -> & _).
  destruct (holds_read' h _ "position" _ H eq_refl) as (_ & -> & _). destruct (holds_read' h _ "canting" _ H eq_refl) as (_ & -> & _).
  cbn [bind]. unfold as_loaded. rewrite D. auto.
Qed.
Lemma surface_inhabited : forall s, named f_key s -> s <> [] -> inhabited (surface_dict s).
Proof.
  intros s N NE. unfold surface_dict. rewrite dict_of_named by apply N. eapply (inhabited_node _ "facets"); [reflexivity|]. apply list_inhabited; auto. intros f _. apply facet_proper.
Qed.
Lemma surface_config_ok : forall h s, holds h (surface_dict s) -> valid_surface s -> s <> [] -> surface_config h = Ok (map as_loaded (in_order f_key s)).
Proof.
  intros h s H ((N & P) & D) NE. unfold surface_config. unfold surface_dict in H. rewrite dict_of_named in H by auto.
  destruct (holds_child h _ "facets" _ H eq_refl) as (h' & -> & _ & H' & _); [apply list_inhabited; auto; intros f _; apply facet_proper|]. cbn [bind].
  rewrite (holds_keys f_key facet_dict s) by (auto; intros f _; apply facet_proper). apply map_res_ok. intros f I. apply (proj1 (in_order_in f_key)) in I.
  destruct (holds_entry f_key facet_dict s h' f) as (hf & -> & Hf); auto; [apply facet_proper|]. cbn [bind]. apply load_facet_ok; auto.
Qed.
Lemma members_read : forall {D} (name : D -> string) all (section : string) (values : option (D -> option R)) h d base,
  NoDup (map name all) -> In d all ->
  holds h (Node (base ++ match values with Some v => [(section, Node (members name all v))] | None => [] end)) ->
  ~ In section (map fst base) ->
  read_optional h [section; name d] = Ok (or_zero values d).
Proof.
  intros D name all section values h d base N I H B. unfold read_optional.
  assert (F : forall r, find_link section (base ++ r) = find_link section r).
  { intros r. apply find_not_in in B. clear -B. induction base as [|[k t] base IH]; auto. cbn in *. destruct (String.eqb section k); [discriminate|auto]. }
  destruct values as [v|]; cbn [or_zero].
  - assert (FS : find_link section (base ++ [(section, Node (members name all v))]) = Some (Node (members name all v))) by (rewrite F; cbn; rewrite String.eqb_refl; auto).
    destruct (v d) as [x|] eqn:V.
    + pose proof (members_find name all v d N I) as M. rewrite V in M. cbn in M.
      destruct (holds_child h _ section _ H FS) as (h' & _ & _ & H' & G); [apply (inhabited_node _ (name d) (number x)); auto; apply inhabited_leaf|]. rewrite G.
      destruct (holds_child h' _ (name d) _ H' M (inhabited_leaf _)) as (h'' & _ & _ & H'' & G'). rewrite G'. cbn [get]. apply holds_leaf in H''. subst. auto.
    + destruct (members name all v) as [|p m] eqn:E.
      * destruct (holds_missing h _ section H) as (_ & _ & G); [|rewrite G; auto]. intros t FT. rewrite FS in FT. injection FT as <-. intros ([|k q] & w & Q).
        -- rewrite parameter_nil in Q. discriminate.
        -- rewrite parameter_cons in Q. discriminate.
      * assert (IN : inhabited (Node (p :: m))).
        { destruct p as (k & t). assert (J : In (k, t) (members name all v)) by (rewrite E; left; auto). pose proof J as J'. apply members_in in J'. destruct J' as (d' & y & _ & _ & -> & _).
          apply (inhabited_node _ k (number y)); [|apply inhabited_leaf]. rewrite <- E. apply in_find; auto. apply members_nodup; auto. }
        destruct (holds_child h _ section _ H FS IN) as (h' & _ & _ & H' & G). rewrite G.
        pose proof (members_find name all v d N I) as M. rewrite V in M. cbn in M. rewrite E in M.
        destruct (holds_missing h' _ (name d) H') as (_ & _ & G'); [intros t; congruence|]. rewrite G'. auto.
  - destruct (holds_missing h _ section H) as (_ & _ & G); [|rewrite G; auto]. intros t. rewrite F. discriminate.
Qed.
Lemma deviations_ok : forall h k, holds h (kinematics_dict k) -> valid_kinematics k ->
  read_array h "initial_orientation" = Ok (k_orientation k) /\ read_text h "type" = Ok (k_type k)
  /\ kinematics_deviations (k_type k) h = Ok (map (or_zero (k_deviations k)) translation_order, map (or_zero (k_deviations k)) rotation_order, 2).
Proof.
  intros h k H V. unfold kinematics_dict in H. destruct deviation_names as (N & _ & A).
  split; [|split].
  - destruct (holds_read' h _ "initial_orientation" (Array (k_orientation k)) H eq_refl) as (_ & -> & _). auto.
  - destruct (holds_read' h _ "type" (Text (k_type k)) H eq_refl) as (-> & _). auto.
  - unfold kinematics_deviations. rewrite V. cbn [String.eqb Ascii.eqb Bool.eqb].
    assert (R : forall d, read_optional h ["deviations"; deviation_name d] = Ok (or_zero (k_deviations k) d)).
    { intros d. eapply members_read; eauto. cbn. intuition discriminate. }
    rewrite <- (map_id translation_order) at 1. rewrite (map_res_ok _ _ (or_zero (k_deviations k))) by auto. cbn [bind].
    rewrite <- (map_id rotation_order) at 1. rewrite (map_res_ok _ _ (or_zero (k_deviations k))) by auto. auto.
Qed.
Lemma delta_value : delta_angle = (- (PI / 2))%R.
Proof.
  unfold delta_angle, rotation_angle_and_axis.
  assert (N1 : norm (vec 0 (-1) 0) = 1%R) by (unfold norm; replace (dot _ _) with 1%R by (cbn [dot pe pn pu vec]; unfold dot; cbn; ring); apply sqrt_1).
  assert (N2 : norm (vec 0 0 1) = 1%R) by (unfold norm; replace (dot _ _) with 1%R by (unfold dot; cbn; ring); apply sqrt_1).
  rewrite N1, N2, Rinv_1.
  assert (C : cross (smul 1 (vec 0 (-1) 0)) (smul 1 (vec 0 0 1)) = vec (-1) 0 0) by (unfold cross, smul, vec; cbn; f_equal; ring).
  assert (D : dot (smul 1 (vec 0 (-1) 0)) (smul 1 (vec 0 0 1)) = 0%R) by (unfold dot, smul, vec; cbn; ring).
  rewrite C, D.
  assert (N3 : norm (vec (-1) 0 0) = 1%R) by (unfold norm; replace (dot _ _) with 1%R by (unfold dot; cbn; ring); apply sqrt_1).
  rewrite N3. replace (clamp (-1) 1 0) with 0%R by (unfold clamp; rewrite Rmax_left by lra; rewrite Rmin_left by lra; auto).
  destruct (Rlt_dec 0 0) as [L|_]; [lra|]. rewrite !andb_false_r. rewrite acos_0, Rinv_1. unfold smul, vec. cbn. lra.
Qed.
Lemma column_parameter : forall h a p, holds h (actuator_dict a) -> read_optional h ["parameters"; parameter_name p] = Ok (or_zero (ac_parameters a) p).
Proof.
  intros h a p H. unfold actuator_dict in H. destruct parameter_names as (N & _ & A). eapply members_read; [exact N|apply A|exact H|]. cbn. intuition discriminate.
Qed.
Lemma common_ok : forall h a i, holds h (actuator_dict a) -> common_column i h = Ok [i; clockwise_number a; ac_min a; ac_max a] /\ read_text h "type" = Ok (ac_type a).
Proof.
  intros h a i H. unfold actuator_dict in H. unfold common_column.
  destruct (holds_read' h _ "clockwise_axis_movement" (Flag (ac_clockwise a)) H eq_refl) as (_ & _ & _ & ->).
  destruct (holds_read' h _ "min_max_motor_positions" (Array (Rows [Scalar (ac_min a); Scalar (ac_max a)])) H eq_refl) as (_ & -> & _).
  destruct (holds_read' h _ "type" (Text (ac_type a)) H eq_refl) as (-> & _). auto.
Qed.
Lemma linear_ok : forall h a, holds h (actuator_dict a) -> ac_type a = "linear" ->
  linear_column h = Ok (fixed_column a, [or_zero (ac_parameters a) InitialAngle; or_zero (ac_parameters a) InitialStrokeLength]).
Proof.
  intros h a H T. unfold linear_column. rewrite (proj1 (common_ok h a 0%R H)). cbn [bind].
  rewrite (column_parameter h a Increment H : read_optional h ["parameters"; "increment"] = _). cbn [bind].
  rewrite (column_parameter h a InitialStrokeLength H : read_optional h ["parameters"; "initial_stroke_length"] = _). cbn [bind].
  rewrite (column_parameter h a Offset H : read_optional h ["parameters"; "offset"] = _). cbn [bind].
  rewrite (column_parameter h a PivotRadius H : read_optional h ["parameters"; "pivot_radius"] = _). cbn [bind].
  rewrite (column_parameter h a InitialAngle H : read_optional h ["parameters"; "initial_angle"] = _). cbn [bind].
  unfold fixed_column. rewrite T. auto.
Qed.
Lemma actuators_inhabited : forall l, valid_actuators l -> inhabited (actuator_list_dict l).
Proof.
  intros l (N & L & _). unfold actuator_list_dict. rewrite dict_of_named by apply N. apply list_inhabited; [destruct l; discriminate|]. intros a _. apply actuator_proper.
Qed.
Definition first_type (l : list actuator_config) : string := match in_order ac_key l with a :: _ => ac_type a | [] => "" end.
Lemma first_type_ok : forall l t, List.length l = 2 -> (forall a, In a l -> ac_type a = t) -> first_type l = t.
Proof.
  intros l t L T. unfold first_type. pose proof (Permutation_length (in_order_perm _ ac_key l)) as E. destruct (in_order ac_key l) as [|a r] eqn:O; [cbn in E; lia|].
  apply T. apply (in_order_in ac_key). rewrite O. left; auto.
Qed.
Lemma actuators_ok : forall h l, holds h (actuator_list_dict l) -> valid_actuators l ->
  map_res (fun k => bind (item h k) (fun a => read_text a "type")) (keys h) = Ok [first_type l; first_type l]
  /\ actuator_parameters h (first_type l) 2 = Ok (map fixed_column (in_order ac_key l), optimizable_columns (in_order ac_key l)).
Proof.
  intros h l H ((N & P) & L & t & TT & T). unfold actuator_list_dict in H. rewrite dict_of_named in H by auto.
  rewrite (first_type_ok l t) by auto.
  assert (K : keys h = map ac_key (in_order ac_key l)) by (apply (holds_keys ac_key actuator_dict); auto; intros a _; apply actuator_proper).
  assert (E : forall a, In a (in_order ac_key l) -> exists h', item h (ac_key a) = Ok h' /\ holds h' (actuator_dict a) /\ ac_type a = t).
  { intros a I. apply (proj1 (in_order_in ac_key)) in I. destruct (holds_entry ac_key actuator_dict l h a) as (h' & E & H'); auto; [apply actuator_proper|]. eauto. }
  assert (L2 : List.length (in_order ac_key l) = 2) by (rewrite (Permutation_length (in_order_perm _ ac_key l)); auto).
  rewrite K. split.
  - rewrite (map_res_ok _ ac_key ac_type).
    + destruct (in_order ac_key l) as [|a [|b [|? ?]]]; cbn in L2; try lia. cbn. destruct (E a) as (_ & _ & _ & ->); [cbn; auto|]. destruct (E b) as (_ & _ & _ & ->); cbn; auto.
    + intros a I. destruct (E a I) as (h' & -> & H' & _). cbn [bind]. apply (common_ok h' a 0%R H').
  - unfold actuator_parameters. rewrite K, map_length, L2. cbn [Nat.eqb negb]. destruct TT as [-> | ->]; cbn [String.eqb Ascii.eqb Bool.eqb].
    + rewrite (map_res_ok _ ac_key (fun a => (fixed_column a, [or_zero (ac_parameters a) InitialAngle; or_zero (ac_parameters a) InitialStrokeLength]))).
      * cbn [bind]. rewrite !map_map. cbn [fst snd]. f_equal. f_equal. destruct (in_order ac_key l) as [|a [|b [|? ?]]]; cbn in L2; try lia.
        cbn [map add_to_first_angle optimizable_columns]. destruct (E a) as (_ & _ & _ & ->); [cbn; auto|]. cbn [String.eqb Ascii.eqb Bool.eqb]. rewrite delta_value. auto.
      * intros a I. destruct (E a I) as (h' & -> & H' & T'). cbn [bind]. apply linear_ok; auto.
    + rewrite (map_res_ok _ ac_key fixed_column).
      * cbn [bind]. f_equal. f_equal. destruct (in_order ac_key l) as [|a [|b [|? ?]]]; cbn in L2; try lia.
        cbn [optimizable_columns]. destruct (E a) as (_ & _ & _ & ->); cbn; auto.
      * intros a I. destruct (E a I) as (h' & -> & H' & T'). cbn [bind]. rewrite (proj1 (common_ok h' a 1%R H')). unfold fixed_column. rewrite T'. auto.
Qed.

(** ** Prototypes and heliostats *)
Definition expected_prototypes (p : prototype_config) : prototypes :=
  {| p_facets := map as_loaded (in_order f_key (pr_surface p)); p_kinematics_type := k_type (pr_kinematics p); p_orientation := k_orientation (pr_kinematics p);
     p_translation := map (or_zero (k_deviations (pr_kinematics p))) translation_order; p_rotation := map (or_zero (k_deviations (pr_kinematics p))) rotation_order;
     p_actuator_type := first_type (pr_actuators p); p_fixed := map fixed_column (in_order ac_key (pr_actuators p));
     p_optimizable := optimizable_columns (in_order ac_key (pr_actuators p)) |}.
Definition prototype_tree (p : prototype_config) : list (string * tree) :=
  [("surface", surface_dict (pr_surface p)); ("kinematics", kinematics_dict (pr_kinematics p)); ("actuator", actuator_list_dict (pr_actuators p))].
Definition valid_proto (p : prototype_config) : Prop :=
  pr_surface p <> [] /\ valid_surface (pr_surface p) /\ valid_kinematics (pr_kinematics p) /\ valid_actuators (pr_actuators p).
Lemma nodup_twice : forall t, nodup string_dec [t; t] = [t].
Proof. intros t. unfold nodup. destruct (in_dec string_dec t [t]) as [_|N]; [|exfalso; apply N; left; auto]. destruct (in_dec string_dec t []) as [[]|_]; auto. Qed.
Lemma load_prototypes_ok : forall f h p, item f "prototypes" = Ok h -> holds h (Node (prototype_tree p)) -> valid_proto p -> load_prototypes f = Ok (expected_prototypes p).
Proof.
  intros f h p F H (NE & VS & VK & VA). unfold load_prototypes. rewrite F. cbn [bind].
  destruct (holds_child h _ "surface" _ H eq_refl (surface_inhabited _ (proj1 VS) NE)) as (hs & -> & _ & Hs & _). cbn [bind].
  rewrite (surface_config_ok hs _ Hs VS NE). cbn [bind].
  destruct (holds_child h _ "kinematics" _ H eq_refl (proj2 (proj2 (kinematics_proper _)))) as (hk & -> & _ & Hk & _). cbn [bind].
  destruct (deviations_ok hk _ Hk VK) as (-> & -> & E). cbn [bind]. rewrite E. cbn [bind].
  destruct (holds_child h _ "actuator" _ H eq_refl (actuators_inhabited _ VA)) as (ha & -> & _ & Ha & _). cbn [bind].
  destruct (actuators_ok ha _ Ha VA) as (-> & E'). cbn [bind]. rewrite nodup_twice. cbn [List.length Nat.ltb Nat.leb]. rewrite E'. cbn [bind]. auto.
Qed.
Definition valid_heliostat (c : scenario_config) (h : heliostat_config) : Prop :=
  (forall s, h_surface h = Some s -> valid_surface s /\ List.length s = List.length (pr_surface (sc_prototype c)))
  /\ (forall k, h_kinematics h = Some k -> valid_kinematics k)
  /\ (forall a, h_actuators h = Some a -> valid_actuators a).
Lemma heliostat_child : forall h hc k t, holds h (heliostat_dict hc) -> find_link k (match heliostat_dict hc with Node d => d | _ => [] end) = Some t -> inhabited t ->
  exists h', item h k = Ok h' /\ has_key h k = true /\ holds h' t.
Proof. intros h hc k t H F I. destruct (holds_child h _ k t H F I) as (h' & E & K & H' & _). eauto. Qed.
Lemma surface_nonempty : forall c h s, valid_proto (sc_prototype c) -> valid_heliostat c h -> h_surface h = Some s -> s <> [].
Proof. intros c h s (NE & _) (V & _) E. apply V in E. destruct E as (_ & L). destruct s; [|discriminate]. destruct (pr_surface _); [congruence|discriminate]. Qed.
Lemma facets_same : forall l s, (forall f, In f l -> shape (lf_control_points f) = s) -> forall first rest, l = first :: rest ->
  forallb (fun f => if shape_dec (shape (lf_control_points f)) (shape (lf_control_points first)) then true else false) l = true.
Proof.
  intros l s H first rest E. apply forallb_forall. intros f I. rewrite (H f I), (H first) by (rewrite E; left; auto). destruct shape_dec; congruence.
Qed.
Lemma load_heliostat_ok : forall c vars h hc s, holds h (heliostat_dict hc) -> valid_proto (sc_prototype c) -> valid_heliostat c hc ->
  (h_actuators hc <> None -> h_kinematics hc <> None \/ v_number_of_actuators vars = Some 2) ->
  (forall f, In f (facets_of c hc) -> shape (f_control_points f) = s) ->
  exists vars', load_heliostat vars (expected_prototypes (sc_prototype c)) (h_name hc) h = Ok (vars', expected c hc)
    /\ (h_kinematics hc <> None -> v_number_of_actuators vars' = Some 2) /\ (h_kinematics hc = None -> v_number_of_actuators vars' = v_number_of_actuators vars).
Proof.
  intros c vars h hc s H VP V OWN SH. unfold load_heliostat.
  assert (S : (if has_key h "surface" then bind (item h "surface") surface_config else Ok (p_facets (expected_prototypes (sc_prototype c)))) = Ok (map as_loaded (in_order f_key (facets_of c hc)))).
  { unfold facets_of. destruct (h_surface hc) as [sf|] eqn:E.
    - pose proof (surface_nonempty c hc sf VP V E) as NE. destruct (proj1 V sf E) as (VS & _).
      destruct (heliostat_child h hc "surface" (surface_dict sf) H) as (h' & -> & -> & H'); [cbn; rewrite E; auto|apply surface_inhabited; auto; apply VS|].
      cbn [bind]. apply surface_config_ok; auto.
    - destruct (holds_missing h _ "surface" H) as (_ & -> & _); [|auto]. intros t. cbn. rewrite E. destruct (h_kinematics hc), (h_actuators hc); discriminate. }
  rewrite S. cbn [bind].
  assert (K : exists vars', load_kinematics vars (expected_prototypes (sc_prototype c)) h
    = Ok (vars', (k_type (kinematics_of c hc), k_orientation (kinematics_of c hc), map (or_zero (k_deviations (kinematics_of c hc))) translation_order,
                  map (or_zero (k_deviations (kinematics_of c hc))) rotation_order))
    /\ (h_kinematics hc <> None -> v_number_of_actuators vars' = Some 2) /\ (h_kinematics hc = None -> v_number_of_actuators vars' = v_number_of_actuators vars)).
  { unfold load_kinematics, kinematics_of. destruct (h_kinematics hc) as [k|] eqn:E.
    - destruct (heliostat_child h hc "kinematics" (kinematics_dict k) H) as (h' & -> & -> & H'); [cbn; rewrite E; destruct (h_surface hc); auto|apply kinematics_proper|]. cbn [bind].
      destruct (deviations_ok h' k H') as (-> & -> & D); [apply V; auto|]. cbn [bind]. rewrite D. cbn [bind]. eexists. split; [reflexivity|]. split; [auto|congruence].
    - destruct (holds_missing h _ "kinematics" H) as (_ & -> & _); [|eexists; split; [reflexivity|]; split; [congruence|auto]].
      intros t. cbn. rewrite E. destruct (h_surface hc), (h_actuators hc); discriminate. }
  destruct K as (vars1 & -> & N2 & N1). cbn [bind].
  assert (T : k_type (kinematics_of c hc) = "rigid_body").
  { unfold kinematics_of. destruct (h_kinematics hc) as [k|] eqn:E; [apply V; auto|apply VP]. }
  assert (A : exists vars', load_actuators vars1 (expected_prototypes (sc_prototype c)) (k_type (kinematics_of c hc)) h
    = Ok (vars', (first_type (actuators_of c hc), map fixed_column (in_order ac_key (actuators_of c hc)), optimizable_columns (in_order ac_key (actuators_of c hc))))
    /\ v_number_of_actuators vars' = v_number_of_actuators vars1).
  { unfold load_actuators, actuators_of. destruct (h_actuators hc) as [a|] eqn:E.
    - pose proof (proj2 (proj2 V) a E) as VA. assert (NK : v_number_of_actuators vars1 = Some 2).
      { destruct (h_kinematics hc) eqn:EK; [apply N2; congruence|]. rewrite N1 by auto. destruct OWN; congruence. }
      destruct (heliostat_child h hc "actuator" (actuator_list_dict a) H) as (h' & -> & -> & H'); [cbn; rewrite E; destruct (h_surface hc), (h_kinematics hc); auto|apply actuators_inhabited; auto|]. cbn [bind].
      destruct (actuators_ok h' a H' VA) as (-> & P). cbn [bind]. rewrite T. cbn [String.eqb Ascii.eqb Bool.eqb]. rewrite nodup_twice. cbn [List.length Nat.ltb Nat.leb bind].
      rewrite NK, P. cbn [bind]. eauto.
    - destruct (holds_missing h _ "actuator" H) as (_ & -> & _); [|eexists; split; reflexivity].
      intros t. cbn. rewrite E. destruct (h_surface hc), (h_kinematics hc); discriminate. }
  destruct A as (vars2 & -> & NV). cbn [bind].
  assert (NF : facets_of c hc <> []).
  { unfold facets_of. destruct (h_surface hc) eqn:E; [eapply surface_nonempty; eauto|apply VP]. }
  assert (SL : forall f, In f (map as_loaded (in_order f_key (facets_of c hc))) -> shape (lf_control_points f) = s).
  { intros f I. apply in_map_iff in I. destruct I as (g & <- & I). apply (proj1 (in_order_in f_key)) in I. cbn. auto. }
  destruct (map as_loaded (in_order f_key (facets_of c hc))) as [|first rest] eqn:ML.
  { exfalso. apply NF. apply map_eq_nil in ML. pose proof (in_order_perm _ f_key (facets_of c hc)) as P. rewrite ML in P. apply Permutation_nil in P. auto. }
  rewrite <- ML in *. rewrite (facets_same _ s SL first rest ML).
  destruct (holds_read' h _ "position" (Array (h_position hc)) H eq_refl) as (_ & -> & _). cbn [bind]. exists vars2. rewrite NV. auto.
Qed.
Lemma load_heliostats_ok : forall c s h, valid_proto (sc_prototype c) -> (forall hc, In hc (sc_heliostats c) -> valid_heliostat c hc) ->
  (forall hc f, In hc (sc_heliostats c) -> In f (facets_of c hc) -> shape (f_control_points f) = s) ->
  NoDup (map h_name (sc_heliostats c)) ->
  holds h (Node (map (fun x => (h_name x, heliostat_dict x)) (sc_heliostats c))) ->
  forall l vars, (forall hc, In hc l -> In hc (sc_heliostats c)) ->
  (v_number_of_actuators vars = Some 2 \/ forall before hc after, l = (before ++ hc :: after)%list -> h_actuators hc <> None ->
     exists h', In h' (before ++ [hc])%list /\ h_kinematics h' <> None) ->
  load_heliostats vars (expected_prototypes (sc_prototype c)) h (map h_name l) = Ok (map (expected c) l).
Proof.
  intros c s h VP V SH N H l. induction l as [|hc l IH]; intros vars I OWN; auto. cbn [map load_heliostats].
  destruct (holds_entry h_name heliostat_dict (sc_heliostats c) h hc) as (h' & -> & H'); auto; [apply I; left; auto| |].
  { apply (inhabited_node _ "position" (Leaf (Array (h_position hc)))); [reflexivity|apply inhabited_leaf]. }
  cbn [bind]. destruct (load_heliostat_ok c vars h' hc s) as (vars' & -> & K1 & K2); auto; [apply V, I; left; auto| |intros f J; eapply SH; eauto; apply I; left; auto|].
  { intros A. destruct OWN as [OWN|OWN]; auto. destruct (OWN [] hc l eq_refl A) as (x & [<-|[]] & K). auto. }
  cbn [bind]. rewrite IH; auto; [intros; apply I; right; auto|].
  destruct (h_kinematics hc) as [k|] eqn:EK; [left; apply K1; discriminate|]. destruct OWN as [OWN|OWN]; [left; rewrite K2; auto|].
  right. intros before x after E A. destruct (OWN (hc :: before) x after) as (y & J & Y); [rewrite E; auto|auto|]. destruct J as [<-|J]; [congruence|]. eauto.
Qed.
(** A heliostat with actuators of its own before any kinematics are known. *)
Lemma load_heliostat_fails : forall c vars h hc a, holds h (heliostat_dict hc) -> valid_proto (sc_prototype c) -> valid_heliostat c hc ->
  h_kinematics hc = None -> h_actuators hc = Some a -> v_number_of_actuators vars = None ->
  load_heliostat vars (expected_prototypes (sc_prototype c)) (h_name hc) h = Err UnboundLocalError.
Proof.
  intros c vars h hc a H VPR V EK EA EV. unfold load_heliostat.
  assert (S : exists x, (if has_key h "surface" then bind (item h "surface") surface_config else Ok (p_facets (expected_prototypes (sc_prototype c)))) = Ok x).
  { destruct (h_surface hc) as [sf|] eqn:ES.
    - pose proof (surface_nonempty c hc sf VPR V ES) as NE. destruct (proj1 V sf ES) as (VS & _).
      destruct (heliostat_child h hc "surface" (surface_dict sf) H) as (h'' & -> & -> & H'); [cbn; rewrite ES; auto|apply surface_inhabited; auto; apply VS|].
      cbn [bind]. eexists. apply (surface_config_ok _ sf); auto.
    - destruct (holds_missing h _ "surface" H) as (_ & -> & _); [|eauto]. intros t. cbn. rewrite ES, EK, EA. discriminate. }
  destruct S as (x & ->). cbn [bind]. unfold load_kinematics. destruct (holds_missing h _ "kinematics" H) as (_ & -> & _).
  { intros t. cbn. rewrite EK, EA. destruct (h_surface hc); discriminate. }
  cbn [bind]. unfold load_actuators.
  pose proof (proj2 (proj2 V) a EA) as VA.
  destruct (heliostat_child h hc "actuator" (actuator_list_dict a) H) as (h'' & -> & -> & H'); [cbn; rewrite EA; destruct (h_surface hc), (h_kinematics hc); auto|apply actuators_inhabited; auto|]. cbn [bind].
  destruct (actuators_ok h'' a H' VA) as (-> & P). cbn [bind]. cbn [p_kinematics_type expected_prototypes]. rewrite (proj1 (proj2 (proj2 VPR)) : k_type _ = _). cbn [String.eqb Ascii.eqb Bool.eqb]. rewrite nodup_twice. cbn [List.length Nat.ltb Nat.leb bind]. rewrite EV. auto.
Qed.
Lemma load_heliostats_fail : forall c s h, valid_proto (sc_prototype c) -> (forall hc, In hc (sc_heliostats c) -> valid_heliostat c hc) ->
  (forall hc f, In hc (sc_heliostats c) -> In f (facets_of c hc) -> shape (f_control_points f) = s) ->
  NoDup (map h_name (sc_heliostats c)) ->
  holds h (Node (map (fun x => (h_name x, heliostat_dict x)) (sc_heliostats c))) ->
  forall before hc after vars, (forall x, In x (before ++ hc :: after) -> In x (sc_heliostats c)) ->
  v_number_of_actuators vars = None -> h_actuators hc <> None -> (forall x, In x (before ++ [hc]) -> h_kinematics x = None) ->
  load_heliostats vars (expected_prototypes (sc_prototype c)) h (map h_name (before ++ hc :: after)%list) = Err UnboundLocalError.
Proof.
  intros c s h VP V SH N H before. induction before as [|b before IH]; intros hc after vars I EV A K; cbn [map app load_heliostats].
  - destruct (holds_entry h_name heliostat_dict (sc_heliostats c) h hc) as (h' & -> & H'); auto; [apply I; left; auto| |].
    { apply (inhabited_node _ "position" (Leaf (Array (h_position hc)))); [reflexivity|apply inhabited_leaf]. }
    cbn [bind]. destruct (h_actuators hc) as [a|] eqn:EA; [|congruence]. rewrite (load_heliostat_fails c vars h' hc a); auto; [apply V, I; left; auto|apply K; left; auto].
  - assert (IB : In b (sc_heliostats c)) by (apply I; left; auto). assert (KB : h_kinematics b = None) by (apply K; left; auto).
    destruct (holds_entry h_name heliostat_dict (sc_heliostats c) h b) as (h' & -> & H'); auto.
    { apply (inhabited_node _ "position" (Leaf (Array (h_position b)))); [reflexivity|apply inhabited_leaf]. }
    cbn [bind]. destruct (h_actuators b) as [a|] eqn:EA; [rewrite (load_heliostat_fails c vars h' b a); auto|].
    destruct (load_heliostat_ok c vars h' b s) as (vars' & -> & _ & K2); auto; [intros f J; eapply SH; eauto|]. cbn [bind].
    rewrite IH; auto; [intros; apply I; right; auto|rewrite K2; auto|intros x J; apply K; right; auto].
Qed.

(** ** Groups *)
Definition grouping (groups : list (string * list heliostat)) (hs : list heliostat) : Prop :=
  NoDup (map fst groups)
  /\ (forall k members, In (k, members) groups -> members <> [] /\ members = filter (fun h => String.eqb (group_key h) k) hs)
  /\ (forall h, In h hs -> In (group_key h) (map fst groups)).
Lemma add_names : forall h groups, map fst (add_to_group h groups) = if in_dec string_dec (group_key h) (map fst groups) then map fst groups else (map fst groups ++ [group_key h])%list.
Proof.
  intros h groups. induction groups as [|[k m] groups IH]; [reflexivity|]. cbn [add_to_group map fst app]. destruct (String.eqb_spec (group_key h) k) as [E|E].
  - cbn [map fst]. clear IH. destruct in_dec as [_|N]; auto. exfalso. apply N. left; auto.
  - cbn [map fst]. rewrite IH. destruct (in_dec string_dec (group_key h) (map fst groups)), (in_dec string_dec (group_key h) (k :: map fst groups)) as [J|J]; auto.
    + exfalso. apply J. right; auto.
    + destruct J as [J|J]; [congruence|contradiction].
Qed.
Lemma add_in : forall h groups k members, NoDup (map fst groups) -> In (k, members) (add_to_group h groups) ->
  if String.eqb (group_key h) k then (exists m, In (k, m) groups /\ members = (m ++ [h])%list) \/ (~ In k (map fst groups) /\ members = [h]) else In (k, members) groups.
Proof.
  intros h groups k members. induction groups as [|[k' m] groups IH]; intros N I; cbn [add_to_group] in I.
  - destruct I as [I|[]]. injection I as <- <-. rewrite String.eqb_refl. right. auto.
  - cbn [map fst] in N. inversion N as [|? ? N1 N2]; subst. destruct (String.eqb_spec (group_key h) k') as [E|E].
    + destruct I as [I|I].
      * injection I as <- <-. rewrite <- E, String.eqb_refl. left. exists m. split; [left; congruence|auto].
      * destruct (String.eqb_spec (group_key h) k) as [E'|E']; [|right; auto]. exfalso. apply N1. rewrite <- E, E'. apply (in_map fst) in I. auto.
    + destruct I as [I|I].
      * injection I as <- <-. destruct (String.eqb_spec (group_key h) k') as [E'|E']; [congruence|left; auto].
      * specialize (IH N2 I). destruct (String.eqb_spec (group_key h) k) as [E'|E']; [|right; auto]. destruct IH as [(m' & J & ->)|(J & ->)]; [left; exists m'; split; [right; auto|auto]|].
        right. split; auto. intros [Q|Q]; [|auto]. cbn in Q. congruence.
Qed.
Lemma add_grouping : forall h groups hs, grouping groups hs -> grouping (add_to_group h groups) (hs ++ [h]).
Proof.
  intros h groups hs (N & M & C). split; [|split].
  - rewrite add_names. destruct in_dec as [_|J]; auto. apply (Permutation_NoDup (Permutation_cons_append _ _)). constructor; auto.
  - intros k members I. apply add_in in I; auto. rewrite filter_app. cbn [filter]. destruct (String.eqb_spec (group_key h) k) as [E|E].
    + destruct I as [(m & J & ->)|(J & ->)].
      * destruct (M _ _ J) as (NE & ->). split; auto. destruct (filter _ hs); discriminate.
      * split; [discriminate|]. assert (F : filter (fun h0 => String.eqb (group_key h0) k) hs = []); [|rewrite F; auto].
        destruct (filter _ hs) as [|x r] eqn:F; auto. exfalso. assert (X : In x (filter (fun h0 => String.eqb (group_key h0) k) hs)) by (rewrite F; left; auto).
        apply filter_In in X. destruct X as (X & Q). apply String.eqb_eq in Q. apply J. rewrite <- Q. auto.
    + destruct (M _ _ I) as (NE & EQ). rewrite app_nil_r. auto.
  - intros x I. rewrite add_names. apply in_app_or in I. destruct in_dec as [J|J].
    + destruct I as [I|[<-|[]]]; auto.
    + apply in_or_app. destruct I as [I|[<-|[]]]; [left; auto|right; left; auto].
Qed.
Lemma grouped_grouping : forall hs, grouping (grouped hs) hs.
Proof.
  intros hs. unfold grouped. assert (G : forall l groups done, grouping groups done -> grouping (fold_left (fun groups h => add_to_group h groups) l groups) (done ++ l)).
  { induction l as [|h l IH]; intros groups done H; cbn [fold_left]; [rewrite app_nil_r; auto|].
    replace (done ++ h :: l)%list with ((done ++ [h]) ++ l)%list by (rewrite <- app_assoc; auto). apply IH. apply add_grouping; auto. }
  apply (G hs [] []). split; [constructor|]. split; intros; contradiction.
Qed.

(** ** Towers and light sources *)
Lemma planar_proper : forall t, proper (planar_dict t) /\ complete (planar_dict t) /\ inhabited (planar_dict t).
Proof.
  intros t. unfold planar_dict. split; [|split].
  - apply proper_node. split; [cbn; nodup|]. intros k x J. cbn in J. entry J.
  - apply complete_node. intros k x J. cbn in J. entry' J ltac:(cbn; discriminate).
  - apply (inhabited_node _ "plane_e" (number (tp_plane_e t))); [reflexivity|apply inhabited_leaf].
Qed.
Lemma cylindrical_proper : forall t, proper (cylindrical_dict t) /\ complete (cylindrical_dict t) /\ inhabited (cylindrical_dict t).
Proof.
  intros t. unfold cylindrical_dict. split; [|split].
  - apply proper_node. split; [cbn; nodup|]. intros k x J. cbn in J. entry J.
  - apply complete_node. intros k x J. cbn in J. entry' J ltac:(cbn; discriminate).
  - apply (inhabited_node _ "cylinder_radius" (number (tc_radius t))); [reflexivity|apply inhabited_leaf].
Qed.
Lemma light_source_proper : forall l, valid_light_source l -> proper (light_source_dict l) /\ complete (light_source_dict l) /\ inhabited (light_source_dict l).
Proof.
  intros l (_ & _ & (m & M) & (v & V & _)). unfold light_source_dict. rewrite M, V. split; [|split].
  - apply proper_node. split; [cbn; nodup|]. intros k x J. cbn in J. entry J. apply proper_node. split; [cbn; nodup|]. intros k x J. cbn in J. entry J.
  - apply complete_node. intros k x J. cbn in J. entry' J ltac:(try solve [cbn; discriminate]). apply complete_node. intros k x J. cbn in J. entry' J ltac:(cbn; discriminate).
  - apply (inhabited_node _ "type" (Leaf (Text (ls_type l)))); [reflexivity|apply inhabited_leaf].
Qed.
Definition planar_of (t : planar_config) := (tp_key t, tp_center t, tp_normal t, tp_plane_e t, tp_plane_u t).
Definition cylindrical_of (t : cylindrical_config) := (tc_key t, tc_radius t, tc_center t, tc_height t, tc_axis t, tc_normal t, tc_opening t).
Definition sun_of (l : light_source_config) : R * R * R :=
  (INR (ls_rays l), match ls_mean l with Some m => m | None => 0%R end, match ls_covariance l with Some v => v | None => 0%R end).
Lemma load_planar_ok : forall f h l, item f "target_areas_planar" = Ok h -> holds h (Node (map (fun t => (tp_key t, planar_dict t)) l)) -> named tp_key l ->
  load_planar f = Ok (map planar_of (in_order tp_key l)).
Proof.
  intros f h l F H (N & _). unfold load_planar. rewrite F. cbn [bind]. rewrite (holds_keys tp_key planar_dict l) by (auto; intros t _; apply planar_proper).
  apply map_res_ok. intros t I. apply (proj1 (in_order_in tp_key)) in I. destruct (holds_entry tp_key planar_dict l h t) as (h' & -> & H'); auto; [apply planar_proper|]. cbn [bind].
  unfold planar_dict in H'. destruct (holds_read' h' _ "position_center" _ H' eq_refl) as (_ & -> & _). destruct (holds_read' h' _ "normal_vector" _ H' eq_refl) as (_ & -> & _).
  destruct (holds_read' h' _ "plane_e" _ H' eq_refl) as (_ & _ & -> & _). destruct (holds_read' h' _ "plane_u" _ H' eq_refl) as (_ & _ & -> & _). auto.
Qed.
Lemma load_cylindrical_ok : forall f h l, item f "target_areas_cylindrical" = Ok h -> holds h (Node (map (fun t => (tc_key t, cylindrical_dict t)) l)) -> named tc_key l ->
  load_cylindrical f = Ok (map cylindrical_of (in_order tc_key l)).
Proof.
  intros f h l F H (N & _). unfold load_cylindrical. rewrite F. cbn [bind]. rewrite (holds_keys tc_key cylindrical_dict l) by (auto; intros t _; apply cylindrical_proper).
  apply map_res_ok. intros t I. apply (proj1 (in_order_in tc_key)) in I. destruct (holds_entry tc_key cylindrical_dict l h t) as (h' & -> & H'); auto; [apply cylindrical_proper|]. cbn [bind].
  unfold cylindrical_dict in H'. destruct (holds_read' h' _ "cylinder_radius" _ H' eq_refl) as (_ & _ & -> & _). destruct (holds_read' h' _ "cylinder_center" _ H' eq_refl) as (_ & -> & _).
  destruct (holds_read' h' _ "cylinder_height" _ H' eq_refl) as (_ & _ & -> & _). destruct (holds_read' h' _ "cylinder_axis" _ H' eq_refl) as (_ & -> & _).
  destruct (holds_read' h' _ "cylinder_normal" _ H' eq_refl) as (_ & -> & _). destruct (holds_read' h' _ "cylinder_opening_angle" _ H' eq_refl) as (_ & _ & -> & _). auto.
Qed.
Lemma load_light_sources_ok : forall f h l, item f "lightsources" = Ok h -> holds h (Node (map (fun t => (ls_key t, light_source_dict t)) l)) -> named ls_key l ->
  (forall x, In x l -> valid_light_source x) -> load_light_sources f = Ok (map sun_of (in_order ls_key l)).
Proof.
  intros f h l F H (N & _) V. unfold load_light_sources. rewrite F. cbn [bind]. rewrite (holds_keys ls_key light_source_dict l) by (auto; intros t J; apply light_source_proper; auto).
  apply map_res_ok. intros t I. apply (proj1 (in_order_in ls_key)) in I. destruct (holds_entry ls_key light_source_dict l h t) as (h' & -> & H'); auto; [apply light_source_proper; auto|]. cbn [bind].
  destruct (V t I) as (T & D & (m & M) & (v & VV & P)). unfold light_source_dict in H'. rewrite M, VV in H'.
  destruct (holds_read' h' _ "type" (Text (ls_type t)) H' eq_refl) as (-> & _). cbn [bind]. rewrite T. cbn [String.eqb Ascii.eqb Bool.eqb]. unfold load_sun.
  destruct (holds_read' h' _ "number_of_rays" (Array (Scalar (INR (ls_rays t)))) H' eq_refl) as (_ & _ & -> & _). cbn [bind].
  destruct (holds_child h' _ "distribution_parameters" _ H' eq_refl) as (hd & -> & _ & Hd & _).
  { apply (inhabited_node _ "mean" (number m)); [reflexivity|apply inhabited_leaf]. }
  cbn [bind]. destruct (holds_read' hd _ "distribution_type" (Text (ls_distribution t)) Hd eq_refl) as (-> & _). cbn [bind].
  destruct (holds_child hd _ "mean" _ Hd eq_refl (inhabited_leaf _)) as (_ & _ & -> & _). destruct (holds_child hd _ "covariance" _ Hd eq_refl (inhabited_leaf _)) as (_ & _ & -> & _).
  destruct (holds_read' hd _ "mean" (Array (Scalar m)) Hd eq_refl) as (_ & _ & -> & _). destruct (holds_read' hd _ "covariance" (Array (Scalar v)) Hd eq_refl) as (_ & _ & -> & _).
  cbn [bind]. rewrite D. cbn [String.eqb Ascii.eqb Bool.eqb negb]. destruct (Rlt_dec 0 v) as [_|Q]; [|contradiction]. unfold sun_of. rewrite M, VV. auto.
Qed.

(** ** The field *)
Lemma expected_size : forall c s h, valid_proto (sc_prototype c) -> valid_heliostat c h -> (forall f, In f (facets_of c h) -> shape (f_control_points f) = s) ->
  List.length (l_facets (expected c h)) = List.length (pr_surface (sc_prototype c)) /\ match l_facets (expected c h) with [] => [] | f :: _ => shape (lf_control_points f) end = s.
Proof.
  intros c s h VP V SH. unfold expected. cbn [l_facets]. rewrite map_length, (Permutation_length (in_order_perm _ f_key _)).
  assert (L : List.length (facets_of c h) = List.length (pr_surface (sc_prototype c))).
  { unfold facets_of. destruct (h_surface h) as [sf|] eqn:E; auto. apply (proj1 V); auto. }
  split; auto. destruct (in_order f_key (facets_of c h)) as [|f r] eqn:O.
  - exfalso. pose proof (Permutation_length (in_order_perm _ f_key (facets_of c h))) as P. rewrite O, L in P. destruct VP as (NE & _). destruct (pr_surface _); [congruence|discriminate].
  - cbn. apply SH. apply (in_order_in f_key). rewrite O. left; auto.
Qed.
Lemma valid_actuators_of : forall c h, valid_proto (sc_prototype c) -> valid_heliostat c h -> valid_actuators (actuators_of c h).
Proof. intros c h VP V. unfold actuators_of. destruct (h_actuators h) eqn:E; [apply V; auto|apply VP]. Qed.
Lemma expected_types : forall c h, valid_proto (sc_prototype c) -> valid_heliostat c h ->
  l_kinematics_type (expected c h) = "rigid_body" /\ (l_actuator_type (expected c h) = "linear" \/ l_actuator_type (expected c h) = "ideal")
  /\ type_pairs (sc_prototype c) h = [("rigid_body", l_actuator_type (expected c h)); ("rigid_body", l_actuator_type (expected c h))].
Proof.
  intros c h VP V. destruct (valid_actuators_of c h VP V) as (_ & L & t & TT & T).
  assert (K : k_type (kinematics_of c h) = "rigid_body") by (unfold kinematics_of; destruct (h_kinematics h) eqn:E; [apply V; auto|apply VP]).
  assert (F : l_actuator_type (expected c h) = t) by (apply (first_type_ok (actuators_of c h) t L T)).
  split; [exact K|]. rewrite F. split; auto. unfold type_pairs. unfold kinematics_of in K. unfold actuators_of in L, T.
  replace (match h_kinematics h with Some k => k_type k | None => k_type (pr_kinematics (sc_prototype c)) end) with "rigid_body" by (destruct (h_kinematics h); auto).
  destruct (match h_actuators h with Some a => a | None => pr_actuators (sc_prototype c) end) as [|a [|b [|? ?]]]; cbn in L; try lia. cbn. rewrite !T by (cbn; auto). auto.
Qed.
Lemma load_field_ok : forall c f h s, item f "heliostats" = Ok h -> holds h (Node (map (fun x => (h_name x, heliostat_dict x)) (sc_heliostats c))) ->
  valid_proto (sc_prototype c) -> (forall hc, In hc (sc_heliostats c) -> valid_heliostat c hc) -> kinematics_available c ->
  (forall hc f, In hc (sc_heliostats c) -> In f (facets_of c hc) -> shape (f_control_points f) = s) -> named h_name (sc_heliostats c) ->
  let hs := map (expected c) (in_order h_name (sc_heliostats c)) in
  load_field (expected_prototypes (sc_prototype c)) f = Ok (map (fun '(k, members) => {| g_key := k; g_heliostats := members; g_degrees := last_degrees hs |}) (grouped hs)).
Proof.
  intros c f h s F H VP V OWN SH (N & P) hs. unfold load_field. rewrite F. cbn [bind].
  rewrite (holds_keys h_name heliostat_dict (sc_heliostats c)); auto.
  2:{ intros x _. apply (inhabited_node _ "position" (Leaf (Array (h_position x)))); [reflexivity|apply inhabited_leaf]. }
  rewrite (load_heliostats_ok c s h); auto; [|intros hc I; apply (proj1 (in_order_in h_name)) in I; auto]. cbn [bind]. fold hs.
  destruct (grouped_grouping hs) as (GN & GM & GC).
  assert (HS : forall x, In x hs -> exists hc, In hc (sc_heliostats c) /\ x = expected c hc).
  { intros x I. apply in_map_iff in I. destruct I as (hc & <- & I). apply (proj1 (in_order_in h_name)) in I. eauto. }
  assert (ST : forallb (fun '(_, members) => stackable members) (grouped hs) = true).
  { apply forallb_forall. intros (k & members) I. destruct (GM k members I) as (_ & EQ). unfold stackable. destruct members as [|first rest] eqn:EM; auto.
    apply forallb_forall. intros x J.
    assert (Z : forall y, In y (first :: rest) -> (List.length (l_facets y) :: match l_facets y with [] => [] | f :: _ => shape (lf_control_points f) end) = List.length (pr_surface (sc_prototype c)) :: s).
    { intros y Jy. rewrite EQ in Jy. apply filter_In in Jy. destruct (HS y (proj1 Jy)) as (hc & I' & ->). destruct (expected_size c s hc VP (V hc I')) as (-> & ->); auto. intros; eapply SH; eauto. }
    rewrite (Z x J), (Z first (or_introl eq_refl)). destruct shape_dec; congruence. }
  rewrite ST. cbn [negb].
  assert (KY : forallb (fun '(k, _) => String.eqb k "rigid_body_linear" || String.eqb k "rigid_body_ideal") (grouped hs) = true).
  { apply forallb_forall. intros (k & members) I. destruct (GM k members I) as (NE & EQ). destruct members as [|x rest]; [congruence|].
    assert (J : In x (filter (fun h => String.eqb (group_key h) k) hs)) by (rewrite <- EQ; left; auto). apply filter_In in J. destruct J as (J & Q). apply String.eqb_eq in Q.
    destruct (HS x J) as (hc & I' & ->). destruct (expected_types c hc VP (V hc I')) as (KT & AT & _). rewrite <- Q. unfold group_key. rewrite KT.
    destruct AT as [-> | ->]; reflexivity. }
  rewrite KY. auto.
Qed.

(** ** Writing the sections *)
Lemma write_section : forall file prefix d, proper_name prefix -> proper (Node d) -> complete (Node d) -> tidy (Group file) ->
  (forall q, stored_at (Group file) (prefix :: q) = None) ->
  exists file', include_parameters file prefix (flatten d) = Ok file' /\ tidy (Group file')
    /\ (forall path, stored_at (Group file') (prefix :: path) = parameter_at (Node d) path)
    /\ (forall k path, k <> prefix -> stored_at (Group file') (k :: path) = stored_at (Group file) (k :: path)).
Proof.
  intros file prefix d PN P C T F. apply include_all; auto. intros I. apply keys_spec in I; auto. destruct I as (q & v & I). rewrite F in I. discriminate.
Qed.

(** The dictionaries of the code are the configured ones. *)
Lemma facet_dict_entries : forall f, facet_dict f = facet_entries f.
Proof. auto. Qed.
Lemma surface_dict_entries : forall s, named f_key s -> surface_dict s = surface_entries s.
Proof. intros s (N & _). unfold surface_dict, surface_entries, entries. rewrite dict_of_named by auto. auto. Qed.
Lemma kinematics_dict_entries : forall k, kinematics_dict k = kinematics_entries k.
Proof. intros k. unfold kinematics_dict, kinematics_entries. auto. Qed.
Lemma actuators_dict_entries : forall l, named ac_key l -> actuator_list_dict l = entries ac_key actuator_entries l.
Proof. intros l (N & _). unfold actuator_list_dict. rewrite dict_of_named by auto. auto. Qed.
Lemma heliostat_dict_entries : forall h, (forall s, h_surface h = Some s -> named f_key s) -> (forall a, h_actuators h = Some a -> named ac_key a) ->
  heliostat_dict h = heliostat_entries h.
Proof.
  intros h S A. unfold heliostat_dict, heliostat_entries, part. destruct (h_surface h) as [s|]; [rewrite surface_dict_entries by auto|];
    (destruct (h_actuators h) as [a|]; [rewrite actuators_dict_entries by auto|]); destruct (h_kinematics h); auto.
Qed.
Lemma light_source_dict_entries : forall l, ls_mean l <> None -> ls_covariance l <> None -> light_source_dict l = light_source_entries l.
Proof. intros l M V. unfold light_source_dict, light_source_entries. destruct (ls_mean l); [|congruence]. destruct (ls_covariance l); [|congruence]. auto. Qed.
Lemma map_dict : forall {A} (name : A -> string) (d d' : A -> tree) l, (forall x, In x l -> d x = d' x) -> Node (map (fun x => (name x, d x)) l) = entries name d' l.
Proof. intros A name d d' l H. unfold entries. f_equal. apply map_ext_in. intros x I. rewrite H; auto. Qed.
Lemma heliostat_proper : forall h, (forall s, h_surface h = Some s -> named f_key s) -> (forall a, h_actuators h = Some a -> named ac_key a) ->
  proper (heliostat_dict h) /\ complete (heliostat_dict h).
Proof.
  intros h S A. unfold heliostat_dict. split.
  - apply proper_node. split; [destruct (h_surface h), (h_kinematics h), (h_actuators h); cbn; nodup|]. intros k t J. cbn [app In] in J.
    destruct J as [J|[J|J]]; [injection J as <- <-; split; [names|exact Logic.I]..|]. apply in_app_or in J. destruct J as [J|J].
    { destruct (h_surface h) as [s|]; [|contradiction]. destruct J as [J|[]]. injection J as <- <-. split; [names|]. apply (proj1 (surface_proper s (S s eq_refl))). }
    apply in_app_or in J. destruct J as [J|J].
    { destruct (h_kinematics h) as [s|]; [|contradiction]. destruct J as [J|[]]. injection J as <- <-. split; [names|]. apply (proj1 (kinematics_proper s)). }
    { destruct (h_actuators h) as [s|]; [|contradiction]. destruct J as [J|[]]. injection J as <- <-. split; [names|]. apply (proj1 (actuators_proper s (A s eq_refl))). }
  - apply complete_node. intros k t J. cbn [app In] in J.
    destruct J as [J|[J|J]]; [injection J as <- <-; cbn; discriminate..|]. apply in_app_or in J. destruct J as [J|J].
    { destruct (h_surface h) as [s|]; [|contradiction]. destruct J as [J|[]]. injection J as <- <-. apply (proj2 (surface_proper s (S s eq_refl))). }
    apply in_app_or in J. destruct J as [J|J].
    { destruct (h_kinematics h) as [s|]; [|contradiction]. destruct J as [J|[]]. injection J as <- <-. apply (proj1 (proj2 (kinematics_proper s))). }
    { destruct (h_actuators h) as [s|]; [|contradiction]. destruct J as [J|[]]. injection J as <- <-. apply (proj2 (actuators_proper s (A s eq_refl))). }
Qed.
Lemma light_proper : forall l, ls_mean l <> None -> ls_covariance l <> None -> proper (light_source_dict l) /\ complete (light_source_dict l).
Proof.
  intros l M V. unfold light_source_dict. destruct (ls_mean l); [|congruence]. destruct (ls_covariance l); [|congruence]. split.
  - apply proper_node. split; [cbn; nodup|]. intros k x J. cbn in J. entry J. apply proper_node. split; [cbn; nodup|]. intros k x J. cbn in J. entry J.
  - apply complete_node. intros k x J. cbn in J. entry' J ltac:(try solve [cbn; discriminate]). apply complete_node. intros k x J. cbn in J. entry' J ltac:(cbn; discriminate).
Qed.

Lemma generate_holds : forall c, writable c -> exists file, generate_scenario c = Ok file
  /\ holds file (Node (("number_of_heliostat_groups", number (INR (number_of_heliostat_groups c))) :: match configured c with Node d => d | Leaf _ => [] end)).
Proof.
  intros c [WP WC (WL & WL2) (WS & WA) WH WPARTS]. unfold generate_scenario.
  assert (E1 : forallb (fun l => String.eqb (ls_distribution l) "normal") (sc_light_sources c) = true).
  { apply forallb_forall. intros l I. apply String.eqb_eq. apply WL2; auto. }
  assert (E2 : check_equal_facet_numbers c = true).
  { unfold check_equal_facet_numbers. apply forallb_forall. intros h I. destruct (h_surface h) as [s|] eqn:E; auto. apply Nat.eqb_eq. apply (proj1 (WPARTS h I)); auto. }
  rewrite E1, E2. cbn [negb]. cbv zeta. rewrite (dict_of_named tp_key planar_dict), (dict_of_named tc_key cylindrical_dict), (dict_of_named ls_key light_source_dict), (dict_of_named h_name heliostat_dict)
    by (apply WP || apply WC || apply WL || apply WH).
  set (n := INR (number_of_heliostat_groups c)).
  change (put [] ["number_of_heliostat_groups"] (Array (Scalar n))) with (Ok [("number_of_heliostat_groups", Dataset (Array (Scalar n)))]). cbn [bind].
  set (f0 := [("number_of_heliostat_groups", Dataset (Array (Scalar n)))]).
  assert (T0 : tidy (Group f0)). { apply tidy_group. split; [repeat constructor|]. intros k h [J|[]]. injection J as <- <-. split; [discriminate|exact Logic.I]. }
  assert (Z0 : forall k q, k <> "number_of_heliostat_groups" -> stored_at (Group f0) (k :: q) = None).
  { intros k q NE. rewrite stored_cons. unfold f0. cbn [find_link]. apply String.eqb_neq in NE. rewrite NE. auto. }
  assert (N0 : forall q, stored_at (Group f0) ("number_of_heliostat_groups" :: q) = parameter_at (number n) q).
  { intros [|k q]; rewrite stored_cons; cbn [f0 find_link String.eqb Ascii.eqb Bool.eqb]; [rewrite stored_nil; unfold number; rewrite parameter_nil|rewrite stored_dataset; unfold number; rewrite parameter_leaf]; auto. }
  assert (NP : forall l, In l (sc_light_sources c) -> ls_mean l <> None /\ ls_covariance l <> None) by (intros l I; split; apply WL2; auto).
  assert (SURF : forall h, In h (sc_heliostats c) -> forall s, h_surface h = Some s -> named f_key s) by (intros h I s E; apply (proj1 (WPARTS h I)); auto).
  assert (ACT : forall h, In h (sc_heliostats c) -> forall a, h_actuators h = Some a -> named ac_key a) by (intros h I s E; apply (proj2 (WPARTS h I)); auto).
  assert (A1 : proper (Node [("position", Leaf (Array (sc_position c)))])). { apply proper_node. split; [cbn; nodup|]. intros k t J. cbn in J. entry J. }
  assert (B1 : complete (Node [("position", Leaf (Array (sc_position c)))])). { cbn. split; [discriminate|auto]. }
  assert (C1 : forall q, stored_at (Group f0) ("power_plant" :: q) = None). { intros q. apply Z0. discriminate. }
  destruct (write_section f0 "power_plant" [("position", Leaf (Array (sc_position c)))] ltac:(names) A1 B1 T0 C1) as (f1 & -> & T1 & S1 & K1).
  cbn [bind].
  assert (A2 : proper (Node (map (fun t => (tp_key t, planar_dict t)) (sc_planar c)))). { apply proper_list; auto. intros; apply planar_proper. }
  assert (B2 : complete (Node (map (fun t => (tp_key t, planar_dict t)) (sc_planar c)))). { apply complete_list. intros; apply planar_proper. }
  assert (C2 : forall q, stored_at (Group f1) ("target_areas_planar" :: q) = None). { intros q. rewrite K1 by discriminate. apply Z0. discriminate. }
  destruct (write_section f1 "target_areas_planar" (map (fun t => (tp_key t, planar_dict t)) (sc_planar c)) ltac:(names) A2 B2 T1 C2) as (f2 & -> & T2 & S2 & K2).
  cbn [bind].
  assert (A3 : proper (Node (map (fun t => (tc_key t, cylindrical_dict t)) (sc_cylindrical c)))). { apply proper_list; auto. intros; apply cylindrical_proper. }
  assert (B3 : complete (Node (map (fun t => (tc_key t, cylindrical_dict t)) (sc_cylindrical c)))). { apply complete_list. intros; apply cylindrical_proper. }
  assert (C3 : forall q, stored_at (Group f2) ("target_areas_cylindrical" :: q) = None). { intros q. rewrite K2, K1 by discriminate. apply Z0. discriminate. }
  destruct (write_section f2 "target_areas_cylindrical" (map (fun t => (tc_key t, cylindrical_dict t)) (sc_cylindrical c)) ltac:(names) A3 B3 T2 C3) as (f3 & -> & T3 & S3 & K3).
  cbn [bind].
  assert (A4 : proper (Node (map (fun t => (ls_key t, light_source_dict t)) (sc_light_sources c)))). { apply proper_list; auto. intros; apply light_proper; apply NP; auto. }
  assert (B4 : complete (Node (map (fun t => (ls_key t, light_source_dict t)) (sc_light_sources c)))). { apply complete_list. intros; apply light_proper; apply NP; auto. }
  assert (C4 : forall q, stored_at (Group f3) ("lightsources" :: q) = None). { intros q. rewrite K3, K2, K1 by discriminate. apply Z0. discriminate. }
  destruct (write_section f3 "lightsources" (map (fun t => (ls_key t, light_source_dict t)) (sc_light_sources c)) ltac:(names) A4 B4 T3 C4) as (f4 & -> & T4 & S4 & K4).
  cbn [bind].
  assert (A5 : proper (Node (prototype_tree (sc_prototype c)))). { apply proper_node. split; [cbn; nodup|]. intros k t [J|[J|[J|[]]]]; injection J as <- <-; (split; [names|]).
    - apply (proj1 (surface_proper _ WS)). - apply (proj1 (kinematics_proper _)). - apply (proj1 (actuators_proper _ WA)). }
  assert (B5 : complete (Node (prototype_tree (sc_prototype c)))). { apply complete_node. intros k t [J|[J|[J|[]]]]; injection J as <- <-.
    - apply (proj2 (surface_proper _ WS)). - apply (proj1 (proj2 (kinematics_proper _))). - apply (proj2 (actuators_proper _ WA)). }
  assert (C5 : forall q, stored_at (Group f4) ("prototypes" :: q) = None). { intros q. rewrite K4, K3, K2, K1 by discriminate. apply Z0. discriminate. }
  destruct (write_section f4 "prototypes" (prototype_tree (sc_prototype c)) ltac:(names) A5 B5 T4 C5) as (f5 & E5 & T5 & S5 & K5).
  unfold prototype_tree in E5. rewrite E5. cbn [bind].
  assert (A6 : proper (Node (map (fun t => (h_name t, heliostat_dict t)) (sc_heliostats c)))). { apply proper_list; auto. intros; apply heliostat_proper; eauto. }
  assert (B6 : complete (Node (map (fun t => (h_name t, heliostat_dict t)) (sc_heliostats c)))). { apply complete_list. intros; apply heliostat_proper; eauto. }
  assert (C6 : forall q, stored_at (Group f5) ("heliostats" :: q) = None). { intros q. rewrite K5, K4, K3, K2, K1 by discriminate. apply Z0. discriminate. }
  destruct (write_section f5 "heliostats" (map (fun t => (h_name t, heliostat_dict t)) (sc_heliostats c)) ltac:(names) A6 B6 T5 C6) as (f6 & -> & T6 & S6 & K6).
  cbn [bind]. eexists. split; [reflexivity|]. split; auto.
  intros [|k q]; [rewrite stored_nil, parameter_nil; auto|]. rewrite parameter_cons. cbn [configured find_link].
  destruct (String.eqb_spec k "number_of_heliostat_groups") as [->|D0]; [rewrite K6, K5, K4, K3, K2, K1 by discriminate; apply N0|].
  destruct (String.eqb_spec k "power_plant") as [->|D1]; [rewrite K6, K5, K4, K3, K2 by discriminate; apply S1|].
  destruct (String.eqb_spec k "target_areas_planar") as [->|D2]; [rewrite K6, K5, K4, K3 by discriminate; rewrite S2; f_equal; apply map_dict; auto|].
  destruct (String.eqb_spec k "target_areas_cylindrical") as [->|D3]; [rewrite K6, K5, K4 by discriminate; rewrite S3; f_equal; apply map_dict; auto|].
  destruct (String.eqb_spec k "lightsources") as [->|D4]; [rewrite K6, K5 by discriminate; rewrite S4; f_equal; apply map_dict; intros; apply light_source_dict_entries; apply NP; auto|].
  destruct (String.eqb_spec k "prototypes") as [->|D5].
  { rewrite K6 by discriminate. rewrite S5. unfold prototype_tree. rewrite surface_dict_entries, kinematics_dict_entries, actuators_dict_entries by auto. auto. }
  destruct (String.eqb_spec k "heliostats") as [->|D6]; [rewrite S6; f_equal; apply map_dict; intros; apply heliostat_dict_entries; eauto|].
  rewrite K6, K5, K4, K3, K2, K1 by auto. apply Z0; auto.
Qed.

(** ** The round trip *)
Lemma valid_writable : forall c, valid c -> writable c.
Proof.
  intros c [(_ & VP) (_ & VC) (_ & VL & VL2) (_ & VH) (_ & (VS & _) & _ & (VA & _)) _ VPARTS]. constructor; auto.
  - split; auto. intros l I. destruct (VL2 l I) as (_ & D & (m & M) & (v & V & _)). rewrite M, V. repeat split; auto; discriminate.
  - intros h I. destruct (VPARTS h I) as (S & _ & A). split.
    + intros s E. destruct (S s E) as ((N & _) & L). auto.
    + intros a E. apply A; auto.
Qed.
Lemma holds_entries : forall {A} (name : A -> string) (d d' : A -> tree) l h, (forall x, In x l -> d x = d' x) -> holds h (entries name d' l) -> holds h (Node (map (fun x => (name x, d x)) l)).
Proof. intros A name d d' l h E H. rewrite (map_dict name d d' l E). auto. Qed.
Lemma heliostat_dict_of_valid : forall c h, valid_heliostat c h -> heliostat_dict h = heliostat_entries h.
Proof. intros c h (S & _ & A). apply heliostat_dict_entries; [intros s E; apply S; auto|intros a E; apply A; auto]. Qed.
Lemma pair_names_injective : forall p q : string * string, (fst p = "rigid_body" /\ (snd p = "linear" \/ snd p = "ideal")) -> (fst q = "rigid_body" /\ (snd q = "linear" \/ snd q = "ideal")) ->
  fst p ++ "_" ++ snd p = fst q ++ "_" ++ snd q -> p = q.
Proof.
  intros (a & b) (x & y) (E1 & E2) (F1 & F2). cbn in *. subst. destruct E2 as [-> | ->], F2 as [-> | ->]; cbn; auto; discriminate.
Qed.
Lemma group_count : forall c, valid_proto (sc_prototype c) -> (forall h, In h (sc_heliostats c) -> valid_heliostat c h) ->
  number_of_heliostat_groups c = List.length (grouped (map (expected c) (in_order h_name (sc_heliostats c)))).
Proof.
  intros c VP V. set (hs := map (expected c) (in_order h_name (sc_heliostats c))). destruct (grouped_grouping hs) as (GN & GM & GC).
  unfold number_of_heliostat_groups. set (pairs := nodup pair_dec (flat_map (type_pairs (sc_prototype c)) (sc_heliostats c))).
  assert (IN : forall p, In p pairs <-> exists h, In h (sc_heliostats c) /\ p = ("rigid_body", l_actuator_type (expected c h))).
  { intros p. unfold pairs. rewrite nodup_In, in_flat_map. split.
    - intros (h & I & J). exists h. split; auto. destruct (expected_types c h VP (V h I)) as (_ & _ & E). rewrite E in J. destruct J as [<-|[<-|[]]]; auto.
    - intros (h & I & ->). exists h. split; auto. destruct (expected_types c h VP (V h I)) as (_ & _ & ->). left; auto. }
  assert (OKP : forall p, In p pairs -> fst p = "rigid_body" /\ (snd p = "linear" \/ snd p = "ideal")).
  { intros p I. apply IN in I. destruct I as (h & I & ->). cbn. split; auto. apply (expected_types c h VP (V h I)). }
  set (name := fun p : string * string => fst p ++ "_" ++ snd p).
  assert (P : Permutation (map name pairs) (map fst (grouped hs))).
  { apply NoDup_Permutation; auto.
    - assert (ND : NoDup pairs) by apply NoDup_nodup. clearbody pairs. clear -OKP ND. induction pairs as [|p l IH]; [constructor|]. inversion ND as [|? ? N1 N2]; subst. cbn. constructor.
      + intros I. apply in_map_iff in I. destruct I as (q & E & I). apply pair_names_injective in E; [subst; auto| |]; apply OKP; [right|left]; auto.
      + apply IH; auto. intros q I. apply OKP. right; auto.
    - intros k. rewrite in_map_iff. split.
      + intros (p & <- & I). apply IN in I. destruct I as (h & I & ->).
        assert (K : name ("rigid_body", l_actuator_type (expected c h)) = group_key (expected c h)) by (unfold name, group_key; cbn [fst snd]; destruct (expected_types c h VP (V h I)) as (-> & _); auto).
        rewrite K. apply GC. apply in_map. apply (in_order_in h_name). auto.
      + intros I. apply in_map_iff in I. destruct I as ((k' & m) & <- & I). cbn. destruct (GM k' m I) as (NE & EQ). destruct m as [|x r]; [congruence|].
        assert (J : In x (filter (fun h => String.eqb (group_key h) k') hs)) by (rewrite <- EQ; left; auto). apply filter_In in J. destruct J as (J & Q). apply String.eqb_eq in Q.
        apply in_map_iff in J. destruct J as (h & <- & J). apply (proj1 (in_order_in h_name)) in J. exists ("rigid_body", l_actuator_type (expected c h)). split; [|apply IN; eauto].
        rewrite <- Q. unfold name, group_key. cbn [fst snd]. destruct (expected_types c h VP (V h J)) as (-> & _). auto. }
  apply Permutation_length in P. rewrite !map_length in P. auto.
Qed.
Lemma map_filter : forall {A B} (f : A -> B) (p : B -> bool) l, filter p (map f l) = map f (filter (fun x => p (f x)) l).
Proof. intros A B f p l. induction l as [|x l IH]; cbn; auto. destruct (p (f x)); cbn; rewrite IH; auto. Qed.

Lemma load_before_field : forall c, valid c -> exists file h6,
  generate_scenario c = Ok file /\ item file "heliostats" = Ok h6 /\ holds h6 (Node (map (fun x => (h_name x, heliostat_dict x)) (sc_heliostats c)))
  /\ load_planar file = Ok (map planar_of (in_order tp_key (sc_planar c)))
  /\ load_cylindrical file = Ok (map cylindrical_of (in_order tc_key (sc_cylindrical c)))
  /\ load_light_sources file = Ok (map sun_of (in_order ls_key (sc_light_sources c)))
  /\ load_prototypes file = Ok (expected_prototypes (sc_prototype c))
  /\ bind (item file "power_plant") (fun p => read_array p "position") = Ok (sc_position c)
  /\ stored_number_of_groups file = Ok (INR (number_of_heliostat_groups c)).
Proof.
  intros c VC. destruct (generate_holds c (valid_writable c VC)) as (file & G & H). exists file.
  destruct VC as [(NP & VP) (NC & VCY) (NL & VL & VL2) (NH & VH) VPR (s & SH) VPARTS]. change (valid_proto (sc_prototype c)) in VPR.
  assert (VV : forall h, In h (sc_heliostats c) -> valid_heliostat c h) by exact VPARTS.
  cbn [configured] in H.
  destruct (holds_child file _ "power_plant" _ H eq_refl) as (hp & E1 & _ & H1 & _).
  { apply (inhabited_node _ "position" (Leaf (Array (sc_position c)))); [reflexivity|apply inhabited_leaf]. }
  destruct (holds_child file _ "target_areas_planar" _ H eq_refl) as (h2 & E2 & _ & H2 & _).
  { apply (list_inhabited tp_key planar_entries); auto. intros; apply planar_proper. }
  destruct (holds_child file _ "target_areas_cylindrical" _ H eq_refl) as (h3 & E3 & _ & H3 & _).
  { apply (list_inhabited tc_key cylindrical_entries); auto. intros; apply cylindrical_proper. }
  destruct (holds_child file _ "lightsources" _ H eq_refl) as (h4 & E4 & _ & H4 & _).
  { apply (list_inhabited ls_key light_source_entries); auto. intros l I. rewrite <- light_source_dict_entries; [apply light_source_proper; auto|..];
      destruct (VL2 l I) as (_ & _ & (m & M) & (v & V & _)); congruence. }
  destruct (holds_child file _ "prototypes" _ H eq_refl) as (h5 & E5 & _ & H5 & _).
  { apply (inhabited_node _ "kinematics" (kinematics_entries (pr_kinematics (sc_prototype c)))); [reflexivity|]. rewrite <- kinematics_dict_entries. apply kinematics_proper. }
  destruct (holds_child file _ "heliostats" _ H eq_refl) as (h6 & E6 & _ & H6 & _).
  { apply (list_inhabited h_name heliostat_entries); auto. intros x _. apply (inhabited_node _ "position" (Leaf (Array (h_position x)))); [reflexivity|apply inhabited_leaf]. }
  exists h6. split; [exact G|]. split; [exact E6|]. split; [apply holds_entries with (d' := heliostat_entries); auto; intros h I; apply (heliostat_dict_of_valid c); auto|].
  split; [apply (load_planar_ok _ h2); auto|]. split; [apply (load_cylindrical_ok _ h3); auto|]. split.
  { apply (load_light_sources_ok _ h4); auto. apply holds_entries with (d' := light_source_entries); auto. intros l I.
    apply light_source_dict_entries; destruct (VL2 l I) as (_ & _ & (m & M) & (v & V & _)); congruence. }
  split.
  { apply (load_prototypes_ok _ h5); auto. unfold prototype_tree. rewrite surface_dict_entries, kinematics_dict_entries, actuators_dict_entries; auto; apply VPR. }
  split; [rewrite E1; cbn [bind]; destruct (holds_read' hp _ "position" (Array (sc_position c)) H1 eq_refl) as (_ & -> & _); auto|].
  unfold stored_number_of_groups. destruct (holds_read' file _ "number_of_heliostat_groups" (Array (Scalar (INR (number_of_heliostat_groups c)))) H eq_refl) as (_ & _ & -> & _). auto.
Qed.
Theorem round_trip : forall c, valid c -> kinematics_available c -> exists file s,
  generate_scenario c = Ok file /\ load_scenario file = Ok s
  /\ s_position s = sc_position c
  /\ s_planar s = map (fun t => (tp_key t, tp_center t, tp_normal t, tp_plane_e t, tp_plane_u t)) (in_order tp_key (sc_planar c))
  /\ s_cylindrical s = map (fun t => (tc_key t, tc_radius t, tc_center t, tc_height t, tc_axis t, tc_normal t, tc_opening t)) (in_order tc_key (sc_cylindrical c))
  /\ map (fun '(rays, m, v) => (rays, Some m, Some v)) (s_light_sources s) = map (fun l => (INR (ls_rays l), ls_mean l, ls_covariance l)) (in_order ls_key (sc_light_sources c))
  /\ NoDup (map g_key (s_groups s))
  /\ (forall g, In g (s_groups s) -> g_heliostats g <> []
        /\ g_heliostats g = map (expected c) (filter (fun h => String.eqb (key_of (expected c h)) (g_key g)) (in_order h_name (sc_heliostats c))))
  /\ (forall h, In h (sc_heliostats c) -> exists g, In g (s_groups s) /\ In (expected c h) (g_heliostats g))
  /\ (forall g, In g (s_groups s) -> g_degrees g = last_degrees (map (expected c) (in_order h_name (sc_heliostats c))))
  /\ stored_number_of_groups file = Ok (INR (List.length (s_groups s))).
Proof.
  intros c VC OWN. destruct (load_before_field c VC) as (file & h6 & G & E6 & H6 & L2 & L3 & L4 & L5 & L1 & LN). exists file.
  destruct VC as [(NP & VP) (NC & VCY) (NL & VL & VL2) (NH & VH) VPR (s & SH) VPARTS]. change (valid_proto (sc_prototype c)) in VPR.
  assert (VV : forall h, In h (sc_heliostats c) -> valid_heliostat c h) by exact VPARTS.
  pose proof (load_field_ok c file h6 s E6) as L6. cbv zeta in L6. specialize (L6 H6 VPR VV OWN SH VH).
  set (hs := map (expected c) (in_order h_name (sc_heliostats c))) in *.
  eexists {| s_position := sc_position c; s_planar := _; s_cylindrical := _; s_light_sources := _; s_groups := _ |}.
  split; [exact G|]. split.
  { unfold load_scenario. rewrite L1. cbn [bind]. rewrite L2. cbn [bind]. rewrite L3. cbn [bind]. rewrite L4. cbn [bind]. rewrite L5. cbn [bind]. rewrite L6. cbn [bind]. reflexivity. }
  cbn [s_position s_planar s_cylindrical s_light_sources s_groups].
  destruct (grouped_grouping hs) as (GN & GM & GC).
  split; [auto|]. split; [auto|]. split; [auto|]. split; [|split; [|split; [|split; [|split]]]].
  - rewrite map_map. apply map_ext_in. intros l I. apply (proj1 (in_order_in ls_key)) in I. unfold sun_of. destruct (VL2 l I) as (_ & _ & (m & ->) & (v & -> & _)). auto.
  - rewrite map_map. erewrite map_ext; [exact GN|]. intros (k & m). auto.
  - intros g I. apply in_map_iff in I. destruct I as ((k & m) & <- & I). cbn [g_heliostats g_key]. destruct (GM k m I) as (NE & EQ). split; auto. rewrite EQ. unfold hs. rewrite map_filter. auto.
  - intros h I. assert (J : In (expected c h) hs) by (apply in_map, (in_order_in h_name); auto). pose proof (GC _ J) as K. apply in_map_iff in K. destruct K as ((k & m) & E & K). cbn in E.
    eexists. split; [apply in_map_iff; exists (k, m); split; [reflexivity|exact K]|]. cbn [g_heliostats]. destruct (GM k m K) as (_ & ->). apply filter_In. split; auto. apply String.eqb_eq. auto.
  - intros g I. apply in_map_iff in I. destruct I as ((k & m) & <- & I). auto.
  - rewrite LN, map_length. do 2 f_equal. apply group_count; auto.
Qed.
(** Empty sections are not stored, and the loader insists on them. *)
Lemma empty_entries : forall {A} (name : A -> string) (d : A -> tree), ~ inhabited (entries name d []).
Proof. intros A name d ([|k p] & v & E); unfold entries in E; cbn [map] in E; [rewrite parameter_nil in E|rewrite parameter_cons in E]; discriminate. Qed.
Theorem no_planar_targets : forall c, writable c -> sc_planar c = [] -> exists file, generate_scenario c = Ok file /\ load_scenario file = Err KeyError.
Proof.
  intros c W E. destruct (generate_holds c W) as (file & G & H). exists file. split; auto. cbn [configured] in H.
  destruct (holds_child file _ "power_plant" _ H eq_refl) as (hp & E1 & _ & H1 & _).
  { apply (inhabited_node _ "position" (Leaf (Array (sc_position c)))); [reflexivity|apply inhabited_leaf]. }
  unfold load_scenario. rewrite E1. cbn [bind]. destruct (holds_read' hp _ "position" (Array (sc_position c)) H1 eq_refl) as (_ & -> & _). cbn [bind].
  unfold load_planar. destruct (holds_missing file _ "target_areas_planar" H) as (-> & _); auto. cbn. intros t F. injection F as <-. rewrite E. apply empty_entries.
Qed.
Theorem no_cylindrical_targets : forall c, writable c -> sc_planar c <> [] -> sc_cylindrical c = [] -> exists file, generate_scenario c = Ok file /\ load_scenario file = Err KeyError.
Proof.
  intros c W NP E. destruct (generate_holds c W) as (file & G & H). exists file. split; auto. cbn [configured] in H.
  destruct (holds_child file _ "power_plant" _ H eq_refl) as (hp & E1 & _ & H1 & _).
  { apply (inhabited_node _ "position" (Leaf (Array (sc_position c)))); [reflexivity|apply inhabited_leaf]. }
  destruct (holds_child file _ "target_areas_planar" _ H eq_refl) as (h2 & E2 & _ & H2 & _).
  { apply (list_inhabited tp_key planar_entries); auto. intros; apply planar_proper. }
  unfold load_scenario. rewrite E1. cbn [bind]. destruct (holds_read' hp _ "position" (Array (sc_position c)) H1 eq_refl) as (_ & -> & _). cbn [bind].
  rewrite (load_planar_ok file h2 (sc_planar c)) by (auto; apply W). cbn [bind].
  unfold load_cylindrical. destruct (holds_missing file _ "target_areas_cylindrical" H) as (-> & _); auto. cbn. intros t F. injection F as <-. rewrite E. apply empty_entries.
Qed.
(** Individual actuators with the prototype's kinematics. *)
Theorem unavailable_kinematics : forall c before h after, valid c -> in_order h_name (sc_heliostats c) = (before ++ h :: after)%list ->
  h_actuators h <> None -> (forall x, In x (before ++ [h]) -> h_kinematics x = None) ->
  exists file, generate_scenario c = Ok file /\ load_scenario file = Err UnboundLocalError.
Proof.
  intros c before h after VC EH EA EK. destruct (load_before_field c VC) as (file & h6 & G & E6 & H6 & L2 & L3 & L4 & L5 & L1 & LN). exists file. split; auto.
  destruct VC as [(NP & VP) (NC & VCY) (NL & VL & VL2) (NH & VH) VPR (s & SH) VPARTS]. change (valid_proto (sc_prototype c)) in VPR.
  unfold load_scenario. rewrite L1. cbn [bind]. rewrite L2. cbn [bind]. rewrite L3. cbn [bind]. rewrite L4. cbn [bind]. rewrite L5. cbn [bind].
  unfold load_field. rewrite E6. cbn [bind]. rewrite (holds_keys h_name heliostat_dict (sc_heliostats c)); auto; [|apply VH|].
  2:{ intros x _. apply (inhabited_node _ "position" (Leaf (Array (h_position x)))); [reflexivity|apply inhabited_leaf]. }
  rewrite EH. rewrite (load_heliostats_fail c s h6); auto; [apply VH|]. intros x I. apply (in_order_in h_name). rewrite EH. auto.
Qed.
Lemma available_or : forall c, kinematics_available c \/ exists before h after, in_order h_name (sc_heliostats c) = (before ++ h :: after)%list
  /\ h_actuators h <> None /\ forall x, In x (before ++ [h]) -> h_kinematics x = None.
Proof.
  intros c. unfold kinematics_available. generalize (in_order h_name (sc_heliostats c)) as l. intros l.
  assert (G : forall l, (forall before h after, l = (before ++ h :: after)%list -> h_actuators h <> None -> exists h', In h' (before ++ [h])%list /\ h_kinematics h' <> None)
    \/ exists before h after, l = (before ++ h :: after)%list /\ h_actuators h <> None /\ forall x, In x (before ++ [h]) -> h_kinematics x = None).
  { clear. induction l as [|y l IH]; [left; intros [|b before] h after E; discriminate|].
    destruct (h_kinematics y) as [k|] eqn:EK.
    { left. intros [|b before] h after E A; injection E as <- E; exists y; (split; [left; auto|congruence]). }
    destruct (h_actuators y) as [a|] eqn:EA.
    { right. exists [], y, l. split; auto. split; [congruence|]. intros x [<-|[]]. auto. }
    destruct IH as [IH|(before & h & after & -> & A & K)].
    - left. intros [|b before] h after E A; injection E as <- E; [congruence|]. destruct (IH before h after E A) as (x & I & X). exists x. split; auto. right. auto.
    - right. exists (y :: before), h, after. split; auto. split; auto. intros x [<-|I]; auto. }
  apply G.
Qed.
Lemma available_own : forall c, (forall h, In h (sc_heliostats c) -> h_actuators h <> None -> h_kinematics h <> None) -> kinematics_available c.
Proof.
  intros c H before h after E A. exists h. split; [apply in_or_app; right; left; auto|]. apply H; auto. apply (in_order_in h_name). rewrite E. apply in_or_app. right; left; auto.
Qed.
Theorem loads_exactly : forall c, valid c -> exists file, generate_scenario c = Ok file
  /\ (~ kinematics_available c -> load_scenario file = Err UnboundLocalError)
  /\ ((exists s, load_scenario file = Ok s) -> kinematics_available c).
Proof.
  intros c V. destruct (generate_holds c (valid_writable c V)) as (file & G & _). exists file. split; auto.
  assert (A : ~ kinematics_available c -> load_scenario file = Err UnboundLocalError).
  { intros N. destruct (available_or c) as [A|(before & h & after & E & EA & EK)]; [contradiction|]. destruct (unavailable_kinematics c before h after V E EA EK) as (file' & G' & L).
    congruence. }
  split; auto. intros (s & L). destruct (available_or c) as [|(before & h & after & E & EA & EK)]; auto.
  destruct (unavailable_kinematics c before h after V E EA EK) as (file' & G' & L'). congruence.
Qed.
(** The degrees that all groups use. *)
Lemma last_degrees_common : forall c d, (exists h, In h (sc_heliostats c)) -> (forall h, In h (sc_heliostats c) -> facets_of c h <> []) ->
  (forall h f, In h (sc_heliostats c) -> In f (facets_of c h) -> f_degrees f = d) ->
  last_degrees (map (expected c) (in_order h_name (sc_heliostats c))) = Some d.
Proof.
  intros c d (h0 & I0) NE D. unfold last_degrees. rewrite <- map_rev.
  destruct (rev (in_order h_name (sc_heliostats c))) as [|h r] eqn:E.
  - exfalso. apply (f_equal (@rev _)) in E. rewrite rev_involutive in E. apply (proj2 (in_order_in h_name)) in I0. rewrite E in I0. contradiction.
  - cbn [map]. assert (I : In h (sc_heliostats c)). { apply (in_order_in h_name). apply in_rev. rewrite E. left; auto. }
    cbn [expected l_facets]. rewrite <- map_rev. destruct (rev (in_order f_key (facets_of c h))) as [|f q] eqn:F.
    + exfalso. apply (NE h I). apply (f_equal (@rev _)) in F. rewrite rev_involutive in F. cbn in F. pose proof (in_order_perm _ f_key (facets_of c h)) as P. rewrite F in P. apply Permutation_nil in P. auto.
    + cbn [map lf_degrees as_loaded]. f_equal. apply (D h f); auto. apply (in_order_in f_key). apply in_rev. rewrite F. left; auto.
Qed.

(** ** A small power plant *)
Definition sample_facet (key : string) (degree : R) : facet_config :=
  {| f_key := key; f_control_points := Rows [Rows [Rows [Scalar 1; Scalar 2; Scalar 3]]]; f_degrees := Rows [Scalar degree; Scalar degree];
     f_translation := Rows [Scalar degree; Scalar 0; Scalar 0; Scalar 0]; f_canting := Rows [Rows [Scalar 1; Scalar 0; Scalar 0; Scalar 0]; Rows [Scalar 0; Scalar 1; Scalar 0; Scalar 0]] |}.
Definition sample_kinematics : kinematics_config :=
  {| k_type := "rigid_body"; k_orientation := Rows [Scalar 0; Scalar (-1); Scalar 0; Scalar 0];
     k_deviations := Some (fun d => match d with SecondTiltE => Some 5%R | _ => None end) |}.
Definition sample_actuator (key type : string) : actuator_config :=
  {| ac_key := key; ac_type := type; ac_clockwise := true; ac_min := 0; ac_max := 1000;
     ac_parameters := Some (fun p => match p with Increment => Some 7%R | InitialAngle => Some 2%R | _ => None end) |}.
Definition sample_actuators (type : string) : list actuator_config := [sample_actuator "actuator_1" type; sample_actuator "actuator_2" type].
Definition sample_heliostat (name : string) (s : option (list facet_config)) (k : option kinematics_config) (a : option (list actuator_config)) : heliostat_config :=
  {| h_name := name; h_id := 1; h_position := Rows [Scalar 10; Scalar 20; Scalar 0; Scalar 1]; h_surface := s; h_kinematics := k; h_actuators := a |}.
Definition sample_planar : planar_config := {| tp_key := "receiver"; tp_center := Rows [Scalar 0; Scalar 0; Scalar 50; Scalar 1]; tp_normal := Rows [Scalar 0; Scalar (-1); Scalar 0; Scalar 0]; tp_plane_e := 4; tp_plane_u := 5 |}.
Definition sample_cylindrical : cylindrical_config :=
  {| tc_key := "cylinder"; tc_radius := 3; tc_center := Rows [Scalar 0; Scalar 0; Scalar 40; Scalar 1]; tc_height := 6; tc_axis := Rows [Scalar 0; Scalar 0; Scalar 1; Scalar 0]; tc_normal := Rows [Scalar 0; Scalar 1; Scalar 0; Scalar 0]; tc_opening := 1 |}.
Definition sample_sun : light_source_config := {| ls_key := "sun_1"; ls_type := "sun"; ls_rays := 10; ls_distribution := "normal"; ls_mean := Some 0%R; ls_covariance := Some 1%R |}.
Definition sample (planar : list planar_config) (cylindrical : list cylindrical_config) (facets : list facet_config) (heliostats : list heliostat_config) : scenario_config :=
  {| sc_position := Rows [Scalar 50; Scalar 6; Scalar 87]; sc_planar := planar; sc_cylindrical := cylindrical; sc_light_sources := [sample_sun];
     sc_prototype := {| pr_surface := facets; pr_kinematics := sample_kinematics; pr_actuators := sample_actuators "linear" |}; sc_heliostats := heliostats |}.
Lemma sample_actuators_valid : forall t, t = "linear" \/ t = "ideal" -> valid_actuators (sample_actuators t).
Proof.
  intros t T. split; [split; [cbn; nodup|intros x [<-|[<-|[]]]; names]|]. split; auto. exists t. split; auto. intros x [<-|[<-|[]]]; auto.
Qed.
Definition sample_facets (s : list facet_config) : Prop := named f_key s /\ forall f, In f s -> exists key degree, f = sample_facet key degree.
Lemma sample_surface_valid : forall s, sample_facets s -> valid_surface s.
Proof. intros s (N & F). split; auto. intros f I. destruct (F f I) as (key & degree & ->). cbn. eauto. Qed.
Lemma sample_valid : forall facets hs, facets <> [] -> sample_facets facets -> hs <> [] -> named h_name hs ->
  (forall h, In h hs -> (forall s, h_surface h = Some s -> sample_facets s /\ List.length s = List.length facets)
    /\ (forall k, h_kinematics h = Some k -> k = sample_kinematics)
    /\ (forall a, h_actuators h = Some a -> exists t, (t = "linear" \/ t = "ideal") /\ a = sample_actuators t)) ->
  valid (sample [sample_planar] [sample_cylindrical] facets hs).
Proof.
  intros facets hs NE SF NH NN P. constructor; cbn [sample sc_planar sc_cylindrical sc_light_sources sc_heliostats sc_prototype pr_surface pr_kinematics pr_actuators].
  - split; [discriminate|]. split; [cbn; nodup|intros x [<-|[]]; names].
  - split; [discriminate|]. split; [cbn; nodup|intros x [<-|[]]; names].
  - split; [discriminate|]. split; [split; [cbn; nodup|intros x [<-|[]]; names]|]. intros l [<-|[]]. split; auto. split; auto. split; [eexists; reflexivity|]. exists 1%R. split; [auto|lra].
  - auto.
  - split; auto. split; [apply sample_surface_valid; auto|]. split; [reflexivity|]. apply sample_actuators_valid; auto.
  - exists [1; 1; 3]. intros h f I J. unfold facets_of in J. cbn [sample sc_prototype pr_surface] in J. destruct (h_surface h) as [s|] eqn:E.
    + destruct (proj1 (P h I) s E) as ((_ & F) & _). destruct (F f J) as (k & d & ->). auto.
    + destruct (proj2 SF f J) as (k & d & ->). auto.
  - intros h I. destruct (P h I) as (S & K & A). split; [|split].
    + intros s E. destruct (S s E) as (F & L). split; auto. apply sample_surface_valid; auto.
    + intros k E. rewrite (K k E). reflexivity.
    + intros a E. destruct (A a E) as (t & T & ->). apply sample_actuators_valid; auto.
Qed.
Lemma sample_facets_one : forall k d, proper_name k -> sample_facets [sample_facet k d].
Proof. intros k d P. split; [split; [cbn; nodup|intros x [<-|[]]; auto]|]. intros f [<-|[]]. eauto. Qed.
Theorem targets_needed : forall c, writable c -> sc_planar c = [] \/ sc_cylindrical c = [] -> exists file, generate_scenario c = Ok file /\ load_scenario file = Err KeyError.
Proof.
  intros c W E. destruct (sc_planar c) as [|t l] eqn:EP; [apply no_planar_targets; auto|]. destruct E as [E|E]; [discriminate|]. apply no_cylindrical_targets; auto. congruence.
Qed.
Theorem facets_reordered : exists c h file s g, valid c /\ kinematics_available c /\ sc_heliostats c = [h] /\ generate_scenario c = Ok file /\ load_scenario file = Ok s
  /\ s_groups s = [g] /\ exists l, g_heliostats g = [l] /\ map lf_translation (l_facets l) <> map f_translation (facets_of c h).
Proof.
  set (h := sample_heliostat "AA31" None None None).
  set (c := sample [sample_planar] [sample_cylindrical] [sample_facet "facet_2" 2; sample_facet "facet_10" 3] [h]).
  assert (V : valid c).
  { apply sample_valid; try discriminate.
    - split; [split; [cbn; nodup|intros x [<-|[<-|[]]]; names]|]. intros f [<-|[<-|[]]]; eauto.
    - split; [cbn; nodup|intros x [<-|[]]; names].
    - intros x [<-|[]]. cbn. repeat split; discriminate. }
  assert (O : kinematics_available c) by (apply available_own; intros x [<-|[]]; cbn; congruence).
  destruct (round_trip c V O) as (file & s & G & L & _ & _ & _ & _ & ND & GS & GC & _).
  destruct (GC h (or_introl eq_refl)) as (g & I & J).
  assert (K : g_heliostats g = [expected c h]).
  { destruct (GS g I) as (NE & E). destruct (g_heliostats g) as [|x r] eqn:GE; [congruence|]. cbn [c sample sc_heliostats in_order fold_right insert_by filter] in E.
    destruct (String.eqb _ _); [auto|discriminate E]. }
  assert (SG : s_groups s = [g]).
  { destruct (s_groups s) as [|g1 r]; [contradiction|]. assert (ALL : forall g', In g' (g1 :: r) -> g_key g' = key_of (expected c h)).
    { intros g' I'. destruct (GS g' I') as (NE & E). cbn [c sample sc_heliostats in_order fold_right insert_by filter] in E. match type of E with context [String.eqb ?a ?b] => destruct (String.eqb_spec a b) as [Q|Q] end; [symmetry; exact Q|]. cbn in E. congruence. }
    destruct r as [|g2 r]; [destruct I as [->|[]]; auto|]. exfalso. cbn in ND. inversion ND as [|? ? N1 N2]; subst. apply N1. left. rewrite (ALL g1), (ALL g2); cbn; auto. }
  exists c, h, file, s, g. repeat (split; [auto; fail|]). exists (expected c h). split; auto. cbn. intros E. injection E. intros. lra.
Qed.
Theorem degrees_mixed : exists c file s g l f, valid c /\ kinematics_available c /\ generate_scenario c = Ok file /\ load_scenario file = Ok s
  /\ In g (s_groups s) /\ In l (g_heliostats g) /\ In f (l_facets l) /\ g_degrees g <> Some (lf_degrees f).
Proof.
  set (h1 := sample_heliostat "AA31" None None None). set (h2 := sample_heliostat "AA32" (Some [sample_facet "facet_1" 3]) None None).
  set (c := sample [sample_planar] [sample_cylindrical] [sample_facet "facet_1" 2] [h1; h2]).
  assert (V : valid c).
  { apply sample_valid; try discriminate.
    - apply sample_facets_one. names.
    - split; [cbn; nodup|intros x [<-|[<-|[]]]; names].
    - intros x [<-|[<-|[]]]; cbn; (split; [|split]); try discriminate. intros s E. injection E as <-. split; auto. apply sample_facets_one. names. }
  assert (O : kinematics_available c) by (apply available_own; intros x [<-|[<-|[]]]; cbn; congruence).
  destruct (round_trip c V O) as (file & s & G & L & _ & _ & _ & _ & ND & GS & GC & GD & _).
  destruct (GC h1 (or_introl eq_refl)) as (g & I & J). exists c, file, s, g, (expected c h1), (as_loaded (sample_facet "facet_1" 2)).
  repeat (split; [auto; fail|]). split; [left; auto|]. rewrite (GD g I). cbn. intros E. injection E. intros. lra.
Qed.

(** ** The theorems in parts *)
Theorem scenario_file : forall c, writable c -> exists file, generate_scenario c = Ok file
  /\ (forall k path, k <> "number_of_heliostat_groups" -> stored_at file (k :: path) = parameter_at (configured c) (k :: path)).
Proof.
  intros c W. destruct (generate_holds c W) as (file & G & (_ & H)). exists file. split; auto. intros k path NE. rewrite H. unfold configured at 1. rewrite !parameter_cons.
  cbn [find_link]. apply String.eqb_neq in NE. rewrite NE. unfold configured. rewrite parameter_cons. auto.
Qed.
Theorem round_trip_contents : forall c, valid c -> kinematics_available c -> exists file s,
  generate_scenario c = Ok file /\ load_scenario file = Ok s
  /\ s_position s = sc_position c
  /\ s_planar s = map (fun t => (tp_key t, tp_center t, tp_normal t, tp_plane_e t, tp_plane_u t)) (in_order tp_key (sc_planar c))
  /\ s_cylindrical s = map (fun t => (tc_key t, tc_radius t, tc_center t, tc_height t, tc_axis t, tc_normal t, tc_opening t)) (in_order tc_key (sc_cylindrical c))
  /\ map (fun '(rays, m, v) => (rays, Some m, Some v)) (s_light_sources s) = map (fun l => (INR (ls_rays l), ls_mean l, ls_covariance l)) (in_order ls_key (sc_light_sources c))
  /\ (forall h, In h (sc_heliostats c) -> exists g, In g (s_groups s) /\ In (expected c h) (g_heliostats g))
  /\ (forall g l, In g (s_groups s) -> In l (g_heliostats g) -> exists h, In h (sc_heliostats c) /\ l = expected c h).
Proof.
  intros c V O. destruct (round_trip c V O) as (file & s & G & L & P1 & P2 & P3 & P4 & ND & GS & GC & GD & N). exists file, s. do 7 (split; auto).
  intros g l I J. destruct (GS g I) as (_ & E). rewrite E in J. apply in_map_iff in J. destruct J as (h & <- & J). apply filter_In in J. destruct J as (J & _).
  apply (proj1 (in_order_in h_name)) in J. eauto.
Qed.
Theorem round_trip_groups : forall c, valid c -> kinematics_available c -> exists file s,
  generate_scenario c = Ok file /\ load_scenario file = Ok s
  /\ NoDup (map g_key (s_groups s))
  /\ (forall g, In g (s_groups s) -> g_heliostats g <> []
        /\ g_heliostats g = map (expected c) (filter (fun h => String.eqb (key_of (expected c h)) (g_key g)) (in_order h_name (sc_heliostats c))))
  /\ (forall h, In h (sc_heliostats c) -> exists g, In g (s_groups s) /\ g_key g = key_of (expected c h) /\ In (expected c h) (g_heliostats g)).
Proof.
  intros c V O. destruct (round_trip c V O) as (file & s & G & L & P1 & P2 & P3 & P4 & ND & GS & GC & GD & N). exists file, s. do 4 (split; auto).
  intros h I. destruct (GC h I) as (g & J & K). exists g. split; auto. split; auto. destruct (GS g J) as (_ & E). rewrite E in K. apply in_map_iff in K. destruct K as (h' & Eh & K).
  apply filter_In in K. destruct K as (_ & Q). apply String.eqb_eq in Q. rewrite <- Q, Eh. auto.
Qed.
Theorem round_trip_count : forall c, valid c -> kinematics_available c -> exists file s,
  generate_scenario c = Ok file /\ load_scenario file = Ok s /\ stored_number_of_groups file = Ok (INR (List.length (s_groups s))).
Proof. intros c V O. destruct (round_trip c V O) as (file & s & G & L & P1 & P2 & P3 & P4 & ND & GS & GC & GD & N). exists file, s. auto. Qed.
Theorem round_trip_degrees : forall c d, valid c -> kinematics_available c ->
  (forall h f, In h (sc_heliostats c) -> In f (facets_of c h) -> f_degrees f = d) ->
  exists file s, generate_scenario c = Ok file /\ load_scenario file = Ok s /\ forall g, In g (s_groups s) -> g_degrees g = Some d.
Proof.
  intros c d V O D. destruct (round_trip c V O) as (file & s & G & L & P1 & P2 & P3 & P4 & ND & GS & GC & GD & N). exists file, s. do 2 (split; auto).
  intros g I. rewrite (GD g I). destruct V as [_ _ _ (NH & _) VPR _ VPARTS]. apply last_degrees_common; auto.
  - destruct (sc_heliostats c) as [|h r]; [congruence|]. exists h. left; auto.
  - intros h J. unfold facets_of. destruct (h_surface h) as [sf|] eqn:E; [|apply VPR]. eapply (surface_nonempty c h); eauto. exact (VPARTS h J).
Qed.

(** As soon as two facets of the power plant differ in their degrees, some facet is evaluated with degrees that are not its own. *)
Theorem two_degrees : forall c h1 f1 h2 f2, valid c -> kinematics_available c ->
  In h1 (sc_heliostats c) -> In f1 (facets_of c h1) -> In h2 (sc_heliostats c) -> In f2 (facets_of c h2) -> f_degrees f1 <> f_degrees f2 ->
  exists file s, generate_scenario c = Ok file /\ load_scenario file = Ok s
  /\ (exists h f, In h (sc_heliostats c) /\ In f (facets_of c h) /\ forall g, In g (s_groups s) -> g_degrees g = Some (f_degrees f))
  /\ exists g l f, In g (s_groups s) /\ In l (g_heliostats g) /\ In f (l_facets l) /\ g_degrees g <> Some (lf_degrees f).
Proof.
  intros c h1 f1 h2 f2 V O I1 J1 I2 J2 D. destruct (round_trip c V O) as (file & s & G & L & _ & _ & _ & _ & _ & GS & GC & GD & _). exists file, s. do 2 (split; auto).
  assert (NE : forall h, In h (sc_heliostats c) -> facets_of c h <> []).
  { destruct V as [_ _ _ (NH & _) VPR _ VPARTS]. intros h J. unfold facets_of. destruct (h_surface h) as [sf|] eqn:E; [|apply VPR]. eapply (surface_nonempty c h); eauto. exact (VPARTS h J). }
  assert (W : exists h f, In h (sc_heliostats c) /\ In f (facets_of c h) /\ last_degrees (map (expected c) (in_order h_name (sc_heliostats c))) = Some (f_degrees f)).
  { unfold last_degrees. rewrite <- map_rev. destruct (rev (in_order h_name (sc_heliostats c))) as [|h r] eqn:E.
    - exfalso. apply (f_equal (@rev _)) in E. rewrite rev_involutive in E. apply (proj2 (in_order_in h_name)) in I1. rewrite E in I1. contradiction.
    - cbn [map]. assert (I : In h (sc_heliostats c)). { apply (in_order_in h_name). apply in_rev. rewrite E. left; auto. }
      cbn [expected l_facets]. rewrite <- map_rev. destruct (rev (in_order f_key (facets_of c h))) as [|f q] eqn:F.
      + exfalso. apply (NE h I). apply (f_equal (@rev _)) in F. rewrite rev_involutive in F. cbn in F. pose proof (in_order_perm _ f_key (facets_of c h)) as P. rewrite F in P. apply Permutation_nil in P. auto.
      + exists h, f. split; auto. split; [|auto]. apply (in_order_in f_key). apply in_rev. rewrite F. left; auto. }
  destruct W as (h & f & A & B & E). split.
  { exists h, f. do 2 (split; auto). intros g I. rewrite (GD g I). auto. }
  assert (X : forall h' f', In h' (sc_heliostats c) -> In f' (facets_of c h') -> f_degrees f <> f_degrees f' ->
    exists g l f0, In g (s_groups s) /\ In l (g_heliostats g) /\ In f0 (l_facets l) /\ g_degrees g <> Some (lf_degrees f0)).
  { intros h' f' I' J' N. destruct (GC h' I') as (g & K1 & K2). exists g, (expected c h'), (as_loaded f'). do 2 (split; auto). split.
    - cbn [expected l_facets]. apply in_map. apply (in_order_in f_key). auto.
    - rewrite (GD g K1), E. cbn [as_loaded lf_degrees]. congruence. }
  destruct (classic (f_degrees f = f_degrees f1)) as [Q|Q]; [apply (X h2 f2); auto; congruence|apply (X h1 f1); auto].
Qed.
