(** C06-C09, C58: selection of heliostats, targets and samples. *)
From Coq Require Import List Arith Bool ZArith String Reals Lra Lia Permutation.
From Verif Require Import ModelField ModelDirections SpecField ProofsField.
Import ListNotations.
Local Open Scope nat_scope.

(** C06. [rows] are the samples in activation order (heliostat [i] repeated [mask_i] times): their
    targets and directions are the returned ones, for each heliostat of the group they are its entries
    of the mapping in order, and there are no others. *)
Theorem C06_index_mapping_faithful : forall (D : Type) (direction_ok : D -> bool) group_names target_names
    (mapping : list (entry D)) r,
  NoDup group_names ->
  index_mapping_strings direction_ok group_names target_names mapping = Ok r ->
  exists rows : list (entry D),
    repeat_interleave group_names (mr_mask r) = Ok (map entry_heliostat rows)
    /\ mr_directions r = map (fun e => Some (entry_direction e)) rows
    /\ Forall2 (fun t e => exists i, t = Some (Z.of_nat i)
                             /\ nth_error target_names i = Some (entry_target e)) (mr_targets r) rows
    /\ (forall n, In n group_names ->
          filter (fun e => String.eqb n (entry_heliostat e)) rows
          = filter (fun e => String.eqb n (entry_heliostat e)) mapping)
    /\ (forall e, In e rows -> In (entry_heliostat e) group_names /\ In e mapping).
Proof. exact (@index_mapping_faithful). Qed.
Print Assumptions C06_index_mapping_faithful.

Example C06_case :
  index_mapping_strings (fun _ : nat => true) ["A"; "B"; "C"]%string ["s"; "t"]%string
    [("C", "t", 1); ("X", "s", 2); ("A", "s", 3); ("C", "s", 4)]%string
  = Ok {| mr_mask := [1; 0; 2]; mr_targets := [Some 0%Z; Some 1%Z; Some 0%Z];
          mr_directions := [Some 3; Some 1; Some 4] |}.
Proof. reflexivity. Qed.

(** C07 (full statement): every malformed request is rejected with an error.  A negative default target
    index is accepted, so the full statement is false. *)
Theorem C07_default_index_refuted :
  ~ (forall group_names target_names d i r,
       index_mapping_default default_direction_ok group_names target_names d i = Ok r ->
       (0 <= i < Z.of_nat (List.length target_names))%Z).
Proof. exact default_index_refuted. Qed.
Print Assumptions C07_default_index_refuted.

(** Entries for heliostats of other groups are not checked either. *)
Theorem C07_foreign_entries_refuted :
  ~ (forall group_names target_names (mapping : list (entry (list R))) r,
       NoDup group_names ->
       index_mapping_strings mapping_direction_ok group_names target_names mapping = Ok r ->
       forall e, In e mapping -> In (entry_target e) target_names).
Proof. exact foreign_entries_refuted. Qed.
Print Assumptions C07_foreign_entries_refuted.

(** What holds: the exact acceptance conditions.  Missing relative to C07: negative default indices and
    entries naming heliostats outside the group. *)
Theorem C07_index_mapping_rejects_partial : forall group_names target_names,
  NoDup group_names ->
  (forall mapping : list (entry (list R)),
     (index_mapping_strings mapping_direction_ok group_names target_names mapping = Err ValueError <->
      exists e, In e mapping /\ In (entry_heliostat e) group_names /\
        (~ In (entry_target e) target_names \/ ~ acceptable_mapping_direction (entry_direction e)))
     /\ (index_mapping_strings mapping_direction_ok group_names target_names mapping <> Err ValueError ->
         exists r, index_mapping_strings mapping_direction_ok group_names target_names mapping = Ok r))
  /\ (forall d i,
     (index_mapping_default default_direction_ok group_names target_names d i = Err ValueError <->
      ~ acceptable_default_direction d
      \/ (Z.of_nat (List.length (nodup string_dec target_names)) <= i)%Z)
     /\ (index_mapping_default default_direction_ok group_names target_names d i <> Err ValueError ->
         index_mapping_default default_direction_ok group_names target_names d i =
         Ok {| mr_mask := repeat 1 (List.length group_names);
               mr_targets := repeat (Some i) (List.length group_names);
               mr_directions := repeat (Some d) (List.length group_names) |})).
Proof. exact index_mapping_rejects. Qed.
Print Assumptions C07_index_mapping_rejects_partial.

Example C07_case :
  index_mapping_strings mapping_direction_ok ["A"]%string ["s"]%string
     [("A", "nowhere", [0; 1; 0; 0]%R)]%string = Err ValueError
  /\ acceptable_default_direction [0; 1; 0; 0]%R.
Proof.
  split.
  - apply (C07_index_mapping_rejects_partial ["A"]%string ["s"]%string).
    + repeat constructor. simpl. tauto.
    + eexists. split; [left; reflexivity|]. simpl. split; auto. left. intros [H|[]]. discriminate.
  - exists 0%R, 1%R, 0%R, 0%R. split; auto. rewrite Rabs_R0. split; [lra|].
    replace (0*0+1*1+0*0)%R with 1%R by ring. rewrite sqrt_1.
    replace (1-1)%R with 0%R by ring. rewrite Rabs_R0. lra.
Qed.

(** C08 (full statement): after any history of activations, every active tensor is the selection of the
    base rows by one common owner list given by the last mask. *)
Theorem C08_activation_alignment_refuted :
  exists g, well_formed_data tiny_data
    /\ activate_all (new_group tiny_data) [Some [0]; Some [1]] = Ok g
    /\ ~ (exists owners, owners_of_mask [1] owners /\
            rows_selected (gd_actuator_optimizable tiny_data)
                          (gd_actuator_optimizable (gs_active g)) owners).
Proof. exact activation_alignment_refuted. Qed.
Print Assumptions C08_activation_alignment_refuted.

(** In every group and every history: after an activation that selects no heliostat, a later activation
    that selects some leaves the optimizable actuator parameters empty. *)
Theorem C08_empty_activation_refuted : forall (V : Type) (base : group_data V) before m0 after m g,
  list_sum m0 = 0 -> 0 < list_sum m ->
  activate_all (new_group base) (before ++ Some m0 :: after ++ [Some m]) = Ok g ->
  gd_actuator_optimizable (gs_active g) = []
  /\ gs_number_of_active g = list_sum m
  /\ ~ exists owners, owners_of_mask m owners /\
        rows_selected (gd_actuator_optimizable base) (gd_actuator_optimizable (gs_active g)) owners.
Proof. exact (@empty_activation). Qed.
Print Assumptions C08_empty_activation_refuted.

(** What holds for all histories: all tensors except the optimizable actuator parameters are aligned; the
    optimizable ones are aligned too if no earlier activation was empty. *)
Theorem C08_activation_alignment_partial : forall (V : Type) (base : group_data V) history m g,
  activate_all (new_group base) (history ++ [m]) = Ok g ->
  exists owners,
    gs_base g = base
    /\ owners_of_mask (match m with
                       | Some m => m
                       | None => repeat 1 (List.length (gd_positions base)) end) owners
    /\ gs_number_of_active g = List.length owners
    /\ (forall attr, In attr essential_attributes -> rows_selected (attr base) (attr (gs_active g)) owners)
    /\ (gd_actuator_optimizable base <> [] -> 0 < List.length (gd_positions base) ->
        (forall m', In (Some m') history -> 0 < list_sum m') ->
        rows_selected (gd_actuator_optimizable base) (gd_actuator_optimizable (gs_active g)) owners).
Proof. exact (@activation_alignment). Qed.
Print Assumptions C08_activation_alignment_partial.

(** Activation with a mask of the right length never fails. *)
Theorem C08_activation_succeeds : forall (V : Type) (g : group_state V) mask,
  well_formed_data (gs_base g) ->
  List.length mask = List.length (gd_positions (gs_base g)) ->
  exists g', activate_heliostats g (Some mask) = Ok g'.
Proof. exact (@activation_succeeds). Qed.
Print Assumptions C08_activation_succeeds.

Example C08_case : exists g,
  activate_all (new_group tiny_data) [Some [3]; None; Some [2]] = Ok g
  /\ gd_motor_positions (gs_active g) = [10; 10] /\ gd_actuator_optimizable (gs_active g) = [12; 12].
Proof. eexists. split; [reflexivity|]. split; reflexivity. Qed.

(** C09. [test_of_count n] is [int(n * test_fraction)]. *)
Theorem C09_split_partition : forall per mask (test_of_count : nat -> nat),
  (forall m, In m mask -> m = 0 \/ m = per) -> In per mask -> 2 <= per -> test_of_count per < per ->
  exists s, train_test_split mask test_of_count = Ok s
   /\ sr_per_heliostat s = per
   /\ 1 <= sr_number_of_train s /\ 1 <= sr_number_of_test s
   /\ sr_number_of_train s + sr_number_of_test s = per
   /\ Permutation (sr_train_indices s ++ sr_test_indices s) (seq 0 (list_sum mask))
   /\ (forall (A : Type) (rows full : list A), repeat_interleave rows mask = Ok full ->
         exists train_rows test_rows,
           select_rows full (sr_train_indices s) = Ok train_rows
           /\ repeat_interleave rows (sr_mask_train s) = Ok train_rows
           /\ select_rows full (sr_test_indices s) = Ok test_rows
           /\ repeat_interleave rows (sr_mask_test s) = Ok test_rows)
   /\ (forall i, nth i mask 0 = per -> nth i (sr_mask_train s) 0 = sr_number_of_train s
                                     /\ nth i (sr_mask_test s) 0 = sr_number_of_test s)
   /\ (forall i, nth i mask 0 = 0 -> nth i (sr_mask_train s) 0 = 0 /\ nth i (sr_mask_test s) 0 = 0).
Proof. exact split_spec. Qed.
Print Assumptions C09_split_partition.

(** [int(n * f)] for a real fraction [f] in [0,1) is an admissible test count. *)
Theorem C09_fraction_admissible : forall (f : R) (n : nat),
  (0 <= f < 1)%R -> 1 <= n ->
  Z.to_nat (Int_part (INR n * f)) < n.
Proof. exact fraction_admissible. Qed.
Print Assumptions C09_fraction_admissible.

Example C09_case : exists s,
  train_test_split [4; 0; 4] (fun n => n / 4) = Ok s
  /\ sr_train_indices s = [0; 1; 2; 4; 5; 6] /\ sr_test_indices s = [3; 7]
  /\ sr_mask_train s = [3; 0; 3] /\ sr_mask_test s = [1; 0; 1].
Proof. eexists. split; [reflexivity|]. repeat split. Qed.

(** The equal-count precondition is necessary: with [1;3] the training rows belong to heliostats 0 and 1
    but the training mask activates heliostat 1 twice. *)
Example C09_uneven_case : exists s,
  train_test_split [1; 3] (fun n => n / 4) = Ok s
  /\ repeat_interleave ["A"; "B"]%string [1; 3] = Ok ["A"; "B"; "B"; "B"]%string
  /\ select_rows ["A"; "B"; "B"; "B"]%string (sr_train_indices s) = Ok ["A"; "B"]%string
  /\ repeat_interleave ["A"; "B"]%string (sr_mask_train s) = Ok ["B"; "B"]%string.
Proof. eexists. split; [reflexivity|]. repeat split. Qed.

(** C58. [types] are the lists of names of the planar and the cylindrical target areas. *)
Theorem C58_target_names_and_indices : forall types : list (list string),
  (forall name, In name (List.concat types) ->
     exists i, name_to_index (List.concat types) name = Some i /\ i < List.length (List.concat types))
  /\ (forall name i, name_to_index (List.concat types) name = Some i ->
        exists t l names, nth_error (index_to_target_area types) i = Some (t, l)
          /\ nth_error types t = Some names /\ nth_error names l = Some name)
  /\ (NoDup (List.concat types) -> forall name i, nth_error (List.concat types) i = Some name ->
        name_to_index (List.concat types) name = Some i)
  /\ List.length (index_to_target_area types) = List.length (List.concat types).
Proof. exact target_names_and_indices. Qed.
Print Assumptions C58_target_names_and_indices.

Theorem C58_centers_of_target_areas : forall (P C A : Type) (planar_center : P -> A) (cylinder_point : C -> A)
    planar cylindrical i,
  (forall p, nth_error planar i = Some p ->
     center_of_target_area planar_center cylinder_point planar cylindrical i = Some (planar_center p))
  /\ (forall k c, nth_error cylindrical k = Some c ->
        center_of_target_area planar_center cylinder_point planar cylindrical (List.length planar + k)
        = Some (cylinder_point c))
  /\ (List.length planar + List.length cylindrical <= i ->
        center_of_target_area planar_center cylinder_point planar cylindrical i = None).
Proof. exact (@centers_spec). Qed.
Print Assumptions C58_centers_of_target_areas.

Example C58_case :
  let types := [["calib_1"; "calib_2"]; ["receiver"]]%string in
  name_to_index (List.concat types) "receiver"%string = Some 2
  /\ nth_error (index_to_target_area types) 2 = Some (1, 0).
Proof. split; reflexivity. Qed.
