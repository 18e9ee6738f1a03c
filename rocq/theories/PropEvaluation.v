(** C142: data for the evaluation of reconstructions.  C143: predicted fluxes. *)
From Coq Require Import List Arith String Bool Lia Reals Lra.
From Verif Require Import RealSums ModelField ModelVectors ModelTransforms ModelHdf5 ModelScenario ModelDistributed ModelIntersections ModelCalibration ModelTrace ModelRayTracer ModelEvaluation
  SpecTransforms SpecSplatting SpecTrace SpecDelivery SpecRayTracer SpecCalibration SpecEvaluation ProofsTraceBatch ProofsDelivery ProofsEvaluation PropRayTracer.
Import ListNotations.
Local Open Scope string_scope.

(** C142 (full statement: the evaluation data of a heliostat hold, for each of its calibration measurements, the measured image and the
    image that is traced for that measurement, on whatever number of ranks the script runs).  Proved: each heliostat with calibration files gets exactly its own
    measured images and target areas, in the order of its files, beside the rows that the ray tracer returned for it, and a heliostat without samples gets no entry;
    on one rank those rows are the traced images of its own samples.  Refuted: if a group is evaluated by two or more ranks, every
    sample of every heliostat is an image on one of the ranks only, and uninitialised memory in the data of all others. *)
Theorem C142_measured_partial : forall (P G B F : Type) limit (decode : G -> B) (read : P -> res measurement) mapping names, limit <> Some 0 ->
  NoDup (map (fun '(n, _, _) => n) mapping) -> NoDup names ->
  (forall n ps gs, In (n, ps, gs) mapping -> List.length ps = List.length gs) ->
  (forall n ps gs p, In (n, ps, gs) mapping -> In p ps -> exists m, read p = Ok m) ->
  exists fluxes measurements mask, parse_data limit decode read mapping names = Ok (fluxes, measurements, mask)
  /\ forall (rows : list F) name ps gs, In (name, ps, gs) mapping -> In name names -> ps <> [] -> List.length rows = list_sum mask ->
     exists e ms, find_link name (evaluation_data 0 names mask rows fluxes (map m_target measurements) []) = Some e
     /\ e_measured e = map decode (within limit gs)
     /\ map read (within limit ps) = map Ok ms /\ e_targets e = map m_target ms
     /\ e_traced e = own_entries name (repeated names mask) rows.
Proof. exact entries_from_files. Qed.
Print Assumptions C142_measured_partial.

Theorem C142_without_samples_partial : forall B F T names mask (rows : list B) (measured : list F) (targets : list T) name, NoDup names ->
  ~ In name (repeated names mask) -> find_link name (evaluation_data 0 names mask rows measured targets []) = None.
Proof. intros B F T names mask rows measured targets name N NI. apply (proj2 (evaluation_entries names mask 0 rows measured targets [] name N) NI). Qed.
Print Assumptions C142_without_samples_partial.

Example C142_measured_case : let mapping := [("B", [4; 5], [40; 50]); ("A", [1; 2; 3], [10; 20; 30])] in
  let read p := Ok {| m_focal_spot := hv 0 0 0 1; m_incident := hv 0 0 0 0; m_motors := (0%R, 0%R); m_target := p |} in
  exists measurements, parse_data (Some 2) (fun g : nat => g) read mapping ["A"; "C"; "B"] = Ok ([10; 20; 40; 50], measurements, [2; 0; 2])
  /\ evaluation_data 0 ["A"; "C"; "B"] [2; 0; 2] [100; 200; 400; 500] [10; 20; 40; 50] (map m_target measurements) []
     = [("A", {| e_traced := [100; 200]; e_measured := [10; 20]; e_targets := [1; 2] |}); ("B", {| e_traced := [400; 500]; e_measured := [40; 50]; e_targets := [4; 5] |})].
Proof. eexists. split; reflexivity. Qed.

(** The row of a sample stands in the entry of its heliostat behind those of the earlier samples of the heliostat. *)
Theorem C142_one_rank_partial : forall F sort fuel t incident targets extinction reflectivity per names (measured : list F),
  rt_blocking t = None -> one_per_sample t -> (1 <= rt_batch_size t)%nat ->
  (exists m, In m (rt_mask t) /\ (0 < m)%nat) -> (forall m, In m (rt_mask t) -> m = 0%nat \/ m = per) ->
  List.length incident = list_sum (rt_mask t) -> List.length targets = list_sum (rt_mask t) ->
  (2 <= rt_width t)%nat -> (2 <= rt_height t)%nat -> (0 <= rt_magnitude t)%R -> (0 <= extinction <= 1)%R -> (0 <= reflectivity)%R ->
  (forall i, (i < list_sum (rt_mask t))%nat -> exists s, sample_at t incident targets i s /\ proper_sample s) ->
  NoDup names -> List.length names = List.length (rt_mask t) ->
  exists rows, trace_rays sort fuel (on_rank t 1 0) incident (rt_mask t) targets extinction reflectivity = Rows rows
  /\ forall i s name, sample_at t incident targets i s -> nth_error (repeated names (rt_mask t)) i = Some name -> exists e row,
     find_link name (evaluation_data 0 names (rt_mask t) rows measured targets []) = Some e
     /\ trace_sample (rt_width t) (rt_height t) (rt_magnitude t) extinction reflectivity s (repeat 0%R (List.length (sample_rays s))) = Ok row
     /\ nth_error (e_traced e) (earlier name (repeated names (rt_mask t)) i) = Some (Some (Some row))
     /\ nth_error (e_targets e) (earlier name (repeated names (rt_mask t)) i) = nth_error targets i.
Proof.
  intros F sort fuel t incident targets extinction reflectivity per names measured HB HO HBS HM HP HI HT W H MG EX RE SM NN LN.
  destruct (evaluation_on_ranks sort fuel t 1 incident targets extinction reflectivity per names measured HB HO HBS (le_n 1) HM HP HI HT W H MG EX RE SM NN LN) as (rows & R1 & R2).
  exists (rows 0). split; [apply R1; lia|]. intros i s name SA NE. destruct (R2 i s name SA NE) as (writer & row & WL & TS & ALL). destruct (ALL 0 ltac:(lia)) as (e & F1 & F2 & F3).
  replace writer with 0 in F3 by lia. exists e, row. auto.
Qed.
Print Assumptions C142_one_rank_partial.

Theorem C142_ranks_refuted : forall F sort fuel t world incident targets extinction reflectivity per names (measured : list F),
  rt_blocking t = None -> one_per_sample t -> (1 <= rt_batch_size t)%nat -> (2 <= world)%nat ->
  (exists m, In m (rt_mask t) /\ (0 < m)%nat) -> (forall m, In m (rt_mask t) -> m = 0%nat \/ m = per) ->
  List.length incident = list_sum (rt_mask t) -> List.length targets = list_sum (rt_mask t) ->
  (2 <= rt_width t)%nat -> (2 <= rt_height t)%nat -> (0 <= rt_magnitude t)%R -> (0 <= extinction <= 1)%R -> (0 <= reflectivity)%R ->
  (forall i, (i < list_sum (rt_mask t))%nat -> exists s, sample_at t incident targets i s /\ proper_sample s) ->
  NoDup names -> List.length names = List.length (rt_mask t) ->
  exists rows : nat -> list (option (option traced)),
  (forall rank, (rank < world)%nat -> trace_rays sort fuel (on_rank t world rank) incident (rt_mask t) targets extinction reflectivity = Rows (rows rank))
  /\ forall i s name, sample_at t incident targets i s -> nth_error (repeated names (rt_mask t)) i = Some name -> exists writer, (writer < world)%nat
     /\ forall rank, (rank < world)%nat -> rank <> writer -> exists e, find_link name (evaluation_data 0 names (rt_mask t) (rows rank) measured targets []) = Some e
        /\ nth_error (e_traced e) (earlier name (repeated names (rt_mask t)) i) = Some None.
Proof.
  intros F sort fuel t world incident targets extinction reflectivity per names measured HB HO HBS HW HM HP HI HT W H MG EX RE SM NN LN.
  destruct (evaluation_on_ranks sort fuel t world incident targets extinction reflectivity per names measured HB HO HBS ltac:(lia) HM HP HI HT W H MG EX RE SM NN LN) as (rows & R1 & R2).
  exists rows. split; auto. intros i s name SA NE. destruct (R2 i s name SA NE) as (writer & row & WL & TS & ALL). exists writer. split; auto.
  intros rank RL D. destruct (ALL rank RL) as (e & F1 & F2 & F3). exists e. split; auto. rewrite F3. destruct (Nat.eqb_spec rank writer); [contradiction|auto].
Qed.
Print Assumptions C142_ranks_refuted.

(** The two mirrors of C125 on two ranks: each of the two heliostats has no image in the data of one of the ranks. *)
Example C142_case : forall sort fuel name, In name ["B"; "C"] -> exists rank rows e, rank < 2
  /\ trace_rays sort fuel (on_rank two_mirrors 2 rank) [(vec 0 0 (-1))%R; (vec 0 0 (-1))%R] [0; 1; 1] [1; 0] 0%R 1%R = Rows rows
  /\ find_link name (evaluation_data 0 ["A"; "B"; "C"] [0; 1; 1] rows [tt; tt] [1; 0] []) = Some e /\ nth_error (e_traced e) 0 = Some None.
Proof.
  intros sort fuel name NI. assert (S0 : sample_at two_mirrors [(vec 0 0 (-1))%R; (vec 0 0 (-1))%R] [1; 0]%nat 0 (upward (-5) 95)%R).
  { split; [reflexivity|]. split; [eexists; eexists; split; [reflexivity|split; reflexivity]|]. split; [reflexivity|]. exists 1%nat. split; reflexivity. }
  assert (S1 : sample_at two_mirrors [(vec 0 0 (-1))%R; (vec 0 0 (-1))%R] [1; 0]%nat 1 (upward (-3) (-2))%R).
  { split; [reflexivity|]. split; [eexists; eexists; split; [reflexivity|split; reflexivity]|]. split; [reflexivity|]. exists 0%nat. split; reflexivity. }
  destruct (C142_ranks_refuted unit sort fuel two_mirrors 2 [(vec 0 0 (-1))%R; (vec 0 0 (-1))%R] [1; 0]%nat 0%R 1%R 1 ["A"; "B"; "C"] [tt; tt]) as (rows & R1 & R2); auto; try (cbn; lia); try (cbn; lra).
  - repeat split; reflexivity.
  - exists 1%nat. cbn. auto.
  - cbn. intros [|[|i]] I; [exists (upward (-5) 95)%R|exists (upward (-3) (-2))%R|lia]; auto using upward_proper.
  - repeat (constructor; [cbn; intuition discriminate|]). constructor.
  - assert (X : exists i s, sample_at two_mirrors [(vec 0 0 (-1))%R; (vec 0 0 (-1))%R] [1; 0]%nat i s /\ nth_error (repeated ["A"; "B"; "C"] [0; 1; 1]) i = Some name
      /\ earlier name (repeated ["A"; "B"; "C"] [0; 1; 1]) i = 0).
    { destruct NI as [<-|[<-|[]]]; [exists 0; eexists; split; [exact S0|]|exists 1; eexists; split; [exact S1|]]; split; reflexivity. }
    destruct X as (i & s & SA & NE & EA). destruct (R2 i s name SA NE) as (writer & WL & ALL). cbn [rt_mask two_mirrors] in ALL. rewrite EA in ALL.
    destruct (ALL (1 - writer)) as (e & F1 & F2); [lia|lia|]. exists (1 - writer), (rows (1 - writer)), e. split; [lia|]. split; [apply R1; lia|]. auto.
Qed.

(** C143 (full statement: the flux predictions stored under the name of a heliostat are those of that heliostat, and so is its surface).  Proved: if the heliostats are listed in
    the order of the heliostat group of the scenario, each name gets the image that is traced for its own heliostat and measurement.  Refuted: in
    any other order some name gets the image of another heliostat; the surface that is stored under the j-th name is always that of the
    j-th heliostat of the group; and a heliostat outside the first group makes the script fail. *)
Theorem C143_group_order_partial : forall (P B S : Type) (read : P -> res measurement) (trace : string -> measurement -> B) load_utis m_of
  key names (surfaces : list S) uncanted heliostats results, key <> "surface" ->
  NoDup names -> NoDup (map fst heliostats) -> List.length surfaces = List.length names ->
  (forall n p, In (n, p) heliostats -> In n names /\ read p = Ok (m_of n)) -> map fst heliostats = group_order names (map fst heliostats) ->
  exists results', generate_flux_images read trace load_utis key names surfaces uncanted heliostats results = Ok results'
  /\ forall name, In name (map fst heliostats) -> exists entry, find_link name results' = Some entry /\ find_link key entry = Some (Image (trace name (m_of name))).
Proof. exact own_images_in_group_order. Qed.
Print Assumptions C143_group_order_partial.

Theorem C143_other_order_refuted : forall (P B S : Type) (read : P -> res measurement) (trace : string -> measurement -> B) load_utis m_of
  key names (surfaces : list S) uncanted heliostats results, key <> "surface" ->
  NoDup names -> NoDup (map fst heliostats) -> List.length surfaces = List.length names ->
  (forall n p, In (n, p) heliostats -> In n names /\ read p = Ok (m_of n)) -> map fst heliostats <> group_order names (map fst heliostats) ->
  exists results', generate_flux_images read trace load_utis key names surfaces uncanted heliostats results = Ok results'
  /\ exists name other entry, In name (map fst heliostats) /\ In other (map fst heliostats) /\ name <> other
     /\ find_link name results' = Some entry /\ find_link key entry = Some (Image (trace other (m_of other))).
Proof. exact foreign_image_otherwise. Qed.
Print Assumptions C143_other_order_refuted.

Theorem C143_surface_refuted : forall (P B S : Type) (read : P -> res measurement) (trace : string -> measurement -> B) load_utis m_of
  names (surfaces : list S) uncanted heliostats j name other s,
  NoDup names -> NoDup (map fst heliostats) -> List.length surfaces = List.length names ->
  (forall n p, In (n, p) heliostats -> In n names /\ read p = Ok (m_of n)) ->
  nth_error (map fst heliostats) j = Some name -> nth_error names j = Some other -> name <> other -> nth_error surfaces j = Some s ->
  exists results' entry, generate_flux_images read trace load_utis "deflectometry" names surfaces uncanted heliostats [] = Ok results'
  /\ find_link name results' = Some entry /\ find_link "surface" entry = Some (Surface (uncanted name s)).
Proof.
  intros P B S read trace load_utis m_of names surfaces uncanted heliostats j name other s NN NH LS R J O D SJ.
  destruct (stored_in_group_order P B S read trace load_utis m_of "deflectometry" names surfaces uncanted heliostats [] ltac:(discriminate) NN NH LS R) as (results' & E & Q).
  destruct (Q j name J) as (o & entry & _ & F1 & _ & F3). destruct (F3 eq_refl I) as (s' & SJ' & F4). assert (s' = s) as -> by congruence. exists results', entry. auto.
Qed.
Print Assumptions C143_surface_refuted.

Theorem C143_outside_group_refuted : forall (P B S : Type) (read : P -> res measurement) (trace : string -> measurement -> B) load_utis m_of
  key names (surfaces : list S) uncanted heliostats results name,
  NoDup names -> NoDup (map fst heliostats) -> (forall n p, In (n, p) heliostats -> read p = Ok (m_of n)) -> In name (map fst heliostats) -> ~ In name names ->
  exists e, generate_flux_images read trace load_utis key names surfaces uncanted heliostats results = Err e.
Proof. exact missing_heliostat. Qed.
Print Assumptions C143_outside_group_refuted.

(** Images and surfaces are labelled with the heliostat they belong to: in the order of the group everything is right, in the other order everything is wrong. *)
Example C143_case : let read (p : nat) := Ok {| m_focal_spot := hv 0 0 0 1; m_incident := hv 0 0 0 0; m_motors := (0%R, 0%R); m_target := p |} in
  let run names heliostats := generate_flux_images read (fun name m => (name, m_target m)) (fun name => (name, 0)) "deflectometry" names names (fun _ s => s) heliostats [] in
  run ["AA39"; "AY26"] [("AA39", 1); ("AY26", 2)]
  = Ok [("AA39", [("utis", Image ("AA39", 0)); ("deflectometry", Image ("AA39", 1)); ("surface", Surface "AA39")]);
        ("AY26", [("utis", Image ("AY26", 0)); ("deflectometry", Image ("AY26", 2)); ("surface", Surface "AY26")])]
  /\ run ["AA39"; "AY26"] [("AY26", 2); ("AA39", 1)]
  = Ok [("AY26", [("utis", Image ("AY26", 0)); ("deflectometry", Image ("AA39", 1)); ("surface", Surface "AA39")]);
        ("AA39", [("utis", Image ("AA39", 0)); ("deflectometry", Image ("AY26", 2)); ("surface", Surface "AY26")])]
  /\ run ["AA39"] [("AA39", 1); ("AY26", 2)] = Err IndexError.
Proof. repeat split. Qed.
