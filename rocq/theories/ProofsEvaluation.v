From Coq Require Import List Arith String Bool Lia Reals.
From Verif Require Import ModelField ModelVectors ModelTransforms ModelHdf5 ModelScenario ModelDistributed ModelIntersections ModelCalibration ModelTrace ModelRayTracer ModelEvaluation
  SpecTransforms SpecSplatting SpecTrace SpecDelivery SpecRayTracer SpecCalibration SpecEvaluation ProofsHdf5 ProofsCalibration ProofsRayTracer.
Import ListNotations.
Local Open Scope string_scope.

Lemma dict_find : forall {A} k (v : A) k' d, find_link k' (dict_set k v d) = if String.eqb k' k then Some v else find_link k' d.
Proof.
  intros A k v k' d. induction d as [|[k0 v0] d IH]; cbn [dict_set find_link]; auto.
  destruct (String.eqb_spec k k0) as [->|E]; cbn [find_link]; destruct (String.eqb_spec k' k0) as [->|E']; auto.
  - destruct (String.eqb_spec k0 k); congruence.
Qed.
Lemma combine_app_r : forall {A B} (l : list A) (a b : list B), combine l (a ++ b) = (combine (firstn (List.length a) l) a ++ combine (skipn (List.length a) l) b)%list.
Proof. intros A B l a. revert l. induction a as [|x a IH]; intros [|y l] b; cbn; auto. f_equal. apply IH. Qed.

Lemma skipn_add : forall {A} a b (l : list A), skipn b (skipn a l) = skipn (a + b) l.
Proof. intros A a. induction a as [|a IH]; intros b [|x l]; cbn [skipn Nat.add]; auto. apply skipn_nil. Qed.

(** ** Own entries *)
Lemma own_none : forall {A} name owners (l : list A), ~ In name owners -> own_entries name owners l = [].
Proof.
  intros A name owners. unfold own_entries. induction owners as [|o owners IH]; intros [|x l] N; auto. cbn [combine filter].
  destruct (String.eqb_spec o name) as [->|]; [exfalso; apply N; left; auto|]. apply IH. intros I. apply N. right; auto.
Qed.
Lemma own_app : forall {A} name a b (l : list A), own_entries name (a ++ b) l = (own_entries name a (firstn (List.length a) l) ++ own_entries name b (skipn (List.length a) l))%list.
Proof. intros. unfold own_entries. rewrite combine_app_r, filter_app, map_app. auto. Qed.
Lemma own_repeat : forall {A} name k (l : list A), own_entries name (repeat name k) (firstn k l) = firstn k l.
Proof.
  intros A name k. induction k as [|k IH]; intros [|x l]; auto. unfold own_entries in *. cbn [repeat firstn combine filter]. rewrite String.eqb_refl. cbn [map fst]. f_equal. apply IH.
Qed.
Lemma own_repeat_other : forall {A} name other k (l : list A), other <> name -> own_entries name (repeat other k) l = [].
Proof. intros A name other k l N. apply own_none. intros I. apply repeat_spec in I. congruence. Qed.
Lemma repeated_in : forall names mask name, In name (repeated names mask) -> In name names.
Proof. intros names mask name I. unfold repeated in I. apply in_flat_map in I. destruct I as ((a & b) & J & Q). apply repeat_spec in Q. subst. eapply in_combine_l; eauto. Qed.

Theorem evaluation_entries : forall {B F T} names mask offset (rows : list B) (measured : list F) (targets : list T) data name, NoDup names ->
  (In name (repeated names mask) ->
     find_link name (evaluation_data offset names mask rows measured targets data)
     = Some {| e_traced := own_entries name (repeated names mask) (skipn offset rows); e_measured := own_entries name (repeated names mask) (skipn offset measured);
               e_targets := own_entries name (repeated names mask) (skipn offset targets) |})
  /\ (~ In name (repeated names mask) -> find_link name (evaluation_data offset names mask rows measured targets data) = find_link name data).
Proof.
  induction names as [|n names IH]; intros mask offset rows measured targets data name ND; [split; [intros []|auto]|].
  destruct mask as [|k mask]; [split; [intros []|auto]|]. inversion ND as [|? ? N1 N2]; subst. unfold repeated. cbn [combine flat_map evaluation_data]. fold (repeated names mask).
  destruct (Nat.eqb_spec k 0) as [->|K]; [cbn [repeat app]; apply IH; auto|].
  rewrite !own_app, !repeat_length, !skipn_add. destruct (String.eqb_spec n name) as [->|D].
  - assert (NI : ~ In name (repeated names mask)) by (intros I; apply repeated_in in I; auto). split.
    + intros _. rewrite (proj2 (IH mask (offset + k) rows measured targets _ name N2) NI), dict_find, String.eqb_refl, !(own_none name (repeated names mask)), !app_nil_r, !own_repeat by auto. auto.
    + intros Q. exfalso. apply Q. apply in_or_app. left. destruct k; [lia|left; auto].
  - assert (S1 : In name (repeat n k ++ repeated names mask)%list <-> In name (repeated names mask)).
    { rewrite in_app_iff. split; [intros [I|I]; auto; apply repeat_spec in I; congruence|auto]. }
    rewrite S1, !own_repeat_other by auto. cbn [app]. split.
    + apply IH; auto.
    + intros NI. rewrite (proj2 (IH mask (offset + k) rows measured targets _ name N2) NI), dict_find. destruct (String.eqb_spec name n); congruence.
Qed.

(** The entry at the place of a sample. *)
Lemma own_place : forall {A} name owners (l : list A) i, nth_error owners i = Some name -> List.length owners <= List.length l ->
  nth_error (own_entries name owners l) (earlier name owners i) = nth_error l i.
Proof.
  intros A name owners. unfold own_entries, earlier. induction owners as [|o owners IH]; intros [|x l] i O L; cbn [List.length] in L; try lia; [destruct i; discriminate|destruct i; discriminate|].
  cbn [combine filter]. destruct i as [|i]; cbn [nth_error firstn count_occ] in *.
  - injection O as ->. rewrite String.eqb_refl. auto.
  - destruct (string_dec o name) as [->|D]; [rewrite String.eqb_refl|destruct (String.eqb_spec o name); [congruence|]].
    + cbn [map nth_error]. apply IH; auto; lia.
    + apply IH; auto; lia.
Qed.
Lemma repeated_length : forall names mask, List.length mask = List.length names -> List.length (repeated names mask) = list_sum mask.
Proof.
  induction names as [|n names IH]; intros [|k mask] L; cbn in *; try lia. unfold repeated in *. cbn [combine flat_map]. rewrite app_length, repeat_length, IH by lia. auto.
Qed.

(** ** From files to entries *)
Section Files.
Variables P G B F : Type.
Lemma own_map : forall {A C} (f : A -> C) name owners l, own_entries name owners (map f l) = map f (own_entries name owners l).
Proof. intros A C f name owners. unfold own_entries. induction owners as [|o owners IH]; intros [|x l]; auto. cbn [map combine filter]. destruct (String.eqb o name); cbn [map fst]; [f_equal|]; apply IH. Qed.
Lemma own_samples_of : forall limit (mapping : list (string * list P * list G)) names name, NoDup names -> In name names ->
  own_entries name (map owner (samples limit mapping names)) (samples limit mapping names) = samples limit mapping [name].
Proof.
  intros limit mapping names name N I. set (one := fun n => samples limit mapping [n]).
  assert (O : forall n s, In s (one n) -> owner s = n).
  { intros n s J. unfold one, samples in J. cbn [flat_map] in J. rewrite app_nil_r in J. apply in_flat_map in J. destruct J as ([[n' ps] gs] & _ & J). destruct (String.eqb n' n); [|contradiction].
    apply in_map_iff in J. destruct J as ((p & q) & <- & _). auto. }
  assert (E : forall l, own_entries name (map owner l) l = filter (fun s : string * P * G => String.eqb (owner s) name) l).
  { unfold own_entries. induction l as [|s l IHl]; auto. cbn [map combine filter]. destruct (String.eqb (owner s) name); cbn [map fst]; [f_equal|]; auto. }
  rewrite E. clear E. assert (S1 : forall n l, samples limit mapping (n :: l) = (one n ++ samples limit mapping l)%list) by (intros; unfold one, samples; cbn [flat_map]; rewrite app_nil_r; auto).
  assert (NONE : forall l, (forall s, In s l -> owner s <> name) -> filter (fun s : string * P * G => String.eqb (owner s) name) l = []).
  { induction l as [|s l IHl]; intros Q; auto. cbn [filter]. destruct (String.eqb_spec (owner s) name) as [X|]; [exfalso; apply (Q s); auto; left; auto|]. apply IHl. intros. apply Q. right; auto. }
  assert (ALL : forall l, (forall s, In s l -> owner s = name) -> filter (fun s : string * P * G => String.eqb (owner s) name) l = l).
  { induction l as [|s l IHl]; intros Q; auto. cbn [filter]. rewrite (Q s) by (left; auto). rewrite String.eqb_refl. f_equal. apply IHl. intros. apply Q. right; auto. }
  assert (SO : forall l s, In s (samples limit mapping l) -> In (owner s) l).
  { induction l as [|n l IHl]; intros s J; [contradiction|]. rewrite S1 in J. apply in_app_or in J. destruct J as [J|J]; [left; symmetry; apply O; auto|right; auto]. }
  induction names as [|n names IH]; [contradiction|]. inversion N as [|? ? N1 N2]; subst. rewrite S1, filter_app. destruct (string_dec n name) as [->|D].
  - rewrite (ALL (one name)) by (intros; apply O; auto). rewrite NONE; [apply app_nil_r|]. intros s J X. apply N1. rewrite <- X. apply SO. auto.
  - rewrite NONE by (intros s J; rewrite (O n s) by auto; auto). cbn [app]. apply IH; auto. destruct I; [congruence|auto].
Qed.
Lemma samples_of_heliostat : forall limit (mapping : list (string * list P * list G)) name ps gs, NoDup (map (fun '(n, _, _) => n) mapping) -> In (name, ps, gs) mapping ->
  samples limit mapping [name] = map (fun '(p, g) => (name, p, g)) (within limit (combine ps gs)).
Proof.
  intros limit mapping name ps gs N I. unfold samples. cbn [flat_map]. rewrite app_nil_r. induction mapping as [|[[n ps'] gs'] mapping IH]; [contradiction|]. cbn [map] in N. inversion N as [|? ? N1 N2]; subst.
  cbn [flat_map].
  assert (Z : forall m : list (string * list P * list G), ~ In name (map (fun '(n, _, _) => n) m) ->
      flat_map (fun '(n, ps0, gs0) => if String.eqb n name then map (fun '(p, g) => (name, p, g)) (within limit (combine ps0 gs0)) else []) m = []).
  { induction m as [|[[n' ps''] gs''] m IHm]; intros NI; auto. cbn [flat_map]. destruct (String.eqb_spec n' name) as [->|D]; [exfalso; apply NI; left; auto|]. cbn. apply IHm. intros J. apply NI. right; auto. }
  destruct I as [E|I].
  - injection E as -> -> ->. rewrite String.eqb_refl, Z by auto. apply app_nil_r.
  - destruct (String.eqb_spec n name) as [->|D].
    + exfalso. apply N1. apply in_map_iff. exists (name, ps, gs). auto.
    + cbn [app]. apply IH; auto.
Qed.

Theorem entries_from_files : forall limit (decode : G -> B) (read : P -> res measurement) mapping names, limit <> Some 0 ->
  NoDup (map (fun '(n, _, _) => n) mapping) -> NoDup names ->
  (forall n ps gs, In (n, ps, gs) mapping -> List.length ps = List.length gs) ->
  (forall n ps gs p, In (n, ps, gs) mapping -> In p ps -> exists m, read p = Ok m) ->
  exists fluxes measurements mask, parse_data limit decode read mapping names = Ok (fluxes, measurements, mask)
  /\ forall (rows : list F) name ps gs, In (name, ps, gs) mapping -> In name names -> ps <> [] -> List.length rows = list_sum mask ->
     exists e ms, find_link name (evaluation_data 0 names mask rows fluxes (map m_target measurements) []) = Some e
     /\ e_measured e = map decode (within limit gs)
     /\ map read (within limit ps) = map Ok ms /\ e_targets e = map m_target ms
     /\ e_traced e = own_entries name (repeated names mask) rows.
Proof.
  intros limit decode read mapping names LIM NM NN LEN READ.
  destruct (paired_any_limit P G B limit decode read mapping names NM LEN READ) as (limit' & fluxes & measurements & mask & LL & E & F1 & M1 & LM & OW). specialize (LL LIM). subst limit'.
  exists fluxes, measurements, mask. split; auto. intros rows name ps gs IM IN NE LR.
  pose proof (samples_of_heliostat limit mapping name ps gs NM IM) as SH.
  assert (W : within limit (combine ps gs) <> []).
  { specialize (LEN _ _ _ IM). destruct ps as [|p ps]; [congruence|]. destruct gs as [|g gs]; [discriminate|]. destruct limit as [[|k]|]; cbn; congruence. }
  assert (INN : In name (repeated names mask)).
  { rewrite OW. apply in_map_iff. assert (X : samples limit mapping [name] <> []). { rewrite SH. destruct (within limit (combine ps gs)); [congruence|discriminate]. }
    rewrite <- (own_samples_of limit mapping names name NN IN) in X. destruct (own_entries name (map owner (samples limit mapping names)) (samples limit mapping names)) as [|s l] eqn:Q; [congruence|].
    assert (J : In s (own_entries name (map owner (samples limit mapping names)) (samples limit mapping names))) by (rewrite Q; left; auto).
    unfold own_entries in J. apply in_map_iff in J. destruct J as ((s' & o) & Y & J). cbn in Y. subst s'. apply filter_In in J. destruct J as (J & K). apply String.eqb_eq in K. subst o.
    exists s. split; [|eapply in_combine_l; eauto]. revert J. generalize (samples limit mapping names). clear. induction l as [|a l IHl]; cbn; [tauto|]. intros [J|J]; [congruence|auto]. }
  exists {| e_traced := own_entries name (repeated names mask) rows; e_measured := own_entries name (repeated names mask) fluxes;
            e_targets := own_entries name (repeated names mask) (map m_target measurements) |}, (own_entries name (repeated names mask) measurements).
  split; [apply (proj1 (evaluation_entries names mask 0 rows fluxes (map m_target measurements) [] name NN)); auto|]. cbn [e_traced e_measured e_targets].
  split; [|split; [|split; [apply own_map|auto]]].
  - rewrite F1, OW, own_map, own_samples_of, SH, map_map by auto. unfold image_file. rewrite <- within_map.
    rewrite (map_ext _ (fun x => decode (snd x))) by (intros (p & g); auto). rewrite within_map. rewrite <- (map_map snd decode). f_equal. rewrite <- within_map. f_equal.
    specialize (LEN _ _ _ IM). clear -LEN. revert gs LEN. induction ps as [|p ps IH]; intros [|g gs] L; try discriminate; auto. cbn. f_equal. apply IH. auto.
  - rewrite <- own_map, M1, OW, own_map, own_samples_of, SH, map_map by auto. unfold property_file. 
    rewrite (map_ext _ (fun x => read (fst x))) by (intros (p & g); auto). rewrite <- (map_map fst read). f_equal. rewrite <- within_map. f_equal.
    specialize (LEN _ _ _ IM). clear -LEN. revert gs LEN. induction ps as [|p ps IH]; intros [|g gs] L; try discriminate; auto. cbn. f_equal. apply IH. auto.
Qed.
End Files.

(** ** Ranks *)
Lemma repeated_some : forall owners (i : nat) (name : string), nth_error owners i = Some name -> In name owners.
Proof. intros. eapply nth_error_In; eauto. Qed.
Theorem evaluation_on_ranks : forall {F} sort fuel t world incident targets extinction reflectivity per names (measured : list F),
  rt_blocking t = None -> one_per_sample t -> (1 <= rt_batch_size t)%nat -> (1 <= world)%nat ->
  (exists m, In m (rt_mask t) /\ (0 < m)%nat) -> (forall m, In m (rt_mask t) -> m = 0%nat \/ m = per) ->
  List.length incident = list_sum (rt_mask t) -> List.length targets = list_sum (rt_mask t) ->
  (2 <= rt_width t)%nat -> (2 <= rt_height t)%nat -> (0 <= rt_magnitude t)%R -> (0 <= extinction <= 1)%R -> (0 <= reflectivity)%R ->
  (forall i, (i < list_sum (rt_mask t))%nat -> exists s, sample_at t incident targets i s /\ proper_sample s) ->
  NoDup names -> List.length names = List.length (rt_mask t) ->
  exists rows : nat -> list (option (option traced)),
  (forall rank, (rank < world)%nat -> trace_rays sort fuel (on_rank t world rank) incident (rt_mask t) targets extinction reflectivity = Rows (rows rank))
  /\ forall i s name, sample_at t incident targets i s -> nth_error (repeated names (rt_mask t)) i = Some name -> exists writer row, (writer < world)%nat
     /\ trace_sample (rt_width t) (rt_height t) (rt_magnitude t) extinction reflectivity s (repeat 0%R (List.length (sample_rays s))) = Ok row
     /\ forall rank, (rank < world)%nat -> exists e, find_link name (evaluation_data 0 names (rt_mask t) (rows rank) measured targets []) = Some e
        /\ nth_error (e_targets e) (earlier name (repeated names (rt_mask t)) i) = nth_error targets i
        /\ nth_error (e_traced e) (earlier name (repeated names (rt_mask t)) i) = Some (if Nat.eqb rank writer then Some (Some row) else None).
Proof.
  intros F sort fuel t world incident targets extinction reflectivity per names measured HB HO HBS HW HM HP HI HT W H MG EX RE SM NN LN.
  destruct (traced_rows_of_group sort fuel t world incident targets extinction reflectivity per HB HO HBS HW HM HP HI HT W H MG EX RE SM) as (rows & R1 & R2).
  exists rows. split; [intros rank I; apply R1; auto|]. intros i s name SA NE. destruct (R2 i s SA) as (writer & row & WL & TS & WR & OTH). exists writer, row. split; auto. split; auto.
  intros rank RL. eexists. split; [apply (proj1 (evaluation_entries names (rt_mask t) 0 (rows rank) measured targets [] name NN)); eapply repeated_some; eauto|].
  cbn [e_targets e_traced skipn]. destruct (R1 rank RL) as (_ & LR).
  rewrite !own_place by (auto; rewrite repeated_length by auto; lia). split; auto. destruct (Nat.eqb_spec rank writer) as [->|D]; auto.
Qed.

(** ** Predicted fluxes *)
Section Prediction.
Variables property_path bitmap surface : Type.
Variables (read : property_path -> res measurement) (trace : string -> measurement -> bitmap) (load_utis : string -> bitmap).
Variable m_of : string -> measurement.
Implicit Types (results : list (string * list (string * prediction bitmap surface))).


Lemma store_other : forall key flux surfaces uncanted keys i results results' name, store_all load_utis key flux surfaces uncanted i keys results = Ok results' ->
  ~ In name keys -> find_link name results' = find_link name results.
Proof.
  intros key flux surfaces uncanted keys. induction keys as [|k keys IH]; intros i results results' name E N; cbn [store_all] in E; [congruence|].
  destruct (store_heliostat load_utis key flux surfaces uncanted i k results) as [r|] eqn:Q; [|discriminate]. cbn [bind] in E.
  rewrite (IH _ _ _ name E) by (intros I; apply N; right; auto). unfold store_heliostat in Q. destruct (nth_error flux i); [|discriminate].
  assert (D : String.eqb name k = false) by (apply String.eqb_neq; intros ->; apply N; left; auto).
  destruct (_ && _); [destruct (nth_error surfaces i); [|discriminate]|]; injection Q as <-; rewrite dict_find, D; auto.
Qed.
Lemma store_one : forall key flux surfaces uncanted i name results results', key <> "surface" -> store_heliostat load_utis key flux surfaces uncanted i name results = Ok results' ->
  exists entry b, find_link name results' = Some entry /\ nth_error flux i = Some b /\ find_link key entry = Some (Image b)
  /\ (key = "deflectometry" -> match find_link name results with Some e => find_link "surface" e = None | None => True end ->
      exists s, nth_error surfaces i = Some s /\ find_link "surface" entry = Some (Surface (uncanted name s))).
Proof.
  intros key flux surfaces uncanted i name results results' NK E. unfold store_heliostat in E. destruct (nth_error flux i) as [b|] eqn:B; [|discriminate].
  set (e0 := match find_link name results with Some e => e | None => [] end) in E.
  set (e1 := match find_link "utis" e0 with Some _ => e0 | None => _ end) in E.
  assert (NK' : String.eqb key "surface" = false) by (apply String.eqb_neq; auto).
  assert (S0 : find_link "surface" e1 = find_link "surface" e0). { subst e1. destruct (find_link "utis" e0); auto. rewrite dict_find. reflexivity. }
  destruct (String.eqb_spec key "deflectometry") as [->|D]; cbn [andb] in E.
  - destruct (find_link "surface" (dict_set "deflectometry" (Image b) e1)) as [x|] eqn:SF.
    + injection E as <-. eexists _, b. rewrite dict_find, String.eqb_refl. split; [reflexivity|]. split; auto. split; [rewrite dict_find, String.eqb_refl; auto|].
      intros _ NS. exfalso. rewrite dict_find in SF. cbn in SF. fold e1 in S0. rewrite S0 in SF. unfold e0 in SF. destruct (find_link name results); [congruence|discriminate].
    + destruct (nth_error surfaces i) as [s|] eqn:SI; [|discriminate]. injection E as <-. eexists _, b. rewrite dict_find, String.eqb_refl. split; [reflexivity|]. split; auto.
      split; [rewrite !dict_find; cbn; auto|]. intros _ _. exists s. split; auto. rewrite dict_find. reflexivity.
  - injection E as <-. eexists _, b. rewrite dict_find, String.eqb_refl. split; [reflexivity|]. split; auto. split; [rewrite dict_find, String.eqb_refl; auto|]. congruence.
Qed.
Lemma store_total : forall key flux surfaces uncanted keys i results, i + List.length keys <= List.length flux -> i + List.length keys <= List.length surfaces ->
  exists results', store_all load_utis key flux surfaces uncanted i keys results = Ok results'.
Proof.
  intros key flux surfaces uncanted keys. induction keys as [|k keys IH]; intros i results L1 L2; cbn [store_all List.length] in *; [eauto|].
  unfold store_heliostat. destruct (nth_error flux i) eqn:B; [|apply nth_error_None in B; lia]. destruct (nth_error surfaces i) eqn:C; [|apply nth_error_None in C; lia].
  destruct (_ && _); cbn [bind]; apply IH; lia.
Qed.
Lemma store_places : forall key flux surfaces uncanted keys i results results' j name, key <> "surface" -> NoDup keys -> store_all load_utis key flux surfaces uncanted i keys results = Ok results' ->
  nth_error keys j = Some name ->
  exists entry b, find_link name results' = Some entry /\ nth_error flux (i + j) = Some b /\ find_link key entry = Some (Image b)
  /\ (key = "deflectometry" -> match find_link name results with Some e => find_link "surface" e = None | None => True end ->
      exists s, nth_error surfaces (i + j) = Some s /\ find_link "surface" entry = Some (Surface (uncanted name s))).
Proof.
  intros key flux surfaces uncanted keys. induction keys as [|k keys IH]; intros i results results' j name NK ND E J; [destruct j; discriminate|]. cbn [store_all] in E. inversion ND as [|? ? N1 N2]; subst.
  destruct (store_heliostat load_utis key flux surfaces uncanted i k results) as [r|] eqn:Q; [|discriminate]. cbn [bind] in E. destruct j as [|j]; cbn [nth_error] in J.
  - injection J as ->. rewrite Nat.add_0_r. destruct (store_one _ _ _ _ _ _ _ _ NK Q) as (entry & b & FE & REST). exists entry, b. rewrite (store_other _ _ _ _ _ _ _ _ name E) by auto. auto.
  - destruct (IH _ _ _ j name NK N2 E J) as (entry & b & FE & NF & FK & SU). exists entry, b. replace (i + S j) with (S i + j) by lia. split; auto. split; auto. split; auto.
    intros KD NS. apply SU; auto. unfold store_heliostat in Q. destruct (nth_error flux i); [|discriminate].
    assert (D : String.eqb name k = false) by (apply String.eqb_neq; intros ->; apply N1; eapply nth_error_In; eauto).
    destruct (_ && _); [destruct (nth_error surfaces i); [|discriminate]|]; injection Q as <-; rewrite dict_find, D; auto.
Qed.

Lemma map_ok_inj : forall {A} (l r : list A), map Ok l = map Ok r -> l = r.
Proof. intros A l. induction l as [|x l IH]; intros [|y r] E; try discriminate; auto. cbn in E. injection E as -> E. f_equal. auto. Qed.
Lemma one_path : forall (heliostats : list (string * property_path)) names name, NoDup (map fst heliostats) -> In name names ->
  (forall n p, In (n, p) heliostats -> read p = Ok (m_of n)) ->
  map read (flat_map (fun '(n, ps) => if String.eqb n name then chosen property_path None ps else [])
    (filter (fun '(n, _) => existsb (String.eqb n) names) (map (fun '(n, path) => (n, [path])) heliostats)))
  = map Ok (if existsb (String.eqb name) (map fst heliostats) then [m_of name] else []).
Proof.
  intros heliostats names name. induction heliostats as [|(n, p) hs IH]; intros ND IN R; auto. cbn [map fst] in ND. inversion ND as [|? ? N1 N2]; subst.
  cbn [map filter fst existsb]. rewrite (String.eqb_sym name n). destruct (String.eqb_spec n name) as [->|D].
  - assert (X : existsb (String.eqb name) names = true) by (apply existsb_exists; exists name; split; auto; apply String.eqb_refl). rewrite X. cbn [flat_map]. rewrite String.eqb_refl.
    rewrite map_app, IH by (auto; intros; apply R; right; auto).
    assert (Y : existsb (String.eqb name) (map fst hs) = false). { destruct (existsb (String.eqb name) (map fst hs)) eqn:Y; auto. apply existsb_exists in Y. destruct Y as (y & I & E). apply String.eqb_eq in E. subst. contradiction. }
    rewrite Y. cbn. rewrite (R name p) by (left; auto). auto.
  - cbn [orb]. rewrite <- (IH N2 IN) by (intros; apply R; right; auto). destruct (existsb (String.eqb n) names); auto. cbn [flat_map]. destruct (String.eqb_spec n name); [congruence|]. auto.
Qed.
Theorem rows_in_group_order : forall (heliostats : list (string * property_path)) names, NoDup (map fst heliostats) ->
  (forall n p, In (n, p) heliostats -> read p = Ok (m_of n)) ->
  exists measurements mask,
  parse_calibration_data None read (filter (fun '(n, _) => existsb (String.eqb n) names) (map (fun '(n, path) => (n, [path])) heliostats)) names = Ok (measurements, mask)
  /\ traced_rows trace names mask measurements = map (fun n => trace n (m_of n)) (group_order names (map fst heliostats)).
Proof.
  intros heliostats names ND R. unfold parse_calibration_data.
  destruct (collect_ok property_path None read (filter (fun '(n, _) => existsb (String.eqb n) names) (map (fun '(n, path) => (n, [path])) heliostats)) []) as (d & E & PER).
  { intros n ps p I C. apply filter_In in I. destruct I as (I & _). apply in_map_iff in I. destruct I as ((n', p') & X & I). injection X as <- <-. destruct C as [<-|[]]. exists (m_of n'). apply R. auto. }
  rewrite E. cbn [bind]. eexists _, _. split; [reflexivity|].
  cbv zeta. change (fun name => match find_link name d with Some l => l | None => [] end) with (fun name => per name d).
  set (pn := fun name => per name d). change (fun name => List.length match find_link name d with Some l => l | None => [] end) with (fun name => List.length (pn name)).
  assert (Q : forall name, In name names -> pn name = if existsb (String.eqb name) (map fst heliostats) then [m_of name] else []).
  { intros name I. apply map_ok_inj. specialize (PER name). unfold pn. rewrite PER. cbn [per find_link map app]. apply one_path; auto. }
  clearbody pn. clear PER E d. unfold traced_rows, group_order. induction names as [|n names IH]; auto.
  cbn [map combine flat_map filter]. rewrite (Q n) by (left; auto).
  assert (IH' := fun H => IH H). clear IH. specialize (IH' ltac:(intros; apply Q; right; auto)).
  destruct (existsb (String.eqb n) (map fst heliostats)); cbn [List.length repeat app combine map]; [f_equal|]; exact IH'.
Qed.
Lemma group_order_in : forall names keys n, In n (group_order names keys) <-> In n names /\ In n keys.
Proof.
  intros. unfold group_order. rewrite filter_In, existsb_exists. split; intros (A & B); split; auto.
  - destruct B as (x & B & C). apply String.eqb_eq in C. subst. auto.
  - exists n. split; auto. apply String.eqb_refl.
Qed.
Lemma group_order_length : forall names keys, NoDup names -> NoDup keys -> (forall n, In n keys -> In n names) -> List.length (group_order names keys) = List.length keys.
Proof.
  intros names keys N1 N2 I. apply Nat.le_antisymm; apply NoDup_incl_length; auto.
  - unfold group_order. apply NoDup_filter. auto.
  - intros n J. apply group_order_in in J. tauto.
  - intros n J. apply group_order_in. auto.
Qed.
(** Every key gets the image at its place in the order of the group. *)
Theorem stored_in_group_order : forall key names surfaces uncanted heliostats results, key <> "surface" ->
  NoDup names -> NoDup (map fst heliostats) -> List.length surfaces = List.length names ->
  (forall n p, In (n, p) heliostats -> In n names /\ read p = Ok (m_of n)) ->
  exists results', generate_flux_images read trace load_utis key names surfaces uncanted heliostats results = Ok results'
  /\ forall j name, nth_error (map fst heliostats) j = Some name -> exists other entry,
     nth_error (group_order names (map fst heliostats)) j = Some other /\ find_link name results' = Some entry /\ find_link key entry = Some (Image (trace other (m_of other)))
     /\ (key = "deflectometry" -> match find_link name results with Some e => find_link "surface" e = None | None => True end ->
         exists s, nth_error surfaces j = Some s /\ find_link "surface" entry = Some (Surface (uncanted name s))).
Proof.
  intros key names surfaces uncanted heliostats results NK NN NH LS R.
  destruct (rows_in_group_order heliostats names NH) as (ms & mask & E & T); [intros; apply R; auto|].
  assert (IK : forall n, In n (map fst heliostats) -> In n names). { intros n I. apply in_map_iff in I. destruct I as ((n', p) & <- & I). apply (R n' p I). }
  pose proof (group_order_length names (map fst heliostats) NN NH IK) as GL.
  unfold generate_flux_images. rewrite E. cbn [bind]. rewrite T.
  destruct (store_total key (map (fun n => trace n (m_of n)) (group_order names (map fst heliostats))) surfaces uncanted (map fst heliostats) 0 results) as (results' & S1).
  - rewrite (map_length (fun n => trace n (m_of n))), GL. auto.
  - rewrite LS. cbn. apply NoDup_incl_length; auto.
  - exists results'. split; auto. intros j name J. destruct (store_places _ _ _ _ _ _ _ _ j name NK NH S1 J) as (entry & b & F1 & F2 & F3 & F4). cbn [Nat.add] in *.
    rewrite nth_error_map in F2. destruct (nth_error (group_order names (map fst heliostats)) j) as [other|] eqn:O; [|discriminate]. injection F2 as <-. exists other, entry. auto.
Qed.
Lemma same_or_differ : forall (l r : list string), List.length l = List.length r -> l = r \/ exists j a b, nth_error l j = Some a /\ nth_error r j = Some b /\ a <> b.
Proof.
  induction l as [|x l IH]; intros [|y r] L; try discriminate; auto. destruct (string_dec x y) as [->|D]; [|right; exists 0, x, y; auto].
  destruct (IH r) as [->|(j & a & b & A & B & C)]; [cbn in L; lia|auto|right; exists (S j), a, b; auto].
Qed.
Theorem own_images_in_group_order : forall key names surfaces uncanted heliostats results, key <> "surface" ->
  NoDup names -> NoDup (map fst heliostats) -> List.length surfaces = List.length names ->
  (forall n p, In (n, p) heliostats -> In n names /\ read p = Ok (m_of n)) -> map fst heliostats = group_order names (map fst heliostats) ->
  exists results', generate_flux_images read trace load_utis key names surfaces uncanted heliostats results = Ok results'
  /\ forall name, In name (map fst heliostats) -> exists entry, find_link name results' = Some entry /\ find_link key entry = Some (Image (trace name (m_of name))).
Proof.
  intros key names surfaces uncanted heliostats results NK NN NH LS R G. destruct (stored_in_group_order key names surfaces uncanted heliostats results NK NN NH LS R) as (results' & E & P).
  exists results'. split; auto. intros name I. apply In_nth_error in I. destruct I as (j & J). destruct (P j name J) as (other & entry & O & F1 & F2 & _). rewrite <- G, J in O. injection O as <-. eauto.
Qed.
Theorem foreign_image_otherwise : forall key names surfaces uncanted heliostats results, key <> "surface" ->
  NoDup names -> NoDup (map fst heliostats) -> List.length surfaces = List.length names ->
  (forall n p, In (n, p) heliostats -> In n names /\ read p = Ok (m_of n)) -> map fst heliostats <> group_order names (map fst heliostats) ->
  exists results', generate_flux_images read trace load_utis key names surfaces uncanted heliostats results = Ok results'
  /\ exists name other entry, In name (map fst heliostats) /\ In other (map fst heliostats) /\ name <> other
     /\ find_link name results' = Some entry /\ find_link key entry = Some (Image (trace other (m_of other))).
Proof.
  intros key names surfaces uncanted heliostats results NK NN NH LS R G. destruct (stored_in_group_order key names surfaces uncanted heliostats results NK NN NH LS R) as (results' & E & P).
  exists results'. split; auto.
  assert (IK : forall n, In n (map fst heliostats) -> In n names). { intros n I. apply in_map_iff in I. destruct I as ((n', p) & <- & I). apply (R n' p I). }
  destruct (same_or_differ (map fst heliostats) (group_order names (map fst heliostats))) as [X|(j & a & b & A & B & C)]; [rewrite group_order_length; auto|contradiction|].
  destruct (P j a A) as (other & entry & O & F1 & F2 & _). rewrite B in O. injection O as <-. exists a, b, entry. split; [eapply nth_error_In; eauto|].
  split; [apply (group_order_in names (map fst heliostats)); eapply nth_error_In; eauto|]. auto.
Qed.
(** A heliostat that is not in the group. *)
Lemma store_short : forall key flux surfaces uncanted keys i results, List.length flux < i + List.length keys -> i <= List.length flux ->
  exists e, store_all load_utis key flux surfaces uncanted i keys results = Err e.
Proof.
  intros key flux surfaces uncanted keys. induction keys as [|k keys IH]; intros i results L1 L2; cbn [store_all List.length] in *; [lia|].
  unfold store_heliostat. destruct (nth_error flux i) eqn:B; [|eexists; reflexivity]. assert (i < List.length flux) by (apply nth_error_Some; congruence).
  destruct (_ && _); [destruct (nth_error surfaces i); [|eexists; reflexivity]|]; cbn [bind]; apply IH; lia.
Qed.
Theorem missing_heliostat : forall key names surfaces uncanted heliostats results name,
  NoDup names -> NoDup (map fst heliostats) -> (forall n p, In (n, p) heliostats -> read p = Ok (m_of n)) -> In name (map fst heliostats) -> ~ In name names ->
  exists e, generate_flux_images read trace load_utis key names surfaces uncanted heliostats results = Err e.
Proof.
  intros key names surfaces uncanted heliostats results name NN NH R I NI. destruct (rows_in_group_order heliostats names NH R) as (ms & mask & E & T).
  unfold generate_flux_images. rewrite E. cbn [bind]. rewrite T. apply store_short; [|lia]. rewrite (map_length (fun n => trace n (m_of n))). cbn [Nat.add].
  assert (L : List.length (group_order names (map fst heliostats)) <= List.length (remove string_dec name (map fst heliostats))).
  { apply NoDup_incl_length; [apply NoDup_filter; auto|]. intros n J. apply group_order_in in J. apply in_in_remove; [intros ->; tauto|tauto]. }
  pose proof (remove_length_lt string_dec (map fst heliostats) name I). lia.
Qed.
End Prediction.
