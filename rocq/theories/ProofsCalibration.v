(** Proofs about calibration data (C60, C61, C82, C83). *)
From Coq Require Import List Arith Bool String Lia Reals.
From Verif Require Import ModelField ModelVectors ModelTransforms ModelHdf5 ProofsHdf5 ModelScenario ProofsScenario ModelCalibration SpecCalibration.
Import ListNotations.
Local Open Scope string_scope.

Lemma within_number : forall {A} limit (l : list A), limit <> Some 0 -> firstn (number_of_measurements limit (List.length l)) l = within limit l.
Proof.
  intros A [[|k]|] l N; [congruence| |]; unfold number_of_measurements, within.
  - destruct (Nat.le_ge_cases (List.length l) (S k)) as [L|L].
    + rewrite Nat.min_l by lia. rewrite firstn_all, firstn_all2; auto.
    + rewrite Nat.min_r by lia. auto.
  - rewrite Nat.min_id. apply firstn_all.
Qed.
Lemma within_map : forall {A B} (f : A -> B) limit l, within limit (map f l) = map f (within limit l).
Proof. intros A B f [k|] l; cbn; auto. apply firstn_map. Qed.
Lemma within_combine : forall {A B} limit (l : list A) (r : list B), List.length l = List.length r ->
  map fst (within limit (combine l r)) = within limit l /\ map snd (within limit (combine l r)) = within limit r.
Proof.
  intros A B limit l r L. rewrite <- !within_map. split; f_equal.
  - revert r L. induction l as [|x l IH]; intros [|y r] L; try discriminate; auto. cbn. f_equal. apply IH. cbn in L. lia.
  - revert l L. induction r as [|x r IH]; intros [|y l] L; try discriminate; auto. cbn. f_equal. apply IH. cbn in L. lia.
Qed.
Lemma within_in : forall {A} limit (l : list A) x, In x (within limit l) -> In x l.
Proof. intros A [k|] l x I; cbn in I; auto. rewrite <- (firstn_skipn k l). apply in_or_app. auto. Qed.
Lemma within_length : forall {A} k (l : list A), List.length (within (Some k) l) <= k.
Proof. intros. cbn. apply firstn_le_length. Qed.

Lemma get_or_empty_spec : forall {A} name (d : list (string * list A)), NoDup (map fst d) ->
  get_or_empty name d = flat_map (fun '(n, l) => if String.eqb n name then l else []) d.
Proof.
  intros A name d N. unfold get_or_empty. rewrite dict_of_nodup by auto. induction d as [|[n l] d IH]; auto. cbn [map fst] in N. inversion N as [|? ? N1 N2]; subst.
  cbn [find_link flat_map]. rewrite String.eqb_sym. destruct (String.eqb_spec n name) as [->|E]; [|auto].
  assert (Z : flat_map (fun '(n, l) => if String.eqb n name then l else []) d = []); [|rewrite Z, app_nil_r; auto].
  clear -N1. induction d as [|[n l] d IH]; auto. cbn in *. destruct (String.eqb_spec n name) as [->|E]; [tauto|]. cbn. apply IH. tauto.
Qed.
Definition per {A} (name : string) (d : list (string * list A)) : list A := match find_link name d with Some l => l | None => [] end.
Lemma per_append : forall {A} name n (xs : list A) d, per name (append_to n xs d) = (per name d ++ if String.eqb n name then xs else [])%list.
Proof.
  intros A name n xs d. unfold per. induction d as [|[k l] d IH]; cbn [append_to find_link].
  - rewrite (String.eqb_sym name n). destruct (String.eqb n name); auto.
  - destruct (String.eqb_spec n k) as [->|E]; cbn [find_link].
    + rewrite (String.eqb_sym name k). destruct (String.eqb k name); auto. rewrite app_nil_r. auto.
    + destruct (String.eqb_spec name k) as [->|E']; [|auto]. destruct (String.eqb_spec n k) as [Q|_]; [congruence|]. rewrite app_nil_r. auto.
Qed.
Section Proofs.
Variables P G B : Type.
Variable limit : option nat.
Variable decode : G -> B.
Variable read : P -> res measurement.
Definition chosen (paths : list P) : list P := firstn (number_of_measurements limit (List.length paths)) paths.
Lemma map_res_relation : forall l, (exists ms, map_res read l = Ok ms /\ map read l = map Ok ms) \/ (exists e p, map_res read l = Err e /\ In p l /\ read p = Err e).
Proof.
  induction l as [|p l IH]; [left; exists []; auto|]. cbn [map_res]. destruct (read p) as [m|e] eqn:E; [|right; exists e, p; cbn; rewrite E; auto]. cbn [bind].
  destruct IH as [(ms & -> & Q)|(e & q & -> & I & Q)]; [left; exists (m :: ms); cbn; rewrite E, Q; auto|right; exists e, q; cbn; auto].
Qed.
Lemma collect_ok : forall mapping d, (forall n ps p, In (n, ps) mapping -> In p (chosen ps) -> exists m, read p = Ok m) ->
  exists d', collect limit read mapping d = Ok d'
    /\ forall name, map Ok (per name d') = (map Ok (per name d) ++ map read (flat_map (fun '(n, ps) => if String.eqb n name then chosen ps else []) mapping))%list.
Proof.
  induction mapping as [|[n ps] mapping IH]; intros d R; cbn [collect flat_map map].
  - exists d. split; auto. intros. rewrite app_nil_r. auto.
  - fold (chosen ps). destruct (map_res_relation (chosen ps)) as [(ms & E & Q)|(e & p & _ & I & Q)].
    + rewrite E. cbn [bind]. destruct (IH (append_to n ms d)) as (d' & -> & S); [intros; eapply R; eauto; right; eauto|]. exists d'. split; auto.
      intros name. rewrite S, per_append, map_app, <- app_assoc. f_equal. rewrite map_app. f_equal. destruct (String.eqb n name); auto.
    + exfalso. destruct (R n ps p) as (m & M); [left; auto|auto|congruence].
Qed.
Lemma flat_map_filter_names : forall {X} (f : string * list P * list G -> list X) mapping names name, In name names ->
  (forall n ps gs, n <> name -> f (n, ps, gs) = []) ->
  flat_map f (filter (fun '(n, _, _) => existsb (String.eqb n) names) mapping) = flat_map f mapping.
Proof.
  intros X f mapping names name I F. induction mapping as [|[[n ps] gs] mapping IH]; auto. cbn [filter flat_map]. destruct (existsb (String.eqb n) names) eqn:E.
  - cbn [flat_map]. rewrite IH. auto.
  - rewrite IH. destruct (string_dec n name) as [->|D].
    + exfalso. assert (T : existsb (String.eqb name) names = true) by (apply existsb_exists; exists name; split; auto; apply String.eqb_refl). congruence.
    + rewrite F by auto. auto.
Qed.
Lemma flat_map_ext_in : forall {X Y} (f g : X -> list Y) l, (forall x, In x l -> f x = g x) -> flat_map f l = flat_map g l.
Proof. intros X Y f g l H. induction l as [|x l IH]; auto. cbn. rewrite H by (left; auto). rewrite IH by (intros; apply H; right; auto). auto. Qed.
Lemma flat_map_map : forall {X Y Z} (f : Y -> list Z) (g : X -> Y) l, flat_map f (map g l) = flat_map (fun x => f (g x)) l.
Proof. intros. induction l as [|x l IH]; auto. cbn. rewrite IH. auto. Qed.
Lemma map_flat_map : forall {X Y Z} (f : Y -> Z) (g : X -> list Y) l, map f (flat_map g l) = flat_map (fun x => map f (g x)) l.
Proof. intros. induction l as [|x l IH]; auto. cbn. rewrite map_app, IH. auto. Qed.
Lemma map_fst_nodup : forall mapping names, NoDup (map (fun '(n, _, _) => n) mapping) ->
  NoDup (map (fun '(n, _, _) => n) (filter (fun '(n, _, _) => existsb (String.eqb n) names) (mapping : list (string * list P * list G)))).
Proof.
  intros mapping names N. induction mapping as [|[[n ps] gs] mapping IH]; auto. cbn [map] in N. inversion N as [|? ? N1 N2]; subst. cbn [filter]. destruct existsb; auto. cbn [map].
  constructor; auto. intros I. apply N1. apply in_map_iff in I. destruct I as ([[n' ps'] gs'] & <- & I). apply filter_In in I. destruct I as (I & _). apply in_map_iff. exists (n', ps', gs'). auto.
Qed.
Lemma repeated_own : forall (f : string -> list (string * P * G)) names, (forall n s, In s (f n) -> owner s = n) ->
  repeated names (map (fun n => List.length (f n)) names) = map owner (flat_map f names).
Proof.
  intros f names O. induction names as [|n names IH]; auto. unfold repeated in *. cbn [map combine flat_map]. rewrite IH, map_app. f_equal.
  assert (E : forall l, (forall s, In s l -> owner s = n) -> repeat n (List.length l) = map (@owner P G) l); [|apply E; auto].
  induction l as [|s l IHl]; intros Q; auto. cbn. rewrite IHl by (intros; apply Q; right; auto). rewrite (Q s) by (left; auto). auto.
Qed.
Theorem paired : forall mapping names, limit <> Some 0 -> NoDup (map (fun '(n, _, _) => n) mapping) ->
  (forall n ps gs, In (n, ps, gs) mapping -> List.length ps = List.length gs) ->
  (forall s, In s (samples limit mapping names) -> exists m, read (property_file s) = Ok m) ->
  exists fluxes measurements mask, parse_data limit decode read mapping names = Ok (fluxes, measurements, mask)
    /\ fluxes = map (fun s => decode (image_file s)) (samples limit mapping names)
    /\ map Ok measurements = map (fun s => read (property_file s)) (samples limit mapping names)
    /\ List.length mask = List.length names
    /\ repeated names mask = map owner (samples limit mapping names).
Proof.
  intros mapping names L0 N LEN R. unfold parse_data. set (g := filter (fun '(name, _, _) => existsb (String.eqb name) names) mapping).
  assert (GI : forall x, In x g -> In x mapping) by (intros x I; apply filter_In in I; apply I).
  assert (GN : NoDup (map (fun '(n, _, _) => n) g)) by (apply map_fst_nodup; auto).
  set (one := fun name => flat_map (fun '(n, ps, gs) => if String.eqb n name then map (fun '(p, g) => (name, p, g)) (within limit (combine ps gs)) else []) mapping).
  assert (ONE : samples limit mapping names = flat_map one names) by auto.
  assert (RD : forall n ps p, In (n, ps) (map (fun '(name, properties, _) => (name, properties)) g) -> In p (chosen ps) -> exists m, read p = Ok m).
  { intros n ps p I J. apply in_map_iff in I. destruct I as ([[n' ps'] gs] & E & I). injection E as -> ->. assert (IN : In n names).
    { apply filter_In in I. destruct I as (_ & I). apply existsb_exists in I. destruct I as (x & I & E). apply String.eqb_eq in E. subst. auto. }
    apply GI in I. unfold chosen in J. rewrite within_number in J by auto. rewrite <- (proj1 (within_combine limit ps gs (LEN _ _ _ I))) in J. apply in_map_iff in J. destruct J as ((p' & q) & E & J). cbn in E. subst p'.
    apply (R (n, p, q)). unfold samples. apply in_flat_map. exists n. split; auto. apply in_flat_map. exists (n, ps, gs). split; auto. rewrite String.eqb_refl. apply in_map_iff. exists (p, q). auto. }
  unfold parse_calibration_data. destruct (collect_ok _ [] RD) as (d & -> & D). cbn [bind].
  assert (PER : forall name, In name names -> map Ok (per name d) = map (fun s => read (property_file s)) (one name)).
  { intros name I. rewrite D. cbn [per find_link map app]. rewrite flat_map_map.
    erewrite flat_map_ext_in with (g := fun x : string * list P * list G => let '(n, ps, gs) := x in if String.eqb n name then map (fun s => property_file s) (map (fun '(p, g) => (name, p, g)) (within limit (combine ps gs))) else []).
    - unfold g. rewrite (flat_map_filter_names _ mapping names name) by (auto; intros n ps gs NE; apply String.eqb_neq in NE; rewrite NE; auto).
      unfold one. rewrite <- (map_map property_file read). f_equal. rewrite map_flat_map. apply flat_map_ext. intros [[n ps] gs]. destruct (String.eqb n name); auto.
    - intros [[n ps] gs] J. destruct (String.eqb n name); auto. rewrite map_map. unfold chosen. rewrite within_number by auto.
      rewrite <- (proj1 (within_combine limit ps gs (LEN _ _ _ (GI _ J)))). apply map_ext. intros (p & q). auto. }
  eexists _, _, _. split; [reflexivity|]. fold (@per measurement). change (fun name : string => match find_link name d with Some l => l | None => [] end) with (fun name => per name d).
  change (fun name : string => List.length match find_link name d with Some l => l | None => [] end) with (fun name => List.length (per name d)). rewrite ONE. split; [|split; [|split]].
  - unfold load_flux. rewrite map_flat_map. apply flat_map_ext_in. intros name I. cbv zeta. rewrite within_number by auto. rewrite get_or_empty_spec.
    2:{ rewrite map_map. erewrite map_ext; [exact GN|]. intros [[n ps] gs]. auto. }
    rewrite flat_map_map. rewrite <- (map_map image_file decode). f_equal.
    assert (ALL : within limit (flat_map (fun x : string * list P * list G => let '(n, l) := let '(n, _, im) := x in (n, im) in if String.eqb n name then l else []) g)
      = flat_map (fun '(n, ps, gs) => if String.eqb n name then within limit gs else []) g).
    { clear -GN. induction g as [|[[n ps] gs] g IH]; [destruct limit as [[|k]|]; auto|]. cbn [map] in GN. inversion GN as [|? ? N1 N2]; subst. cbn [flat_map]. destruct (String.eqb_spec n name) as [->|E]; [|cbn; auto].
      assert (Z : forall (Y : Type) (f : string * list P * list G -> list Y), flat_map (fun x => if String.eqb (fst (fst x)) name then f x else []) g = []).
      { intros Y f. clear -N1. induction g as [|[[n ps'] gs'] g IH]; auto. cbn in *. destruct (String.eqb_spec n name) as [->|E]; [tauto|]. cbn. apply IH. tauto. }
      rewrite (flat_map_ext _ (fun x => if String.eqb (fst (fst x)) name then snd x else [])) by (intros [[? ?] ?]; auto).
      rewrite (flat_map_ext (fun '(n, _, gs0) => if String.eqb n name then within limit gs0 else []) (fun x => if String.eqb (fst (fst x)) name then within limit (snd x) else [])) by (intros [[? ?] ?]; auto).
      rewrite !Z, !app_nil_r. auto. }
    rewrite ALL. unfold g. rewrite (flat_map_filter_names _ mapping names name) by (auto; intros n ps gs NE; apply String.eqb_neq in NE; rewrite NE; auto).
    unfold one. rewrite map_flat_map. apply flat_map_ext_in. intros [[n ps] gs] J. destruct (String.eqb n name); auto. rewrite map_map.
    rewrite <- (proj2 (within_combine limit ps gs (LEN _ _ _ J))). apply map_ext. intros (p & q). auto.
  - rewrite !map_flat_map. apply flat_map_ext_in. intros name I. apply PER; auto.
  - apply map_length.
  - rewrite <- (repeated_own one names).
    + f_equal. apply map_ext_in. intros name I. pose proof (f_equal (@List.length _) (PER name I)) as E. rewrite !map_length in E. auto.
    + intros n s I. unfold one in I. apply in_flat_map in I. destruct I as ([[n' ps] gs] & _ & I). destruct (String.eqb n' n); [|contradiction]. apply in_map_iff in I. destruct I as ((p & q) & <- & _). auto.
Qed.
End Proofs.

(** ** Limits *)
Lemma repeated_count : forall names mask i, NoDup names -> List.length mask = List.length names -> i < List.length names ->
  nth i mask 0 = count_occ string_dec (repeated names mask) (nth i names "").
Proof.
  induction names as [|n names IH]; intros [|k mask] i N L I; cbn in *; try lia. inversion N as [|? ? N1 N2]; subst. unfold repeated in *. cbn [combine flat_map].
  assert (Z : forall l m, ~ In l names -> count_occ string_dec (flat_map (fun '(n, k) => repeat n k) (combine names m)) l = 0).
  { intros l m NI. apply count_occ_not_In. intros J. apply in_flat_map in J. destruct J as ((a & b) & J & R). apply repeat_spec in R. subst. apply in_combine_l in J. auto. }
  assert (C : forall a b j, count_occ string_dec (repeat a j) b = if string_dec a b then j else 0).
  { intros a b j. induction j as [|j IHj]; cbn; [destruct string_dec; auto|]. destruct (string_dec a b); rewrite IHj; auto. }
  rewrite count_occ_app. destruct i as [|i].
  - rewrite C, Z by auto. destruct string_dec; [lia|congruence].
  - rewrite C. destruct (string_dec n (nth i names "")) as [->|D]; [exfalso; apply N1; apply nth_In; lia|]. rewrite (IH mask i) by (auto; lia). auto.
Qed.
Section Limits.
Variables P G B : Type.
Lemma samples_of_one : forall limit (mapping : list (string * list P * list G)) names name, NoDup names -> In name names ->
  count_occ string_dec (map owner (samples limit mapping names)) name = List.length (samples limit mapping [name]).
Proof.
  intros limit mapping names name N I.
  assert (O : forall n, map owner (samples limit mapping [n]) = repeat n (List.length (samples limit mapping [n]))).
  { intros n. assert (E : forall l : list (string * P * G), (forall s, In s l -> owner s = n) -> map owner l = repeat n (List.length l)).
    { induction l as [|s l IHl]; intros Q; auto. cbn. rewrite IHl by (intros; apply Q; right; auto). rewrite (Q s) by (left; auto). auto. }
    apply E. intros s J. unfold samples in J. cbn [flat_map] in J. rewrite app_nil_r in J. apply in_flat_map in J. destruct J as ([[n' ps] gs] & _ & J). destruct (String.eqb n' n); [|contradiction].
    apply in_map_iff in J. destruct J as ((p & q) & <- & _). auto. }
  assert (C : forall a b j, count_occ string_dec (repeat a j) b = if string_dec a b then j else 0).
  { intros a b j. induction j as [|j IHj]; cbn; [destruct string_dec; auto|]. destruct (string_dec a b); rewrite IHj; auto. }
  assert (S1 : forall n l, samples limit mapping (n :: l) = (samples limit mapping [n] ++ samples limit mapping l)%list) by (intros; unfold samples; cbn [flat_map]; rewrite app_nil_r; auto).
  induction names as [|n names IH]; [contradiction|]. inversion N as [|? ? N1 N2]; subst. rewrite S1, map_app, count_occ_app, O, C. destruct (string_dec n name) as [->|D].
  - assert (Z : forall l, ~ In name l -> count_occ string_dec (map owner (samples limit mapping l)) name = 0); [|rewrite Z by auto; lia].
    induction l as [|m l IHl]; intros NI; auto. rewrite S1, map_app, count_occ_app, O, C, IHl by (cbn in NI; tauto). destruct (string_dec m name) as [->|D']; auto. exfalso. apply NI. left; auto.
  - destruct I as [->|I]; [congruence|]. rewrite IH; auto.
Qed.
Lemma one_sample_list : forall limit (mapping : list (string * list P * list G)) name, NoDup (map (fun '(n, _, _) => n) mapping) ->
  samples limit mapping [name] = [] \/ exists ps gs, In (name, ps, gs) mapping /\ samples limit mapping [name] = map (fun '(p, g) => (name, p, g)) (within limit (combine ps gs)).
Proof.
  intros limit mapping name N. unfold samples. cbn [flat_map]. rewrite app_nil_r. induction mapping as [|[[n ps] gs] mapping IH]; [left; auto|]. cbn [map] in N. inversion N as [|? ? N1 N2]; subst.
  cbn [flat_map]. destruct (String.eqb_spec n name) as [->|D].
  - right. exists ps, gs. split; [left; auto|].
    assert (Z : forall m : list (string * list P * list G), ~ In name (map (fun '(n, _, _) => n) m) ->
      flat_map (fun '(n, ps0, gs0) => if String.eqb n name then map (fun '(p, g) => (name, p, g)) (within limit (combine ps0 gs0)) else []) m = []).
    { induction m as [|[[n' ps'] gs'] m IHm]; intros NI; auto. cbn [flat_map]. destruct (String.eqb_spec n' name) as [->|D]; [exfalso; apply NI; left; auto|]. cbn. apply IHm. intros J. apply NI. right; auto. }
    rewrite Z by auto. apply app_nil_r.
  - cbn [app]. destruct (IH N2) as [E|(ps' & gs' & I & E)]; [left; auto|right; exists ps', gs'; split; [right; auto|auto]].
Qed.
Theorem limited : forall (decode : G -> B) (read : P -> res measurement) k mapping names fluxes measurements mask, 0 < k ->
  NoDup (map (fun '(n, _, _) => n) mapping) -> NoDup names -> (forall n ps gs, In (n, ps, gs) mapping -> List.length ps = List.length gs) ->
  (forall s, In s (samples (Some k) mapping names) -> exists m, read (property_file s) = Ok m) ->
  parse_data (Some k) decode read mapping names = Ok (fluxes, measurements, mask) ->
  List.length mask = List.length names /\ (forall n, In n mask -> n <= k)
  /\ List.length fluxes = list_sum mask /\ List.length measurements = list_sum mask.
Proof.
  intros decode read k mapping names fluxes measurements mask K N NN LEN R E.
  destruct (paired P G B (Some k) decode read mapping names) as (f & m & a & E' & F & M & LA & O); auto; [intros Q; injection Q as ->; lia|].
  rewrite E in E'. injection E' as <- <- <-.
  assert (SUM : List.length (samples (Some k) mapping names) = list_sum mask).
  { rewrite <- (map_length owner), <- O. clear -LA. revert mask LA. induction names as [|n names IH]; intros [|x mask] L; try discriminate; auto. unfold repeated in *. cbn in *. rewrite app_length, repeat_length, IH; auto. }
  split; auto. split; [|split].
  - intros n I. destruct (In_nth mask n 0 I) as (i & Li & <-). rewrite (repeated_count names mask i) by (auto; lia). rewrite O. rewrite samples_of_one by (auto; apply nth_In; lia).
    destruct (one_sample_list (Some k) mapping (nth i names "") N) as [->|(ps & gs & _ & ->)]; [cbn; lia|]. rewrite map_length. apply within_length.
  - rewrite F, map_length. auto.
  - apply (f_equal (@List.length _)) in M. rewrite !map_length in M. lia.
Qed.
End Limits.

(** ** Building the mapping *)
Section Build.
Variables P G : Type.
Variable image_of : P -> option G.
Definition with_image (f : P) : list (P * G) := match image_of f with Some g => [(f, g)] | None => [] end.
Lemma select_spec : forall wanted files props images, wanted <> 0 -> List.length props = List.length images -> List.length props < wanted ->
  select_files image_of wanted files props images
  = ((props ++ map fst (firstn (wanted - List.length props) (flat_map with_image files)))%list, (images ++ map snd (firstn (wanted - List.length props) (flat_map with_image files)))%list).
Proof.
  intros wanted files. induction files as [|f files IH]; intros props images W L LT; cbn [select_files flat_map].
  - rewrite firstn_nil. cbn. rewrite !app_nil_r. auto.
  - unfold with_image at 1 3. destruct (image_of f) as [g|] eqn:E; cbn [app]; [|apply IH; auto].
    destruct (wanted - List.length props) as [|r] eqn:D; [lia|]. cbn [firstn map fst snd].
    rewrite app_length. cbn [List.length]. destruct (Nat.eqb_spec (List.length props + 1) wanted) as [Q|Q].
    + assert (r = 0) as -> by lia. auto.
    + rewrite IH by (rewrite ?app_length; cbn; lia). rewrite app_length. cbn [List.length]. replace (wanted - (List.length props + 1)) with r by lia. rewrite <- !app_assoc. auto.
Qed.
Lemma select_zero : forall files props images, List.length props = List.length images ->
  select_files image_of 0 files props images = ((props ++ map fst (flat_map with_image files))%list, (images ++ map snd (flat_map with_image files))%list).
Proof.
  induction files as [|f files IH]; intros props images L; cbn [select_files flat_map]; [cbn; rewrite !app_nil_r; auto|]. unfold with_image at 1 3.
  destruct (image_of f) as [g|]; cbn [app]; [|apply IH; auto]. rewrite app_length. cbn [List.length]. destruct (Nat.eqb_spec (List.length props + 1) 0); [lia|]. rewrite IH by (rewrite !app_length; cbn; lia).
  cbn [map fst snd]. rewrite <- !app_assoc. auto.
Qed.
End Build.
Arguments with_image {P G}.
Theorem build_ok : forall P G (listing : string -> option (list P)) (image_of : string -> P -> option G) wanted names, wanted <> 0 ->
  build_mapping listing image_of wanted names
  = flat_map (fun name => match listing name with
      | None => []
      | Some files => match firstn wanted (flat_map (fun f => match image_of name f with Some g => [(f, g)] | None => [] end) files) with
          | [] => []
          | chosen => [(name, map fst chosen, map snd chosen)]
          end
      end) names.
Proof.
  intros P G listing image_of wanted names W. unfold build_mapping. apply flat_map_ext. intros name. destruct (listing name) as [files|]; auto.
  rewrite select_spec by (cbn; lia). cbn [app List.length]. rewrite Nat.sub_0_r. unfold with_image. destruct (firstn wanted _) as [|(a & b) l]; auto.
Qed.
Theorem build_properties : forall P G (listing : string -> option (list P)) (image_of : string -> P -> option G) wanted names, wanted <> 0 -> NoDup names ->
  NoDup (map (fun '(n, _, _) => n) (build_mapping listing image_of wanted names))
  /\ forall n ps gs, In (n, ps, gs) (build_mapping listing image_of wanted names) ->
     In n names /\ List.length ps = List.length gs /\ 0 < List.length ps <= wanted
     /\ (exists files, listing n = Some files /\ forall p, In p ps -> In p files)
     /\ forall j p g, nth_error ps j = Some p -> nth_error gs j = Some g -> image_of n p = Some g.
Proof.
  intros P G listing image_of wanted names W N. rewrite build_ok by auto. split.
  - induction names as [|n names IH]; [constructor|]. inversion N as [|? ? N1 N2]; subst. cbn [flat_map]. rewrite map_app. apply nodup_app; auto.
    + destruct (listing n); [|constructor]. destruct (firstn wanted _); constructor; [auto|constructor].
    + intros x I J. assert (x = n) as ->. { destruct (listing n); [|contradiction]. destruct (firstn wanted _); [contradiction|]. destruct I as [<-|[]]. auto. }
      apply N1. apply in_map_iff in J. destruct J as ([[n' ps] gs] & <- & J). apply in_flat_map in J. destruct J as (m & Im & J). destruct (listing m); [|contradiction].
      destruct (firstn wanted _); [contradiction|]. destruct J as [J|[]]. injection J as <- _ _. auto.
  - intros n ps gs I. apply in_flat_map in I. destruct I as (m & Im & I). destruct (listing m) as [files|] eqn:L; [|contradiction].
    set (all := flat_map (fun f => match image_of m f with Some g => [(f, g)] | None => [] end) files) in *.
    destruct (firstn wanted all) as [|c cs] eqn:F; [contradiction|]. destruct I as [I|[]].
    assert (Q : ps = map fst (firstn wanted all) /\ gs = map snd (firstn wanted all) /\ n = m) by (rewrite F; injection I as <- <- <-; auto). destruct Q as (-> & -> & ->).
    assert (A : forall p g, In (p, g) (firstn wanted all) -> In p files /\ image_of m p = Some g).
    { intros p g J. assert (J' : In (p, g) all) by (rewrite <- (firstn_skipn wanted all); apply in_or_app; auto). unfold all in J'. apply in_flat_map in J'. destruct J' as (f & If & J').
      destruct (image_of m f) eqn:E; [|contradiction]. destruct J' as [J'|[]]. injection J' as <- <-. auto. }
    split; auto. rewrite !map_length. split; auto. split; [rewrite firstn_length; rewrite F in *; pose proof (firstn_le_length wanted all); pose proof (f_equal (@List.length _) F); rewrite firstn_length in *; cbn in *; lia|].
    split; [exists files; split; auto; intros p J; apply in_map_iff in J; destruct J as ((p' & g) & <- & J); apply (A p' g); auto|].
    intros j p g E1 E2. rewrite nth_error_map in E1, E2. destruct (nth_error (firstn wanted all) j) as [(p' & g')|] eqn:E; [|discriminate]. cbn in E1, E2. injection E1 as <-. injection E2 as <-.
    apply (A p' g'). apply nth_error_In in E. auto.
Qed.

(** ** Heliostats from files *)
Lemma process_ok : forall P (extract : P -> list facet_config * kinematics_config * list actuator_config * (string * array)) paths, paths <> [] ->
  exists hs proto, process_heliostats extract paths = Ok (hs, proto) /\ List.length hs = List.length paths
  /\ forall i p, nth_error paths i = Some p -> nth_error hs i = Some
       (let '(facets, kinematics, actuators, (name, position)) := extract p in
        {| h_name := name; h_id := i; h_position := position; h_surface := Some facets; h_kinematics := Some kinematics; h_actuators := Some actuators |}).
Proof.
  intros P extract paths NE. unfold process_heliostats. destruct (rev paths) as [|l r] eqn:R; [exfalso; apply NE; rewrite <- (rev_involutive paths), R; auto|].
  destruct (extract l) as [[[facets kinematics] actuators] rest]. eexists _, _. split; [reflexivity|]. split; [rewrite map_length, combine_length, seq_length; lia|].
  intros i p E. rewrite nth_error_map. assert (C : nth_error (combine (seq 0 (List.length paths)) paths) i = Some (i, p)).
  { clear -E. change (Some (i, p)) with (Some (0 + i, p)). generalize 0. revert i E. induction paths as [|x paths IH]; intros [|i] E s; try discriminate; cbn in *; [injection E as <-; rewrite Nat.add_0_r; auto|].
    rewrite IH by auto. do 2 f_equal. lia. }
  rewrite C. cbn. destruct (extract p) as [[[f k] a] [n pos]]. auto.
Qed.
Definition parts_of (h : heliostat_config) := (h_name h, h_position h, h_surface h, h_kinematics h, h_actuators h).
Lemma process_parts : forall P (extract : P -> list facet_config * kinematics_config * list actuator_config * (string * array)) paths hs proto,
  process_heliostats extract paths = Ok (hs, proto) ->
  map parts_of hs = map (fun p => let '(facets, kinematics, actuators, (name, position)) := extract p in (name, position, Some facets, Some kinematics, Some actuators)) paths
  /\ exists p others, paths = (others ++ [p])%list /\ let '(facets, kinematics, actuators, _) := extract p in proto = {| pr_surface := facets; pr_kinematics := kinematics; pr_actuators := actuators |}.
Proof.
  intros P extract paths hs proto E. unfold process_heliostats in E. destruct (rev paths) as [|l r] eqn:R; [discriminate|].
  destruct (extract l) as [[[facets kinematics] actuators] rest] eqn:X. injection E as <- <-. split.
  - generalize 0. clear. induction paths as [|x paths IH]; intros s; auto. cbn [List.length seq combine map]. rewrite IH. f_equal. destruct (extract x) as [[[f k] a] [n pos]]. auto.
  - exists l, (rev r). split; [rewrite <- (rev_involutive paths), R; auto|]. rewrite X. auto.
Qed.
Theorem mixed_ok : forall P (fitted : P -> bool) (ideal_surface fitted_surface : P -> list facet_config * kinematics_config * list actuator_config * (string * array)) paths,
  (exists p, In p paths /\ fitted p = true) -> (exists p, In p paths /\ fitted p = false) ->
  exists hs proto, mixed_heliostats fitted ideal_surface fitted_surface paths = Ok (hs, proto)
  /\ map parts_of hs = map (fun p => let '(facets, kinematics, actuators, (name, position)) := (if fitted p then fitted_surface p else ideal_surface p) in (name, position, Some facets, Some kinematics, Some actuators))
       (filter (fun p => negb (fitted p)) paths ++ filter fitted paths).
Proof.
  intros P fitted ideal_surface fitted_surface paths (p & Ip & Fp) (q & Iq & Fq). unfold mixed_heliostats.
  destruct (process_ok P ideal_surface (filter (fun p => negb (fitted p)) paths)) as (h1 & p1 & E1 & _ & _).
  { intros E. assert (I : In q (filter (fun p => negb (fitted p)) paths)) by (apply filter_In; rewrite Fq; auto). rewrite E in I. contradiction. }
  destruct (process_ok P fitted_surface (filter fitted paths)) as (h2 & p2 & E2 & _ & _).
  { intros E. assert (I : In p (filter fitted paths)) by (apply filter_In; auto). rewrite E in I. contradiction. }
  rewrite E1. cbn [bind]. rewrite E2. cbn [bind]. exists (h1 ++ h2)%list, p1. split; auto. rewrite !map_app.
  rewrite (proj1 (process_parts _ _ _ _ _ E1)), (proj1 (process_parts _ _ _ _ _ E2)). f_equal; apply map_ext_in; intros x I; apply filter_In in I; destruct I as (_ & I).
  - destruct (fitted x); [discriminate|auto].
  - rewrite I. auto.
Qed.

Theorem mixed_fails : forall P (fitted : P -> bool) ideal_surface fitted_surface paths,
  (forall p, In p paths -> fitted p = true) \/ (forall p, In p paths -> fitted p = false) ->
  mixed_heliostats fitted ideal_surface fitted_surface paths = Err UnboundLocalError.
Proof.
  intros P fitted ideal_surface fitted_surface paths H. unfold mixed_heliostats.
  assert (F : forall f : P -> bool, (forall p, In p paths -> f p = false) -> filter f paths = []).
  { intros f Q. induction paths as [|x paths IH]; auto. cbn. rewrite Q by (left; auto). apply IH; [|intros; apply Q; right; auto]. destruct H as [H|H]; [left|right]; intros; apply H; right; auto. }
  destruct H as [H|H].
  - rewrite F; [reflexivity|]. intros p I. rewrite H; auto.
  - rewrite (F fitted) by auto. destruct (process_heliostats ideal_surface _) as [(a & b)|e] eqn:E; [reflexivity|]. cbn [bind].
    unfold process_heliostats in E. destruct (rev _) as [|l r]; [congruence|]. destruct (ideal_surface l) as [[[f k] a] rest]. discriminate.
Qed.
Theorem incident_opposite : forall plant t p, let m := convert plant t p in
  hadd4 (m_incident m) (sun_position p) = hv 0 0 0 0 /\ m_motors m = c_motors p /\ m_target m = t.
Proof. intros plant t p. cbn [convert m_incident m_motors m_target]. split; auto. unfold hadd4, sun_position, convert. cbn. unfold hv. f_equal; ring. Qed.
Lemma zero_is_none : forall (P G B : Type) (decode : G -> B) (read : P -> res measurement) mapping names,
  parse_data (Some 0) decode read mapping names = parse_data None decode read mapping names.
Proof.
  assert (C : forall (P : Type) (read : P -> res measurement) mapping d, collect (Some 0) read mapping d = collect None read mapping d).
  { intros P read mapping. induction mapping as [|(n & ps) mapping IH]; intros d; cbn [collect]; auto. destruct (map_res read _); cbn [bind]; auto. }
  intros. unfold parse_data, parse_calibration_data. rewrite C. reflexivity.
Qed.
Theorem paired_any_limit : forall (P G B : Type) limit (decode : G -> B) (read : P -> res measurement) mapping names,
  NoDup (map (fun '(n, _, _) => n) mapping) ->
  (forall n ps gs, In (n, ps, gs) mapping -> List.length ps = List.length gs) ->
  (forall n ps gs p, In (n, ps, gs) mapping -> In p ps -> exists m, read p = Ok m) ->
  exists limit' fluxes measurements mask, (limit <> Some 0 -> limit' = limit)
    /\ parse_data limit decode read mapping names = Ok (fluxes, measurements, mask)
    /\ fluxes = map (fun s => decode (image_file s)) (samples limit' mapping names)
    /\ map Ok measurements = map (fun s => read (property_file s)) (samples limit' mapping names)
    /\ List.length mask = List.length names
    /\ repeated names mask = map owner (samples limit' mapping names).
Proof.
  intros P G B limit decode read mapping names ND EQ RD.
  assert (RD' : forall l s, In s (samples l mapping names) -> exists m, read (property_file s) = Ok m).
  { intros l s I. unfold samples in I. apply in_flat_map in I. destruct I as (name & _ & I). apply in_flat_map in I. destruct I as (((n & ps) & gs) & I1 & I2).
    destruct (String.eqb n name); [|contradiction]. apply in_map_iff in I2. destruct I2 as ((p & g) & <- & I2). unfold property_file. cbn [fst snd].
    apply (RD n ps gs p I1). assert (J : In (p, g) (combine ps gs)).
    { unfold within in I2. destruct l as [k|]; auto. rewrite <- (firstn_skipn k (combine ps gs)). apply in_or_app. auto. }
    apply in_combine_l in J. auto. }
  assert (D : limit = Some 0 \/ limit <> Some 0) by (destruct limit as [[|k]|]; auto; right; discriminate).
  destruct D as [->|N].
  - destruct (paired P G B None decode read mapping names) as (f & m & k & E & H); try assumption; [discriminate|apply RD'|].
    exists None, f, m, k. split; [congruence|]. split; [rewrite zero_is_none; exact E|exact H].
  - destruct (paired P G B limit decode read mapping names) as (f & m & k & H); try assumption; [apply RD'|]. exists limit, f, m, k. auto.
Qed.

(** ** The refuted cases in general *)
Theorem zero_is_everything : forall P G (listing : string -> option (list P)) (image_of : string -> P -> option G) names name files,
  In name names -> listing name = Some files -> (exists f, In f files /\ image_of name f <> None) ->
  exists ps gs, In (name, ps, gs) (build_mapping listing image_of 0 names)
  /\ forall f, In f ps <-> In f files /\ image_of name f <> None.
Proof.
  intros P G listing image_of names name files IN L (f & F & IF).
  assert (M : forall f, In f (map fst (flat_map (with_image (image_of name)) files)) <-> In f files /\ image_of name f <> None).
  { intros h. rewrite in_map_iff. split.
    - intros ((a & b) & E & H). cbn in E. subst a. apply in_flat_map in H as (h' & H1 & H2). unfold with_image in H2.
      destruct (image_of name h') as [g|] eqn:I; [|destruct H2]. destruct H2 as [E|[]]. injection E as <- <-. split; auto. congruence.
    - intros (H1 & H2). destruct (image_of name h) as [g|] eqn:I; [|congruence]. exists (h, g). split; auto.
      apply in_flat_map. exists h. split; auto. unfold with_image. rewrite I. left; auto. }
  exists (map fst (flat_map (with_image (image_of name)) files)), (map snd (flat_map (with_image (image_of name)) files)). split; [|exact M].
  unfold build_mapping. apply in_flat_map. exists name. split; auto. rewrite L, select_zero by auto. cbn [app].
  assert (N := proj2 (M f) (conj F IF)). destruct (flat_map (with_image (image_of name)) files) as [|(a & b) l]; [destruct N|]. left; auto.
Qed.

Lemma process_first : forall P extract (paths : list P) hs proto, process_heliostats extract paths = Ok (hs, proto) -> In 0 (map h_id hs).
Proof.
  intros P extract paths hs proto E. unfold process_heliostats in E. destruct (rev paths) as [|last l] eqn:V; [discriminate|].
  destruct (extract last) as (((fs & k) & a) & np). injection E as <- <-.
  destruct paths as [|p paths]; [discriminate|]. cbn [List.length seq combine map]. left. destruct (extract p) as (((? & ?) & ?) & (? & ?)). reflexivity.
Qed.
Theorem mixed_ids_repeat : forall P (fitted : P -> bool) ideal_surface fitted_surface paths hs proto,
  mixed_heliostats fitted ideal_surface fitted_surface paths = Ok (hs, proto) -> ~ NoDup (map h_id hs).
Proof.
  intros P fitted ideal_surface fitted_surface paths hs proto E N. unfold mixed_heliostats in E.
  destruct (process_heliostats ideal_surface _) as [(ideal & pr)|] eqn:E1; [|discriminate]. cbn [bind] in E.
  destruct (process_heliostats fitted_surface _) as [(others & pr')|] eqn:E2; [|discriminate]. cbn [bind] in E. injection E as <- <-.
  apply process_first in E1, E2. rewrite map_app in N. revert E1 E2 N. generalize (map h_id ideal), (map h_id others). clear.
  induction l as [|x l IH]; intros l' A B N; [destruct A|]. cbn [app] in N. inversion N as [|? ? N1 N2]; subst.
  destruct A as [A|A]; [subst x; apply N1, in_or_app; auto|eauto].
Qed.
