(** Proofs about proportional flux. *)
From Coq Require Import List Arith ZArith Reals Bool Lia Lra.
From Verif Require Import RealSums ModelField ModelVectors ModelLBVH ModelBlocking ModelSplatting ModelIntersections ModelTrace SpecProportional.
Import ListNotations.
Local Open Scope R_scope.

Definition rmap {A B} (f : A -> B) (x : res A) : res B := match x with Ok a => Ok (f a) | Err e => Err e end.
Lemma add_at_scaled : forall k l i v, add_at (map (Rmult k) l) i (k * v) = map (Rmult k) (add_at l i v).
Proof. intros k. induction l as [|x l IH]; intros [|i] v; cbn; auto; f_equal; auto; ring. Qed.
Lemma add_at_length : forall l i v, List.length (add_at l i v) = List.length l.
Proof. induction l as [|x l IH]; intros [|i] v; cbn; auto. Qed.
Definition scaled_value (k : R) (x : Z * R) : Z * R := (fst x, k * snd x).
Lemma scatter_scaled : forall k values l, scatter_add (map (Rmult k) l) (map (scaled_value k) values) = rmap (map (Rmult k)) (scatter_add l values).
Proof.
  intros k. induction values as [|[i v] values IH]; intros l; cbn [map scatter_add scaled_value fst snd]; auto. rewrite map_length.
  destruct (_ && _)%bool; auto. rewrite add_at_scaled. apply IH.
Qed.
Definition brighter_hit (k : R) (r : ray_hit) : ray_hit := {| hit_e := hit_e r; hit_u := hit_u r; hit_intensity := k * hit_intensity r |}.
Lemma contribution_scaled : forall k w h p r, contribution w h p (brighter_hit k r) = scaled_value k (contribution w h p r).
Proof.
  intros k w h p r. unfold contribution, scaled_value. change (on_bitmap w h (brighter_hit k r)) with (on_bitmap w h r). cbn [brighter_hit hit_e hit_u hit_intensity].
  destruct p as [|[|[|[|p]]]]; destruct (on_bitmap w h r); cbn [fst snd]; f_equal; ring.
Qed.
Lemma splatting_scaled : forall k w h rays, bilinear_splatting w h (map (brighter_hit k) rays) = rmap (map (map (Rmult k))) (bilinear_splatting w h rays).
Proof.
  intros k w h rays. unfold bilinear_splatting, splat_flat.
  assert (C : forall p, map (contribution w h p) (map (brighter_hit k) rays) = map (scaled_value k) (map (contribution w h p) rays)).
  { intros p. rewrite !map_map. apply map_ext. intros r. apply contribution_scaled. }
  rewrite !C. replace (repeat 0 (h * w)) with (map (Rmult k) (repeat 0 (h * w))) at 1.
  2: { induction (h * w)%nat; cbn; auto. rewrite IHn. f_equal. ring. }
  rewrite scatter_scaled. destruct (scatter_add _ (map (contribution w h 1) rays)) as [b1|]; cbn [rmap bind]; auto.
  rewrite scatter_scaled. destruct (scatter_add _ (map (contribution w h 2) rays)) as [b2|]; cbn [rmap bind]; auto.
  rewrite scatter_scaled. destruct (scatter_add _ (map (contribution w h 3) rays)) as [b3|]; cbn [rmap bind]; auto.
  rewrite scatter_scaled. destruct (scatter_add _ (map (contribution w h 4) rays)) as [b4|]; cbn [rmap bind]; auto.
  f_equal. rewrite map_rev. f_equal. unfold view_rows. rewrite map_map. apply map_ext. intros r. rewrite map_map. apply map_ext. intros c.
  replace 0 with (k * 0) at 1 by ring. apply map_nth.
Qed.
Lemma positive_scaled : forall k x, 0 < k -> positive (k * x) = positive x.
Proof.
  intros k x K. unfold positive. destruct (Rlt_dec 0 (k * x)) as [A|A], (Rlt_dec 0 x) as [B|B]; auto; exfalso.
  - apply B. apply Rmult_lt_reg_l with k; lra.
  - apply A. apply Rmult_lt_0_compat; auto.
Qed.
Lemma fraction_same : forall {A B} (p : A -> bool) (q : B -> bool) (g : A -> B) l, (forall x, In x l -> q (g x) = p x) -> fraction q (map g l) = fraction p l.
Proof.
  intros A B p q g l H. unfold fraction. rewrite map_length. do 2 f_equal. induction l as [|x l IH]; auto. cbn [map filter].
  rewrite (H x) by (left; auto). destruct (p x); cbn [List.length]; rewrite IH; auto; intros; apply H; right; auto.
Qed.

Definition brighter_intersection (k : R) (i : intersection) : intersection :=
  {| i_e := i_e i; i_u := i_u i; i_distance := i_distance i; i_intensity := k * i_intensity i |}.
Lemma intersect_scaled : forall k w h t o d m, intersect w h t o d (k * m) = brighter_intersection k (intersect w h t o d m).
Proof.
  intros k w h [p|c] o d m; cbn [intersect].
  - unfold line_plane, brighter_intersection. cbn [i_e i_u i_distance i_intensity]. f_equal. ring.
  - unfold line_cylinder, brighter_intersection. destruct (cylinder_distance c o d); cbn [i_e i_u i_distance i_intensity no_intersection]; [f_equal; ring|]. unfold no_intersection. f_equal. ring.
Qed.
Lemma intersections_scaled : forall k w h m s, sample_intersections w h (k * m) s = map (brighter_intersection k) (sample_intersections w h m s).
Proof. intros. unfold sample_intersections. rewrite map_map. apply map_ext. intros [o d]. apply intersect_scaled. Qed.
Lemma blocking_rays_scaled : forall k w h m s j, blocking_rays w h (k * m) s j = blocking_rays w h m s j.
Proof.
  intros. unfold blocking_rays. rewrite intersections_scaled. generalize (sample_intersections w h m s) as l. induction (sample_rays s) as [|[o d] rs IH]; intros [|i l]; auto.
  cbn [map combine]. rewrite IH. auto.
Qed.

(** Raising the intensity of all rays of a sample, in either factor. *)
Lemma sample_scaled : forall k w h m m' ext refl refl' s b, 0 < k ->
  (m' = k * m /\ refl' = refl \/ m' = m /\ refl' = k * refl) ->
  trace_sample w h m' ext refl' s b = rmap (brighter k) (trace_sample w h m ext refl s b).
Proof.
  intros k w h m m' ext refl refl' s b K C. unfold trace_sample.
  set (ii := combine (sample_intersections w h m s) b). set (ii' := combine (sample_intersections w h m' s) b).
  assert (E : exists g : intersection * R -> intersection * R, ii' = map g ii
    /\ forall x, snd (g x) = snd x /\ i_e (fst (g x)) = i_e (fst x) /\ i_u (fst (g x)) = i_u (fst x)
                 /\ positive (i_intensity (fst (g x))) = positive (i_intensity (fst x)) 
                 /\ ray_intensity ext refl' (i_intensity (fst (g x))) (snd x) = k * ray_intensity ext refl (i_intensity (fst x)) (snd x)).
  { unfold ii, ii'. destruct C as [(-> & ->)|(-> & ->)].
    - exists (fun x => (brighter_intersection k (fst x), snd x)). split.
      + rewrite intersections_scaled. generalize (sample_intersections w h m s) as l. induction b as [|y b IH]; intros [|x l]; auto. cbn [map combine fst snd]. rewrite IH. auto.
      + intros x. cbn [fst snd brighter_intersection i_e i_u i_intensity]. split; auto. split; auto. split; auto. split; [apply positive_scaled; auto|unfold ray_intensity; ring].
    - exists (fun x => x). split; [rewrite map_id; auto|]. intros x. repeat split; auto. unfold ray_intensity. ring. }
  destruct E as (g & -> & G). clearbody ii. rewrite !map_map.
  match goal with |- bind (bilinear_splatting w h ?a) _ = rmap _ (bind (bilinear_splatting w h ?b) _) => replace a with (map (brighter_hit k) b) end.
  2: { rewrite map_map. apply map_ext. intros x. destruct (G x) as (G1 & G2 & G3 & _ & G5). destruct (g x) as [i' b']. destruct x as [i y]. cbn [fst snd] in *. subst b'.
       unfold brighter_hit. cbn [hit_e hit_u hit_intensity]. rewrite G2, G3, G5. auto. }
  rewrite splatting_scaled. destruct (bilinear_splatting _ _ _) as [bm|e]; cbn [rmap bind]; auto. unfold brighter. cbn [t_bitmap t_intercept t_on_target t_blocking].
  assert (X : forall (p q : R * R -> bool), (forall x, In x ii -> q (i_intensity (fst (g x)), snd (g x)) = p (i_intensity (fst x), snd x)) ->
    fraction q (map (fun x => let '(i, b) := g x in (i_intensity i, b)) ii) = fraction p (map (fun '(i, b) => (i_intensity i, b)) ii)).
  { intros p q H. rewrite (fraction_same (fun x => p (i_intensity (fst x), snd x))), (fraction_same (fun x => p (i_intensity (fst x), snd x))); auto.
    - intros [i y] _. auto.
    - intros x I. rewrite <- (H x I). destruct (g x); auto. }
  do 2 f_equal; apply X; intros x _; destruct (G x) as (G1 & _ & _ & G4 & G5); cbv beta iota; rewrite ?G1; auto.
  rewrite G5. apply positive_scaled. auto.
Qed.
Lemma rows_scaled : forall k w h m m' ext refl refl' samples b, 0 < k ->
  (m' = k * m /\ refl' = refl \/ m' = m /\ refl' = k * refl) ->
  trace_rows w h m' ext refl' samples b = brighter_batch k (trace_rows w h m ext refl samples b).
Proof.
  intros k w h m m' ext refl refl' samples b K C. unfold trace_rows. generalize (ModelTrace.split_at (map (fun s => List.length (sample_rays s)) samples) b) as l. intros l.
  set (f' := fun '(s, b) => match all_some b with Some values => bind (trace_sample w h m' ext refl' s values) _ | None => _ end).
  set (f := fun '(s, b) => match all_some b with Some values => bind (trace_sample w h m ext refl s values) _ | None => _ end).
  assert (E : forall l, map_res f' l = rmap (map (option_map (brighter k))) (map_res f l)).
  { clear l. induction l as [|[s y] l IH]; auto. cbn [map_res]. unfold f' at 1, f at 1. destruct (all_some y) as [values|].
    - rewrite (sample_scaled k w h m m' ext refl refl' s values K C). destruct (trace_sample w h m ext refl s values); cbn [rmap bind]; auto.
      rewrite IH. destruct (map_res f l); cbn [rmap bind]; auto.
    - cbn [bind]. rewrite IH. destruct (map_res f l); cbn [rmap bind]; auto. }
  rewrite E. destruct (map_res f _); auto.
Qed.
Theorem trace_scaled : forall k sort fuel w h m ext refl blocking samples, 0 < k ->
  trace_samples sort fuel w h (k * m) ext refl blocking samples = brighter_batch k (trace_samples sort fuel w h m ext refl blocking samples)
  /\ trace_samples sort fuel w h m ext (k * refl) blocking samples = brighter_batch k (trace_samples sort fuel w h m ext refl blocking samples).
Proof.
  intros k sort fuel w h m ext refl blocking samples K. unfold trace_samples. destruct blocking as [corners|].
  - rewrite (flat_map_ext (fun '(s, owner) => blocking_rays w h (k * m) s owner) (fun '(s, owner) => blocking_rays w h m s owner)) by (intros [s j]; apply blocking_rays_scaled).
    destruct (batch_blocked _ _ _ _); auto. split; apply rows_scaled; auto.
  - split; apply rows_scaled; auto.
Qed.
Theorem magnitude_scaled : forall k dni cantings points rays m, tracer_magnitude (Some dni) cantings points rays = Ok m ->
  tracer_magnitude (Some (k * dni)) cantings points rays = Ok (k * m).
Proof.
  intros k dni cantings points rays m. unfold tracer_magnitude. destruct (heliostat_area cantings) as [a|]; cbn [bind]; [|discriminate].
  intros H. injection H as <-. f_equal. unfold ray_magnitude. unfold Rdiv. ring.
Qed.
