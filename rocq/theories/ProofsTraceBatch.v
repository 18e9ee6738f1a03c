(** Flux of all target areas together, and the dependence on the batch. *)
From Coq Require Import List Arith ZArith Reals Bool Lra Lia Permutation.
From Verif Require Import RealSums ModelField ModelVectors ProofsVectors ModelTransforms ModelLBVH SpecLBVH ProofsMorton ProofsLBVHRefuted ModelBlocking
  SpecBlocking ProofsBlocking ProofsBlockingTracer ModelSplatting SpecSplatting ProofsSplatting ProofsTracing ModelIntersections SpecIntersections
  ProofsIntersections ModelTrace SpecTrace ProofsTrace ProofsTracePower ProofsTraversal.
Import ListNotations.
Local Open Scope R_scope.

Lemma Rsum_map_nth : forall {A} (f : A -> R) d l, Rsum (map f l) = Rsum_n (List.length l) (fun i => f (nth i l d)).
Proof.
  intros A f d l. induction l as [|x l IH] using rev_ind; [reflexivity|].
  rewrite map_app, Rsum_app, app_length. cbn [map List.length]. rewrite Nat.add_1_r, Rsum_n_S, IH. f_equal.
  - apply Rsum_n_ext. intros i L. rewrite app_nth1 by auto. auto.
  - rewrite app_nth2, Nat.sub_diag by lia. cbn. lra.
Qed.

Lemma concat_image_length : forall w h image, is_image w h image -> List.length (concat image) = (h * w)%nat.
Proof.
  intros w h image (L & R). subst h. induction image as [|r image IH]; auto. cbn [concat List.length]. rewrite app_length, IH by (intros; apply R; right; auto).
  rewrite (R r (or_introl eq_refl)). lia.
Qed.

Theorem all_targets_power : forall sort fuel width height magnitude extinction reflectivity blocking samples rows targets_in_scene indices,
  sorts sort -> (2 <= width)%nat -> (2 <= height)%nat -> 0 <= magnitude -> 0 <= extinction <= 1 -> 0 <= reflectivity ->
  (forall corners c, blocking = Some corners -> In c corners ->
     independent (span_u (primitive_of_corners c)) (span_v (primitive_of_corners c))) ->
  (forall s owner, In (s, owner) samples -> proper_sample s) ->
  List.length indices = List.length samples -> (forall i, In i indices -> (0 <= i < Z.of_nat targets_in_scene)%Z) ->
  trace_samples sort fuel width height magnitude extinction reflectivity blocking samples = Traced rows ->
  exists bitmaps out, rows = map Some bitmaps
    /\ bitmaps_per_target targets_in_scene (height * width) (map (fun t => concat (t_bitmap t)) bitmaps) indices = Ok out
    /\ 0 <= Rsum (map Rsum out) <= reflectivity * (1 - extinction) * magnitude * INR (list_sum (map (fun s => ray_count (fst s)) samples)).
Proof.
  intros sort fuel width height magnitude extinction reflectivity blocking samples rows targets_in_scene indices HS W H M X F IC PS LI RI E.
  destruct (batch_power _ _ _ _ _ _ _ _ _ _ HS W H M X F IC E) as (L & P).
  assert (G : exists bitmaps, rows = map Some bitmaps /\ (forall t, In t bitmaps -> is_image width height (t_bitmap t) /\ 0 <= image_total (t_bitmap t))
    /\ Rsum (map (fun t => image_total (t_bitmap t)) bitmaps) <= reflectivity * (1 - extinction) * magnitude * INR (list_sum (map (fun s => ray_count (fst s)) samples))).
  { clear E LI RI indices. revert rows L P. induction samples as [|(s & owner) samples IH]; intros rows L P.
    - destruct rows; [|discriminate]. exists []. split; auto. split; [intros t []|]. cbn. lra.
    - destruct rows as [|row rows]; [discriminate|].
      destruct (P 0%nat s owner eq_refl (PS s owner (or_introl eq_refl))) as (t & ET & I & N & B). injection ET as ->.
      destruct (IH (fun s0 o0 I0 => PS s0 o0 (or_intror I0)) rows) as (bitmaps & -> & IB & SB).
      { cbn in L. lia. }
      { intros k s0 o0 E0 P0. exact (P (S k) s0 o0 E0 P0). }
      exists (t :: bitmaps). split; auto. split; [intros t0 [<-|I0]; [split; [auto|apply B]|auto]|].
      cbn [map list_sum fold_right fst]. fold (list_sum (map (fun s0 : sample * nat => ray_count (fst s0)) samples)). rewrite Rsum_cons, plus_INR. lra. }
  destruct G as (bitmaps & -> & IB & SB). exists bitmaps.
  assert (LB : forall b, In b (map (fun t => concat (t_bitmap t)) bitmaps) -> List.length b = (height * width)%nat).
  { intros b I. apply in_map_iff in I. destruct I as (t & <- & I). apply concat_image_length, IB; auto. }
  destruct (bitmaps_per_target_spec targets_in_scene (height * width) (map (fun t => concat (t_bitmap t)) bitmaps) indices) as (out & EO & (LO & LR) & _ & T & _); auto.
  { rewrite map_length in *. lia. }
  exists out. split; auto. split; auto.
  assert (Q : Rsum (map Rsum out) = Rsum (map (fun t => image_total (t_bitmap t)) bitmaps)).
  { rewrite (Rsum_map_nth Rsum [] out), LO.
    transitivity (Rsum_n targets_in_scene (fun t => Rsum_n (height * width) (fun p => nth p (nth t out []) 0))).
    { apply Rsum_n_ext. intros t LT. rewrite Rsum_nth, (LR (nth t out [])) by (apply nth_In; lia). auto. }
    rewrite Rsum_n_swap.
    transitivity (Rsum_n (height * width) (fun p => Rsum (map (fun b => nth p b 0) (map (fun t => concat (t_bitmap t)) bitmaps)))).
    { apply Rsum_n_ext. intros p _. apply (T RI). }
    unfold Rsum_n. rewrite Rsum_swap, map_map. apply Rsum_map_ext. intros t I. unfold image_total.
    rewrite <- Rsum_concat, (Rsum_nth (concat (t_bitmap t))), (LB (concat (t_bitmap t))); auto.
    apply in_map_iff. eauto. }
  rewrite Q. split; [|exact SB]. apply Rsum_map_nonneg. intros t I. apply IB; auto.
Qed.

(** ** With blocking the rows of a sample depend on the other samples of its batch *)
(** Three mirrors above each other. *)
Definition stacked : list (list point) := [square 0 0; square 0 (-5); square 0 (-3)].
Lemma stacked_centroids : map centroid stacked = [vec 0 0 0; vec 0 0 (-5); vec 0 0 (-3)].
Proof.
  assert (G : forall u, centroid (square 0 u) = vec 0 0 u).
  { intros u. unfold centroid, square. cbn [map fold_right List.length INR pe pn pu]. apply point_eq; cbn [vec pe pn pu]; field. }
  unfold stacked. cbn [map]. rewrite !G. auto.
Qed.
Lemma stacked_codes : exists codes, morton_codes (/ 10 ^ 6) (map centroid stacked) = Ok codes /\ at_most_twice codes.
Proof.
  rewrite stacked_centroids. set (ps := [vec 0 0 0; vec 0 0 (-5); vec 0 0 (-3)]).
  destruct (morton_codes_correct (/ 10 ^ 6) ps 5) as (codes & E & L & _ & _ & C); [lra|discriminate| |].
  { split.
    - intros f F p q I J. unfold ps in I, J. destruct F as [<-|[<-|[<-|[]]]]; destruct I as [<-|[<-|[<-|[]]]]; destruct J as [<-|[<-|[<-|[]]]]; cbn; lra.
    - exists pu, (vec 0 0 0), (vec 0 0 (-5)). unfold ps. cbn. repeat split; auto; lra. }
  exists codes. split; auto. destruct codes as [|a [|b [|c [|? ?]]]]; try discriminate L.
  assert (N : a <> b).
  { intros Q. apply (C 0%nat 1%nat (vec 0 0 0) (vec 0 0 (-5)) a b eq_refl eq_refl eq_refl eq_refl) in Q.
    destruct (Q pu) as (k & (m & LM & A1 & A2) & (m' & LM' & B1 & B2)); [cbn; auto|].
    assert (LEAST : forall x, least pu ps x -> x = -5).
    { intros x ((p & IP & EP) & LL). specialize (LL (vec 0 0 (-5)) (or_intror (or_introl eq_refl))). cbn [vec pu] in LL.
      unfold ps in IP. destruct IP as [<-|[<-|[<-|[]]]]; cbn [vec pu] in EP; lra. }
    apply LEAST in LM. apply LEAST in LM'.
    subst m m'. cbn [vec pu] in *. lra. }
  intros x. unfold prefix_count. change (30 - 30)%Z with 0%Z. rewrite !Z.shiftr_0_r || idtac. cbn [filter].
  rewrite !Z.shiftr_0_r. destruct (Z.eqb_spec a x), (Z.eqb_spec b x), (Z.eqb_spec c x); cbn [List.length]; lia.
Qed.
Lemma stacked_found : forall sort rays, sorts sort -> (forall r, In r rays -> sane_ray r) ->
  exists found, filter_primitives sort 9 stacked rays = Filtered found /\ NoDup found
    /\ forall p, In p found <-> (p < 3)%nat /\ exists r, In r rays /\ r_owner r <> p /\ meets r (corners_box (nth p stacked [])).
Proof.
  intros sort rays HS SR. destruct stacked_codes as (codes & E & A).
  apply (five_mirrors_exact sort stacked rays 9 codes HS); auto; discriminate.
Qed.

(** A horizontal target area facing down, and mirrors looking straight up under a vertical sun. *)
Definition ceiling (u : R) : plane := {| plane_center := vec 0 0 u; plane_normal := vec 0 0 (-1); plane_width := 2; plane_height := 2 |}.
Definition upward (u target : R) : sample :=
  {| s_incident := vec 0 0 (-1); s_surface := [(vec 0 0 u, vec 0 0 1)]; s_target := PlanarTarget (ceiling target); s_distortions := [[(0, 0)]] |}.
Lemma upward_rays : forall u target, sample_rays (upward u target) = [(vec 0 0 u, vec 0 0 1)].
Proof.
  intros. unfold sample_rays, upward. cbn [s_distortions s_surface s_incident flat_map combine map app]. rewrite scatter_zero.
  unfold reflect. do 2 f_equal. apply point_eq; vunfold; cbn [pe pn pu]; ring.
Qed.
Lemma upward_proper : forall u target, proper_sample (upward u target).
Proof.
  intros. unfold proper_sample, upward. cbn [s_incident s_surface s_target s_distortions]. split; [unfold unit; vunfold; ring|]. split.
  - intros p n [E|[]]. injection E as <- <-. unfold unit. vunfold. ring.
  - split; [|intros row [<-|[]]; auto]. cbn [proper_target]. unfold sized, ceiling. cbn [plane_width plane_height plane_normal]. unfold unit. vunfold. lra.
Qed.
Lemma upward_hits : forall u target, hits_area (ceiling target) (vec 0 0 u) (vec 0 0 1) (target - u)
  /\ within_half_open (ceiling target) (along (vec 0 0 u) (vec 0 0 1) (target - u)).
Proof.
  intros. unfold hits_area, on_plane, within_area, within_half_open, along, ceiling. cbn [plane_center plane_normal plane_width plane_height]. vunfold.
  repeat split; try match goal with |- Rabs ?x <= _ => replace x with 0 by ring; rewrite Rabs_R0 end; lra.
Qed.
Lemma upward_intersection : forall u target m, sample_intersections 3 3 m (upward u target)
  = [{| i_e := 1; i_u := 1; i_distance := target - u; i_intensity := m |}].
Proof.
  intros. unfold sample_intersections. rewrite upward_rays. cbn [map upward s_target intersect].
  destruct (upward_hits u target) as (HA & _). assert (S : sized (ceiling target)) by (unfold sized, ceiling; cbn; lra).
  rewrite (plane_hit 3 3 (ceiling target) ltac:(lia) ltac:(lia) S _ _ m _ HA).
  unfold along, ceiling. cbn [plane_center plane_normal plane_width plane_height INR]. vunfold. repeat f_equal; field.
Qed.
Lemma upward_blocking_rays : forall u target m owner, blocking_rays 3 3 m (upward u target) owner = [up_ray u (target - u) owner].
Proof. intros. unfold blocking_rays. rewrite upward_intersection, upward_rays. reflexivity. Qed.
Lemma upward_traced : forall u target b, exists t, trace_sample 3 3 1 0 1 (upward u target) [b] = Ok t
  /\ image_total (t_bitmap t) = 1 - b.
Proof.
  intros. unfold trace_sample. rewrite upward_intersection. cbn [combine map i_e i_u i_intensity].
  destruct (power_conserved 3 3 [{| hit_e := 1; hit_u := 1; hit_intensity := ray_intensity 0 1 1 b |}]) as (image & E & _ & T & _); try lia.
  { intros r [<-|[]]. cbn. lra. }
  rewrite E. cbn [bind]. eexists. split; [reflexivity|]. cbn [t_bitmap]. rewrite T. unfold sum_where. cbn [filter].
  assert (I : inside_gridb 3 3 {| hit_e := 1; hit_u := 1; hit_intensity := ray_intensity 0 1 1 b |} = true).
  { apply inside_gridb_iff. unfold inside_grid. cbn [hit_e hit_u INR]. lra. }
  rewrite I. cbn [map Rsum fold_right hit_intensity]. unfold ray_intensity. ring.
Qed.

Lemma stacked_dependent : proper_sample (upward (-5) 95) /\ proper_sample (upward (-3) (-2))
  /\ (forall c, In c stacked -> independent (span_u (primitive_of_corners c)) (span_v (primitive_of_corners c)))
  /\ forall sort, sorts sort -> exists ta tb tb',
     trace_samples sort 9 3 3 1 0 1 (Some stacked) [(upward (-5) 95, 1%nat); (upward (-3) (-2), 2%nat)] = Traced [Some ta; Some tb]
     /\ trace_samples sort 9 3 3 1 0 1 (Some stacked) [(upward (-3) (-2), 2%nat)] = Traced [Some tb']
     /\ image_total (t_bitmap tb') = 1 /\ image_total (t_bitmap tb) <= 1/4.
Proof.
  assert (IND : forall e u, independent (span_u (primitive_of_corners (square e u))) (span_v (primitive_of_corners (square e u)))).
  { intros. apply (regular_independent (/ 10 ^ 12) {| pe := 0; pn := 0; pu := 1 |}); [lra|apply up_regular]. }
  split; [apply upward_proper|]. split; [apply upward_proper|]. split.
  { intros c [<-|[<-|[<-|[]]]]; apply IND. }
  intros sort HS.
  assert (R1 : up_ray (-5) (95 - -5) 1 = example_ray) by (unfold up_ray, example_ray; f_equal; ring).
  assert (R2 : up_ray (-3) (-2 - -3) 2 = up_ray (-3) 1 2) by (unfold up_ray; f_equal; ring).
  (* alone: nothing found *)
  destruct (stacked_found sort [up_ray (-3) 1 2] HS) as (found1 & F1 & _ & M1).
  { intros r [<-|[]]. apply up_sane. }
  assert (E1 : found1 = []).
  { destruct found1 as [|p l]; auto. exfalso. assert (I : In p (p :: l)) by (left; auto). apply M1 in I.
    destruct I as (LP & r & [<-|[]] & O & (t1 & T1 & B1) & (t2 & T2 & B2)). cbn [up_ray r_target_distance r_owner] in T1, T2, O.
    assert (C1 := B1 pu (or_intror (or_intror (or_introl eq_refl)))). assert (C2 := B2 pu (or_intror (or_intror (or_introl eq_refl)))).
    destruct p as [|[|[|p]]]; [| |lia|lia]; revert C1 C2; unfold ray_at, up_ray, stacked, square;
      cbn [nth corners_box map Rmin_list Rmax_list fold_left box_min box_max pe pn pu r_origin r_direction]; eval_minmax; intros; lra. }
  (* together: the uppermost mirror is found *)
  destruct (stacked_found sort [example_ray; up_ray (-3) 1 2] HS) as (found2 & F2 & _ & M2).
  { intros r [<-|[<-|[]]]; [apply example_sane|apply up_sane]. }
  assert (I0 : In 0%nat found2).
  { apply M2. split; [lia|]. exists example_ray. split; [left; auto|]. split; [discriminate|]. apply example_meets. }
  set (ps := map (fun p => primitive_of_corners (nth p stacked [])) found2).
  assert (PI : forall q, In q ps -> exists e u, q = primitive_of_corners (square e u)).
  { intros q I. apply in_map_iff in I. destruct I as (p & <- & I). apply M2 in I. destruct I as (L & _).
    destruct p as [|[|[|p]]]; [| | |lia]; cbn [nth stacked]; eauto. }
  assert (K : forall r, exists x, traced_mask r ps = Some x /\ 0 <= x < 1).
  { intros r. destruct (soft_mask_fraction (/ 10 ^ 12) 1000 100 (5/100) (r_origin r) (r_direction r) ps) as (x & B & I & _); try lra.
    - intros q Q. destruct (PI q Q) as (e & u & ->). apply IND.
    - exists x. auto. }
  destruct (soft_mask_blocks (/ 10 ^ 12) 1000 100 (5/100) (r_origin (up_ray (-3) 1 2)) (r_direction (up_ray (-3) 1 2)) ps
              (primitive_of_corners (square 0 0)) 3 (1/2) (1/2) 0) as (xb & XB & KB); try lra.
  { intros q Q. destruct (PI q Q) as (e & u & ->). apply up_regular. }
  { apply in_map_iff. exists 0%nat. auto. }
  { apply up_crosses. lra. }
  { unfold clearly_blocks. lra. }
  rewrite Rmult_0_r, sigmoid_half in KB. replace (100 * (/ 2) ^ 5) with (100 * / 32) in KB by field. pose proof exp_minus_3 as E3.
  destruct (K example_ray) as (xa & XA & _).
  destruct (upward_traced (-5) 95 xa) as (ta & TA & _).
  destruct (upward_traced (-3) (-2) xb) as (tb & TB & IB).
  destruct (upward_traced (-3) (-2) 0) as (tb' & TB' & IB').
  exists ta, tb, tb'. split; [|split; [|split; [rewrite IB'; ring|rewrite IB; lra]]].
  - unfold trace_samples. cbn [flat_map app]. rewrite !upward_blocking_rays. cbn [app]. rewrite R1, R2.
    unfold batch_blocked. rewrite F2. destruct found2 as [|f0 found2]; [destruct I0|].
    change (map (fun p => primitive_of_corners (nth p stacked [])) (f0 :: found2)) with ps. clearbody ps.
    unfold trace_rows. cbn [map fst]. rewrite !upward_rays. cbn [List.length split_at firstn skipn].
    rewrite XA. unfold traced_mask at 1. rewrite XB. cbn [combine map_res all_some option_map].
    rewrite TA, TB. reflexivity.
  - unfold trace_samples. cbn [flat_map app]. rewrite !upward_blocking_rays. cbn [app]. rewrite R2.
    unfold batch_blocked. rewrite F1, E1. unfold trace_rows. cbn [map fst]. rewrite !upward_rays. cbn [List.length split_at firstn skipn].
    cbn [combine map_res all_some option_map]. rewrite TB'. reflexivity.
Qed.
Lemma stacked_pair : forall sort, sorts sort -> exists ta tb,
  trace_samples sort 9 3 3 1 0 1 (Some stacked) [(upward (-5) 95, 1%nat); (upward (-3) (-2), 2%nat)] = Traced [Some ta; Some tb] /\ image_total (t_bitmap tb) <= 1/4.
Proof. intros sort HS. destruct stacked_dependent as (_ & _ & _ & D). destruct (D sort HS) as (ta & tb & tb' & E & _ & _ & B). eauto. Qed.
Theorem batch_dependent : exists corners a b, proper_sample a /\ proper_sample b
  /\ (forall c, In c corners -> independent (span_u (primitive_of_corners c)) (span_v (primitive_of_corners c)))
  /\ forall sort, sorts sort -> exists ta tb tb',
     trace_samples sort 9 3 3 1 0 1 (Some corners) [(a, 1%nat); (b, 2%nat)] = Traced [Some ta; Some tb]
     /\ trace_samples sort 9 3 3 1 0 1 (Some corners) [(b, 2%nat)] = Traced [Some tb']
     /\ image_total (t_bitmap tb') = 1 /\ image_total (t_bitmap tb) <= 1/4.
Proof. exists stacked, (upward (-5) 95), (upward (-3) (-2)). exact stacked_dependent. Qed.
