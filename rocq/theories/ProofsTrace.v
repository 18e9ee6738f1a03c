(** Proofs about whole traced samples. *)
From Coq Require Import List Arith ZArith Reals Bool Lra Lia.
From Verif Require Import RealSums ModelField ModelVectors ProofsVectors ModelTransforms SpecTransforms ProofsTransforms ModelLBVH ModelBlocking
  SpecBlocking ProofsBlocking ModelSplatting SpecSplatting ProofsSplatting ProofsTracing ModelAngles ModelIntersections SpecIntersections
  ProofsIntersections ProofsCylinder ModelBitmap ModelCoordinates SpecCoordinates ProofsBitmap ProofsCoordinates ProofsMorton ModelTrace SpecTrace.
Import ListNotations.
Local Open Scope R_scope.

(** ** Scattering *)
Lemma scatter_rotated : forall d u e, scatter_ray d u e = rotated east e (rotated up u d).
Proof. intros. rewrite <- distortion_direction. reflexivity. Qed.

Lemma scatter_unit : forall d u e, dot (scatter_ray d u e) (scatter_ray d u e) = dot d d.
Proof.
  intros. destruct (distortion_rigid e u) as (_ & _ & _ & _ & D & _). specialize (D d d). exact D.
Qed.

Lemma scatter_zero : forall d, scatter_ray d 0 0 = d.
Proof.
  intros. unfold scatter_ray, rotate_distortion, mapply, hdot. cbn [mk row_e row_n row_u row_w hv he hn hu hw].
  rewrite cos_0, sin_0. apply point_eq; cbn [vec pe pn pu]; ring.
Qed.

(** ** Rays of a sample *)
Lemma in_sample_rays : forall s o d, In (o, d) (sample_rays s) ->
  exists n row u e, In (o, n) (s_surface s) /\ In row (s_distortions s) /\ In (u, e) row
    /\ d = scatter_ray (reflect (s_incident s) n) u e.
Proof.
  intros s o d I. unfold sample_rays in I. apply in_flat_map in I. destruct I as (row & IR & I).
  apply in_map_iff in I. destruct I as (((o' & n) & (u & e)) & E & I). injection E as -> <-.
  exists n, row, u, e. split; [apply in_combine_l in I; exact I|]. split; auto. split; auto. apply in_combine_r in I. exact I.
Qed.

Lemma sample_rays_length : forall s, proper_sample s -> List.length (sample_rays s) = ray_count s.
Proof.
  intros s (_ & _ & _ & L). unfold sample_rays, ray_count. induction (s_distortions s) as [|row rows IH]; auto.
  cbn [flat_map List.length]. rewrite app_length, map_length, combine_length, IH by (intros; apply L; right; auto).
  rewrite (L row) by (left; auto). lia.
Qed.

Lemma sample_ray_unit : forall s o d, proper_sample s -> In (o, d) (sample_rays s) -> unit d.
Proof.
  intros s o d (UI & UN & _) I. destruct (in_sample_rays s o d I) as (n & row & u & e & IS & _ & _ & ->).
  unfold unit. rewrite scatter_unit. destruct (reflect_law (s_incident s) n (UN o n IS)) as (E & _). rewrite E. exact UI.
Qed.

Lemma intersect_bounds : forall width height t o d m, (2 <= width)%nat -> (2 <= height)%nat -> proper_target t -> unit d -> 0 <= m ->
  let r := intersect width height t o d m in 0 <= i_e r /\ 0 <= i_u r /\ 0 <= i_intensity r <= m.
Proof.
  intros width height t o d m W H T U M. destruct t as [p|c]; cbn [intersect proper_target] in *.
  - destruct T as (S & N). destruct (plane_bounds width height p W H S o d m U N M) as (A & B & C). cbv zeta. lra.
  - destruct (cylinder_hit width height c o d m T ltac:(lia) ltac:(lia) U M) as [E|(_ & _ & _ & _ & A & B & _ & C)].
    + cbv zeta. rewrite E. cbn. lra.
    + cbv zeta. lra.
Qed.

(** ** Power of one sample *)
Lemma sum_where_le : forall {A} (p : A -> bool) f (l : list A), (forall x, In x l -> 0 <= f x) -> 0 <= sum_where p f l <= Rsum (map f l).
Proof.
  intros A p f l. unfold sum_where. induction l as [|x l IH]; intros N; cbn [filter map]; [cbn; lra|].
  assert (IHH : 0 <= Rsum (map f (filter p l)) <= Rsum (map f l)) by (apply IH; intros; apply N; right; auto).
  assert (0 <= f x) by (apply N; left; auto). destruct (p x); cbn [map]; rewrite ?Rsum_cons; lra.
Qed.

Lemma Rsum_map_bound : forall {A} (f : A -> R) b l, (forall x, In x l -> f x <= b) -> Rsum (map f l) <= b * INR (List.length l).
Proof.
  intros A f b l H. eapply Rle_trans; [apply (Rsum_map_le f (fun _ => b)); auto|]. rewrite Rsum_map_const. lra.
Qed.

Lemma trace_sample_power : forall width height magnitude extinction reflectivity s blocked, (2 <= width)%nat -> (2 <= height)%nat ->
  proper_sample s -> 0 <= magnitude -> 0 <= extinction <= 1 -> 0 <= reflectivity ->
  List.length blocked = ray_count s -> (forall b, In b blocked -> 0 <= b <= 1) ->
  exists t, trace_sample width height magnitude extinction reflectivity s blocked = Ok t
    /\ is_image width height (t_bitmap t) /\ non_negative_image (t_bitmap t)
    /\ 0 <= image_total (t_bitmap t) <= reflectivity * (1 - extinction) * magnitude * INR (ray_count s).
Proof.
  intros width height magnitude extinction reflectivity s blocked W H PS M X F L B. unfold trace_sample.
  set (rays := combine (sample_intersections width height magnitude s) blocked).
  set (hits := map _ rays).
  assert (P : forall i b, In (i, b) rays -> 0 <= i_e i /\ 0 <= i_u i /\ 0 <= i_intensity i <= magnitude /\ 0 <= b <= 1).
  { intros i b I. unfold rays in I. assert (I1 := I). apply in_combine_l in I. apply in_combine_r in I1. specialize (B b I1).
    unfold sample_intersections in I. apply in_map_iff in I. destruct I as ((o & d) & <- & I).
    pose proof (sample_ray_unit s o d PS I) as U. destruct PS as (_ & _ & T & _).
    pose proof (intersect_bounds width height (s_target s) o d magnitude W H T U M). cbv zeta in *. tauto. }
  assert (IB : forall i b, In (i, b) rays -> 0 <= ray_intensity extinction reflectivity (i_intensity i) b <= reflectivity * (1 - extinction) * magnitude).
  { intros i b I. destruct (P i b I) as (_ & _ & (I0 & I1) & (B0 & B1)). unfold ray_intensity.
    assert (Q1 : 0 <= i_intensity i * (1 - b) <= magnitude) by nra.
    set (q := i_intensity i * (1 - b)) in *. clearbody q.
    assert (Q2 : 0 <= (1 - extinction) * reflectivity) by nra.
    replace (q * (1 - extinction) * reflectivity) with (q * ((1 - extinction) * reflectivity)) by ring.
    replace (reflectivity * (1 - extinction) * magnitude) with (magnitude * ((1 - extinction) * reflectivity)) by ring.
    set (w := (1 - extinction) * reflectivity) in *. clearbody w. nra. }
  destruct (power_conserved width height hits) as (image & E & IM & T & N); try lia.
  { intros r I. unfold hits in I. apply in_map_iff in I. destruct I as ((i & b) & <- & I). destruct (P i b I) as (A1 & A2 & _). cbn. auto. }
  assert (N0 : forall r, In r hits -> 0 <= hit_intensity r).
  { intros r I. unfold hits in I. apply in_map_iff in I. destruct I as ((i & b) & <- & I). apply (IB i b I). }
  rewrite E. cbn [bind]. eexists. split; [reflexivity|]. cbn [t_bitmap]. split; [exact IM|]. split; [exact (N N0)|].
  rewrite T. destruct (sum_where_le (inside_gridb width height) hit_intensity hits N0) as (S0 & S1). split; [exact S0|].
  eapply Rle_trans; [exact S1|].
  replace (ray_count s) with (List.length hits).
  - apply Rsum_map_bound. intros r I. unfold hits in I. apply in_map_iff in I. destruct I as ((i & b) & <- & I). apply (IB i b I).
  - unfold hits, rays. rewrite map_length, combine_length, L. unfold sample_intersections. rewrite map_length, sample_rays_length by auto. lia.
Qed.

(** ** Batches *)
Lemma skipn_add : forall {A} n m (l : list A), skipn n (skipn m l) = skipn (m + n) l.
Proof. intros A n m. induction m as [|m IH]; intros l; auto. destruct l as [|x l]; [rewrite !skipn_nil; auto|]. cbn [skipn Nat.add]. apply IH. Qed.
Lemma split_at_nth : forall {A} sizes (l : list A) k n, nth_error sizes k = Some n ->
  nth_error (split_at sizes l) k = Some (firstn n (skipn (list_sum (firstn k sizes)) l)).
Proof.
  intros A sizes. induction sizes as [|m sizes IH]; intros l k n E; [destruct k; discriminate|].
  destruct k as [|k]; cbn [nth_error split_at firstn list_sum fold_right] in *; [injection E as <-; reflexivity|].
  rewrite (IH _ _ _ E). do 2 f_equal. rewrite skipn_add. reflexivity.
Qed.
Lemma split_at_length : forall {A} sizes (l : list A), List.length (split_at sizes l) = List.length sizes.
Proof. intros A sizes. induction sizes; intros; cbn [split_at List.length]; auto. Qed.

Lemma all_some_ok : forall {A} (P : A -> Prop) (l : list (option A)), (forall o, In o l -> exists x, o = Some x /\ P x) ->
  exists xs, all_some l = Some xs /\ l = map Some xs /\ forall x, In x xs -> P x.
Proof.
  intros A P l. induction l as [|o l IH]; intros H; [exists []; cbn; tauto|].
  destruct (H o (or_introl eq_refl)) as (x & -> & PX). destruct IH as (xs & E & EL & PXS); [intros; apply H; right; auto|].
  exists (x :: xs). cbn [all_some map]. rewrite E. cbn. split; auto. split; [f_equal; exact EL|]. intros y [<-|I]; auto.
Qed.

Lemma map_res_nth : forall {A B} (f : A -> res B) l ys, map_res f l = Ok ys -> List.length ys = List.length l
  /\ forall k x, nth_error l k = Some x -> exists y, nth_error ys k = Some y /\ f x = Ok y.
Proof.
  intros A B f l. induction l as [|a l IH]; intros ys E; cbn [map_res] in E.
  - injection E as <-. split; auto. intros k x Q. destruct k; discriminate.
  - destruct (f a) as [y|] eqn:EA; [|discriminate]. cbn [bind] in E. destruct (map_res f l) as [ys'|] eqn:EL; [|discriminate].
    cbn [bind] in E. injection E as <-. destruct (IH ys' eq_refl) as (L & N). split; [cbn; lia|].
    intros k x Q. destruct k as [|k]; cbn [nth_error] in *; [injection Q as <-; eauto|eauto].
Qed.

Lemma nth_combine : forall {A B} (a : list A) (b : list B) k x y, nth_error a k = Some x -> nth_error b k = Some y ->
  nth_error (combine a b) k = Some (x, y).
Proof.
  intros A B a. induction a as [|a0 a IH]; intros b k x y E1 E2; destruct k, b; try discriminate; cbn [combine nth_error] in *; [congruence|auto].
Qed.

(** The blocked values of a batch: one fraction per ray. *)
Definition fractions (n : nat) (l : list (option R)) : Prop :=
  List.length l = n /\ forall o, In o l -> exists b, o = Some b /\ 0 <= b <= 1.

Lemma blocking_rays_length : forall width height magnitude s owner, List.length (blocking_rays width height magnitude s owner) = List.length (sample_rays s).
Proof. intros. unfold blocking_rays, sample_intersections. rewrite map_length, combine_length, map_length. lia. Qed.

Lemma batch_fractions : forall sort fuel corners rays values,
  (forall c, In c corners -> independent (span_u (primitive_of_corners c)) (span_v (primitive_of_corners c))) ->
  (forall found, filter_primitives sort fuel corners rays = Filtered found -> forall p, In p found -> (p < List.length corners)%nat) ->
  batch_blocked sort fuel corners rays = Blocked values -> fractions (List.length rays) values.
Proof.
  intros sort fuel corners rays values IC IF E. unfold batch_blocked in E.
  destruct (filter_primitives sort fuel corners rays) as [found| |] eqn:EF; try discriminate.
  assert (K : forall r, exists b, traced_mask r (map (fun p => primitive_of_corners (nth p corners [])) found) = Some b /\ 0 <= b <= 1).
  { intros r. destruct (soft_mask_fraction (/ 10 ^ 12) 1000 100 (5/100) (r_origin r) (r_direction r) (map (fun p => primitive_of_corners (nth p corners [])) found)) as (b & B & I & _); try lra.
    - intros p I. apply in_map_iff in I. destruct I as (q & <- & I). apply IC. apply nth_In. apply (IF found eq_refl q I).
    - exists b. split; [exact B|lra]. }
  destruct found as [|f0 found].
  - injection E as <-. split; [rewrite map_length; auto|]. intros o I. apply in_map_iff in I. destruct I as (r & <- & _). exists 0. split; auto. lra.
  - injection E as <-. split; [rewrite map_length; auto|]. intros o I. apply in_map_iff in I. destruct I as (r & <- & _). apply K.
Qed.

Lemma rows_power : forall width height magnitude extinction reflectivity samples blocked rows, (2 <= width)%nat -> (2 <= height)%nat ->
  0 <= magnitude -> 0 <= extinction <= 1 -> 0 <= reflectivity ->
  fractions (list_sum (map (fun s => List.length (sample_rays s)) samples)) blocked ->
  trace_rows width height magnitude extinction reflectivity samples blocked = Traced rows ->
  List.length rows = List.length samples
  /\ forall k s, nth_error samples k = Some s -> proper_sample s ->
     exists t, nth_error rows k = Some (Some t) /\ is_image width height (t_bitmap t) /\ non_negative_image (t_bitmap t)
       /\ 0 <= image_total (t_bitmap t) <= reflectivity * (1 - extinction) * magnitude * INR (ray_count s).
Proof.
  intros width height magnitude extinction reflectivity samples blocked rows W H M X F (BL & BF) E. unfold trace_rows in E.
  set (sizes := map (fun s => List.length (sample_rays s)) samples) in *.
  destruct (map_res _ _) as [rows'|] eqn:ER in E; [|discriminate]. injection E as ->.
  destruct (map_res_nth _ _ _ ER) as (L & N). split.
  - rewrite L, combine_length, split_at_length. unfold sizes. rewrite map_length. lia.
  - intros k s ES PS.
    assert (EZ : nth_error sizes k = Some (ray_count s)).
    { unfold sizes. erewrite map_nth_error by exact ES. f_equal. apply sample_rays_length. auto. }
    pose proof (split_at_nth sizes blocked k _ EZ) as EB. set (mine := firstn _ _) in EB.
    destruct (N k (s, mine)) as (row & NR & RE); [apply nth_combine; auto|].
    assert (INC : forall o, In o mine -> In o blocked).
    { intros o I. rewrite <- (firstn_skipn (list_sum (firstn k sizes)) blocked). apply in_or_app. right.
      unfold mine in I. rewrite <- (firstn_skipn (ray_count s) (skipn _ blocked)). apply in_or_app. left. exact I. }
    destruct (all_some_ok (fun b => 0 <= b <= 1) mine) as (xs & AE & EM & PX); [intros o I; apply BF; auto|].
    assert (LX : List.length xs = ray_count s).
    { rewrite <- (map_length Some), <- EM. unfold mine. rewrite firstn_length, skipn_length, BL.
      destruct (nth_error_split sizes k EZ) as (l1 & l2 & ESZ & LK).
      rewrite ESZ. rewrite firstn_app, LK, Nat.sub_diag, firstn_O, app_nil_r.
      rewrite firstn_all2 by lia. rewrite list_sum_app. cbn [list_sum fold_right]. fold (list_sum l2). lia. }
    rewrite AE in RE.
    destruct (trace_sample_power width height magnitude extinction reflectivity s xs W H PS M X F LX PX) as (t & ET & P).
    rewrite ET in RE. cbn [bind] in RE. injection RE as <-. exists t. auto.
Qed.
