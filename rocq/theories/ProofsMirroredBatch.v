(** Proofs about mirrored and turned scenes: batches of samples and refutations. *)
From Coq Require Import List Arith ZArith Reals Bool Lia Lra.
From Verif Require Import RealSums ModelField ModelVectors ProofsVectors ModelTransforms ModelLBVH ModelBlocking ModelSplatting SpecSplatting ProofsSplatting ModelIntersections SpecIntersections
  ProofsIntersections ModelAngles ProofsAngles ProofsCylinder ModelTrace SpecTrace ProofsTrace ProofsTracing SpecMirrored ProofsMirrored.
Import ListNotations.
Local Open Scope R_scope.

Definition reversed (t : traced) : traced := {| t_bitmap := map (@rev R) (t_bitmap t); t_intercept := t_intercept t; t_on_target := t_on_target t; t_blocking := t_blocking t |}.
Lemma rows_mirrored : forall width height magnitude extinction reflectivity samples blocked, (2 <= width)%nat -> (2 <= height)%nat -> 0 <= magnitude ->
  (forall s, In s samples -> proper_sample s /\ northern (s_target s) /\ off_edges width height magnitude s) ->
  exists rows, trace_rows width height magnitude extinction reflectivity samples blocked = Traced rows
  /\ trace_rows width height magnitude extinction reflectivity (map mirrored_sample samples) blocked = Traced (map (option_map reversed) rows).
Proof.
  intros width height magnitude extinction reflectivity samples blocked W H M P. unfold trace_rows.
  set (f := fun '(s, b) => match all_some b with Some values => bind (trace_sample width height magnitude extinction reflectivity s values) (fun t => Ok (Some t)) | None => Ok None end).
  assert (G : exists rows, map_res f (combine samples (split_at (map (fun s => List.length (sample_rays s)) samples) blocked)) = Ok rows
    /\ map_res f (combine (map mirrored_sample samples) (split_at (map (fun s => List.length (sample_rays s)) (map mirrored_sample samples)) blocked)) = Ok (map (option_map reversed) rows)).
  { revert blocked. induction samples as [|s samples IH]; intros blocked; [exists []; split; reflexivity|]. cbn [map split_at combine].
    assert (LR : List.length (sample_rays (mirrored_sample s)) = List.length (sample_rays s)) by (rewrite mirrored_flip, rays_flip by ring; apply map_length). rewrite LR.
    destruct (IH (fun s I => P s (or_intror I)) (skipn (List.length (sample_rays s)) blocked)) as (rows & E & E'). cbn [map_res]. rewrite E, E'.
    destruct (P s (or_introl eq_refl)) as (P1 & P2 & P3). unfold f. destruct (all_some _) as [values|]; cbn [bind].
    - destruct (mirrored_trace width height magnitude extinction reflectivity s values W H M P1 P2 P3) as (t & T & T'). rewrite T, T'. cbn [bind]. exists (Some t :: rows). split; reflexivity.
    - exists (None :: rows). split; reflexivity. }
  destruct G as (rows & -> & ->). eauto.
Qed.
Theorem batch_mirrored : forall sort fuel width height magnitude extinction reflectivity samples, (2 <= width)%nat -> (2 <= height)%nat -> 0 <= magnitude ->
  (forall s o, In (s, o) samples -> proper_sample s /\ northern (s_target s) /\ off_edges width height magnitude s) ->
  exists rows, trace_samples sort fuel width height magnitude extinction reflectivity None samples = Traced rows
  /\ trace_samples sort fuel width height magnitude extinction reflectivity None (map (fun '(s, o) => (mirrored_sample s, o)) samples) = Traced (map (option_map reversed) rows).
Proof.
  intros sort fuel width height magnitude extinction reflectivity samples W H M P. unfold trace_samples.
  assert (E1 : map fst (map (fun '(s, o) => (mirrored_sample s, o)) samples) = map mirrored_sample (map fst samples)).
  { rewrite !map_map. apply map_ext. intros (s & o). reflexivity. }
  rewrite E1.
  assert (E2 : map (fun _ : point * point => Some 0) (flat_map sample_rays (map mirrored_sample (map fst samples))) = map (fun _ => Some 0) (flat_map sample_rays (map fst samples))).
  { clear. induction (map fst samples) as [|s l IH]; [reflexivity|]. cbn [map flat_map]. rewrite !map_app, IH. f_equal. rewrite mirrored_flip, rays_flip by ring. rewrite map_map. apply map_ext. intros (o & d). reflexivity. }
  rewrite E2. apply rows_mirrored; auto. intros s I. apply in_map_iff in I. destruct I as ((s0 & o) & <- & I). apply (P s0 o I).
Qed.

(** ** The edges *)
Lemma sum_where_all : forall {A} (p : A -> bool) f (l : list A), (forall x, In x l -> f x = 0 \/ p x = true) -> sum_where p f l = Rsum (map f l).
Proof.
  intros A p f l H. unfold sum_where. rewrite Rsum_filter. apply Rsum_map_ext. intros x I. destruct (H x I) as [-> | ->]; [destruct (p x)|]; reflexivity.
Qed.
Lemma sum_where_none : forall {A} (p : A -> bool) f (l : list A), (forall x, In x l -> f x = 0 \/ p x = false) -> sum_where p f l = 0.
Proof.
  intros A p f l H. unfold sum_where. rewrite Rsum_filter. apply Rsum_map_zero. intros x I. destruct (H x I) as [-> | ->]; [destruct (p x)|]; reflexivity.
Qed.
Theorem edge_lost : forall width height magnitude extinction reflectivity s blocked, (2 <= width)%nat -> (2 <= height)%nat -> 0 <= magnitude ->
  proper_sample s -> northern (s_target s) -> (forall i, In i (sample_intersections width height magnitude s) -> i_intensity i <> 0 -> i_e i = 0 /\ i_u i < INR height - 1) ->
  exists t t', trace_sample width height magnitude extinction reflectivity s blocked = Ok t
  /\ trace_sample width height magnitude extinction reflectivity (mirrored_sample s) blocked = Ok t'
  /\ image_total (t_bitmap t) = Rsum (map (fun '(i, b) => ray_intensity extinction reflectivity (i_intensity i) b) (combine (sample_intersections width height magnitude s) blocked))
  /\ image_total (t_bitmap t') = 0 /\ t_intercept t' = t_intercept t.
Proof.
  intros width height magnitude extinction reflectivity s blocked W H M PS N ED.
  assert (WI : 1 <= INR width - 1) by (apply le_INR in W; cbn in W; lra).
  assert (R1 := proper_in_range width height magnitude s W H M PS).
  assert (R2 := proper_in_range width height magnitude (mirrored_sample s) W H M). rewrite mirrored_flip in R2. specialize (R2 (proper_flip (-1) 1 s ltac:(ring) ltac:(ring) PS)).
  assert (F := flipped_swapped 1 width height magnitude s ltac:(ring) PS (or_introl (conj eq_refl N))). rewrite mirrored_flip.
  set (is := sample_intersections width height magnitude s) in *. set (s' := changed_sample _ _ s) in *. set (is' := sample_intersections width height magnitude s') in *.
  unfold trace_sample. fold is is'.
  set (hits := fun l => map (fun '(i, b) => {| hit_e := i_e i; hit_u := i_u i; hit_intensity := ray_intensity extinction reflectivity (i_intensity i) b |}) (combine l blocked)).
  fold (hits is). fold (hits is').
  assert (RH : forall l, Forall in_range l -> forall r, In r (hits l) -> 0 <= hit_e r /\ 0 <= hit_u r).
  { intros l RL r I. unfold hits in I. apply in_map_iff in I. destruct I as ((i & b) & <- & I). apply in_combine_l in I. rewrite Forall_forall in RL. apply (RL i I). }
  destruct (power_conserved width height (hits is) ltac:(lia) ltac:(lia) (RH is R1)) as (im & E & _ & T & _).
  destruct (power_conserved width height (hits is') ltac:(lia) ltac:(lia) (RH is' R2)) as (im' & E' & _ & T' & _).
  rewrite E, E'. cbn [bind]. eexists. eexists. split; [reflexivity|]. split; [reflexivity|]. cbn [t_bitmap t_intercept]. rewrite T, T'. split; [|split].
  - rewrite sum_where_all.
    + unfold hits. rewrite map_map. apply Rsum_map_ext. intros (i & b) _. reflexivity.
    + intros r I. unfold hits in I. apply in_map_iff in I. destruct I as ((i & b) & <- & I). cbn [hit_intensity]. apply in_combine_l in I.
      destruct (Req_dec (i_intensity i) 0) as [Z|Z]; [left; unfold ray_intensity; rewrite Z; ring|right]. destruct (ED i I Z) as (D1 & D2). rewrite Forall_forall in R1. pose proof (R1 i I) as (_ & U0).
      unfold inside_gridb. cbn [hit_e hit_u]. rewrite D1. destruct (Rle_dec 0 0); [|lra]. destruct (Rlt_dec 0 (INR width - 1)); [|lra]. destruct (Rle_dec 0 (i_u i)); [|lra]. destruct (Rlt_dec (i_u i) (INR height - 1)); [auto|lra].
  - apply sum_where_none. intros r I. unfold hits in I. apply in_map_iff in I. destruct I as ((i' & b) & <- & I). cbn [hit_intensity]. apply in_combine_l in I.
    assert (X : exists i, In i is /\ swapped width i i').
    { clear -F I. induction F as [|x y l l' S F IH]; [destruct I|]. destruct I as [<-|I]; [exists x; split; [left; auto|auto]|]. destruct (IH I) as (z & Z1 & Z2). exists z. split; [right; auto|auto]. }
    destruct X as (i & I0 & (_ & _ & SI & SE)). destruct (Req_dec (i_intensity i) 0) as [Z|Z]; [left; unfold ray_intensity; rewrite SI, Z; ring|right].
    destruct (ED i I0 Z) as (D1 & _). specialize (SE Z). unfold inside_gridb. cbn [hit_e hit_u]. rewrite SE, D1. destruct (Rle_dec 0 (INR width - 1 - 0)); auto. destruct (Rlt_dec (INR width - 1 - 0) (INR width - 1)); [lra|auto].
  - f_equal. clear -F. generalize blocked as bs. induction F as [|i i' l l' S F IH]; intros [|b bs]; cbn [combine map]; auto. destruct S as (_ & _ & -> & _). f_equal. apply IH.
Qed.

(** ** Turned scenes *)
Theorem turned_cylinder : forall width height magnitude extinction reflectivity s blocked c, (2 <= width)%nat -> (2 <= height)%nat -> 0 <= magnitude ->
  proper_sample s -> s_target s = CylindricalTarget c -> 0 < pn (cyl_normal c) -> cyl_opening c < PI ->
  (forall i, In i (sample_intersections width height magnitude s) -> i_intensity i <> 0) ->
  exists t', trace_sample width height magnitude extinction reflectivity (half_turned_sample s) blocked = Ok t' /\ image_total (t_bitmap t') = 0.
Proof.
  intros width height magnitude extinction reflectivity s blocked c W H M PS TC NN OP PW. rewrite half_flip.
  assert (R2 := proper_in_range width height magnitude _ W H M (proper_flip (-1) (-1) s ltac:(ring) ltac:(ring) PS)).
  assert (Z : forall i, In i (sample_intersections width height magnitude (changed_sample (flip (-1) (-1)) (flip_angles (-1) (-1)) s)) -> i_intensity i = 0).
  { intros i I. unfold sample_intersections in I. rewrite (rays_flip (-1) (-1)) in I by ring. rewrite map_map in I. apply in_map_iff in I. destruct I as ((o & d) & <- & I).
    cbn [changed_sample s_target]. rewrite TC. cbn [changed_target intersect]. pose proof (sample_ray_unit s o d PS I) as U. destruct PS as (_ & _ & T & _). rewrite TC in T.
    apply (cylinder_turned width height c o d magnitude T NN OP U). specialize (PW (line_cylinder width height c o d magnitude)). apply PW. unfold sample_intersections. rewrite TC. cbn [intersect].
    apply in_map_iff. exists (o, d). auto. }
  unfold trace_sample. clear PW. set (is' := sample_intersections _ _ _ _) in *.
  set (hits := map (fun '(i, b) => {| hit_e := i_e i; hit_u := i_u i; hit_intensity := ray_intensity extinction reflectivity (i_intensity i) b |}) (combine is' blocked)).
  destruct (power_conserved width height hits ltac:(lia) ltac:(lia)) as (im & E & _ & T & _).
  { intros r I. unfold hits in I. apply in_map_iff in I. destruct I as ((i & b) & <- & I). apply in_combine_l in I. rewrite Forall_forall in R2. apply (R2 i I). }
  rewrite E. cbn [bind]. eexists. split; [reflexivity|]. cbn [t_bitmap]. rewrite T. apply sum_where_none. intros r I. left. unfold hits in I. apply in_map_iff in I. destruct I as ((i & b) & <- & I).
  apply in_combine_l in I. cbn [hit_intensity]. unfold ray_intensity. rewrite (Z i I). ring.
Qed.
Theorem quarter_turn : forall width height magnitude extinction reflectivity s blocked p, (2 <= width)%nat -> (2 <= height)%nat -> 0 <= magnitude ->
  proper_sample s -> s_target s = PlanarTarget p -> pe (plane_normal p) = 0 -> pu (plane_normal p) = 0 ->
  exists t', trace_sample width height magnitude extinction reflectivity (quarter_turned_sample s) blocked = Ok t'
  /\ forall r c, (r < height)%nat -> (c < width)%nat -> pixel (t_bitmap t') height r c <> 0 -> (width - 1 - 1 <= 2 * c <= width)%nat.
Proof.
  intros width height magnitude extinction reflectivity s blocked p W H M PS TP NE NU.
  assert (DQ : forall x y, dot (quarter_turned x) (quarter_turned y) = dot x y) by (intros; unfold dot, quarter_turned; cbn; ring).
  assert (PS' : proper_sample (quarter_turned_sample s)).
  { destruct PS as (UI & UN & T & D). unfold proper_sample, quarter_turned_sample. cbn [changed_sample s_incident s_surface s_target s_distortions]. unfold unit in *. rewrite DQ. split; auto. split; [|split].
    - intros q n I. apply in_map_iff in I. destruct I as ((p0 & n0) & E & I). injection E as <- <-. rewrite DQ. eauto.
    - rewrite TP in *. cbn [changed_target proper_target plane_normal] in *. unfold sized, unit in *. cbn [plane_width plane_height plane_normal]. rewrite DQ. auto.
    - intros row I. apply in_map_iff in I. destruct I as (row0 & <- & I). rewrite !map_length. auto. }
  assert (R2 := proper_in_range width height magnitude _ W H M PS').
  assert (MID : forall i, In i (sample_intersections width height magnitude (quarter_turned_sample s)) -> i_intensity i = 0 \/ i_e i = (INR width - 1) / 2).
  { intros i I. unfold sample_intersections in I. apply in_map_iff in I. destruct I as ((o & d) & <- & I). unfold quarter_turned_sample. cbn [changed_sample s_target]. rewrite TP. cbn [changed_target intersect].
    destruct PS as (_ & _ & T & _). rewrite TP in T. destruct T as ((WP & _) & UN). unfold line_plane. cbn [plane_center plane_normal plane_width plane_height i_intensity i_e].
    set (n := pn (plane_normal p)). assert (QN : quarter_turned (plane_normal p) = vec (- n) 0 0) by (apply point_ext; cbn; rewrite ?NE, ?NU; auto). rewrite QN.
    set (ff := Rltb (dot d (vec (- n) 0 0)) 0). set (t := _ / (if ff then _ else 1) * indicator ff). set (valid := (_ && ff)%bool).
    destruct valid eqn:V; [|left; cbn; ring]. right. cbn [indicator]. rewrite Rmult_1_r.
    assert (FF : ff = true) by (unfold valid in V; apply andb_prop in V; apply V).
    assert (X : pe (vadd o (smul t d)) = pe (quarter_turned (plane_center p))).
    { unfold t. rewrite FF. cbn [indicator]. rewrite Rmult_1_r. unfold ff, Rltb in FF. destruct (Rlt_dec _ 0) as [L|]; [|discriminate]. unfold dot in *. cbn [vadd smul vsub pe pn pu vec] in *.
      replace (pe d * - n + pn d * 0 + pu d * 0) with (- (pe d * n)) in * by ring. set (qe := pe (quarter_turned (plane_center p))).
      assert (ND : pe d <> 0 /\ n <> 0) by (split; intros C; rewrite C in L; lra). field. split; apply ND || (intros C; lra). }
    rewrite X. set (qe := pe (quarter_turned (plane_center p))). field. lra. }
  unfold trace_sample. set (is' := sample_intersections _ _ _ _) in *.
  set (hits := map (fun '(i, b) => {| hit_e := i_e i; hit_u := i_u i; hit_intensity := ray_intensity extinction reflectivity (i_intensity i) b |}) (combine is' blocked)).
  destruct (splatting_pixels width height hits ltac:(lia) ltac:(lia)) as (im & E & _ & P).
  { intros r I. unfold hits in I. apply in_map_iff in I. destruct I as ((i & b) & <- & I). apply in_combine_l in I. rewrite Forall_forall in R2. apply (R2 i I). }
  rewrite E. cbn [bind]. eexists. split; [reflexivity|]. cbn [t_bitmap]. intros r c Hr Hc NZ. rewrite P in NZ by auto.
  destruct (Nat.le_gt_cases (width - 1 - 1) (2 * c)) as [L1|L1], (Nat.le_gt_cases (2 * c) width) as [L2|L2]; auto; exfalso; apply NZ; unfold sum_where; rewrite Rsum_filter; apply Rsum_map_zero; intros h I;
    unfold hits in I; apply in_map_iff in I; destruct I as ((i & b) & <- & I); apply in_combine_l in I; cbn [hit_e hit_u hit_intensity];
    (destruct (MID i I) as [Z|Z]; [unfold ray_intensity; rewrite Z; destruct (on_bitmap _ _ _); ring|]);
    (assert (HZ : hat (i_e i - INR c) = 0); [|rewrite HZ; destruct (on_bitmap _ _ _); ring]); rewrite Z; unfold hat; apply Rmax_left; 
    (assert (K : 1 <= Rabs ((INR width - 1) / 2 - INR c)); [|lra]).
  - assert (Q : (width + 1 <= 2 * c)%nat) by lia. apply le_INR in Q. rewrite plus_INR, mult_INR in Q. cbn [INR] in Q. rewrite Rabs_left; lra.
  - assert (Q : (2 * c + 3 <= width)%nat) by lia. apply le_INR in Q. rewrite plus_INR, mult_INR in Q. cbn [INR] in Q. rewrite Rabs_right; lra.
  - assert (Q : (2 * c + 3 <= width)%nat) by lia. apply le_INR in Q. rewrite plus_INR, mult_INR in Q. cbn [INR] in Q. rewrite Rabs_right; lra.
Qed.
