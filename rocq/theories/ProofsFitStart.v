(** Proofs of C127. *)
From Coq Require Import List Arith ZArith Reals Bool Lra Lia Psatz.
From Verif Require Import RealSums ModelField ModelVectors ProofsVectors ModelTransforms ModelLBVH ModelNurbs ModelCoordinates ModelTraining ModelSurfaceGenerator SpecTransforms SpecNurbs SpecSurfaceGenerator
  ProofsMorton ProofsCoordinates ProofsSurfaceGenerator ProofsSurfaceFit.
Import ListNotations.
Local Open Scope R_scope.

Lemma extent_value : forall f points w, points <> [] -> extent f points w -> w = Rmax_list (map f points) - Rmin_list (map f points).
Proof.
  intros f points w NE ((a & b & A & B & E) & U). assert (NM : map f points <> []) by (destruct points; [contradiction|discriminate]).
  pose proof (Rmax_list_in _ NM) as MX. pose proof (Rmin_list_in _ NM) as MN. apply in_map_iff in MX. apply in_map_iff in MN.
  destruct MX as (x & X & IX). destruct MN as (y & Y & IY). specialize (U x y IX IY). rewrite X, Y in U.
  pose proof (Rmax_list_ge (map f points) (f a) (in_map f _ _ A)). pose proof (Rmin_list_le (map f points) (f b) (in_map f _ _ B)). lra.
Qed.
Theorem fit_start : forall T (step : T -> net -> T * net) nu nv p q method state tolerance max_epoch points normals c steps width height,
  fit_nurbs nu nv p q method step state tolerance max_epoch points normals = Some (Ok (c, steps)) -> (1 <= p < nu)%nat -> (1 <= q < nv)%nat ->
  extent pe points width -> extent pn points height -> INR (nu - 1) * INR (nv - 1) <= 10 ^ 12 * (width * height) ->
  exists start parameters initial,
  (max_epoch = 0%nat -> c = snd (step state start)) /\ n_u start = nu /\ n_v start = nv
  /\ (forall i j, (i < nu)%nat -> (j < nv)%nat -> control start i j = vec (- width / 2 + width * (INR i / INR (nu - 1))) (- height / 2 + height * (INR j / INR (nv - 1))) 0)
  /\ length parameters = length points /\ length initial = length points
  /\ (forall k pt, nth_error initial k = Some pt -> exists x y, nth_error parameters k = Some (x, y) /\ evaluate start p q x y = Some (as_point pt, as_direction (vec 0 0 1))
      /\ Rabs (pe pt) <= width / 2 /\ Rabs (pn pt) <= height / 2 /\ pu pt = 0)
  /\ (forall i j a b a' b', nth_error points i = Some a -> nth_error points j = Some b -> nth_error initial i = Some a' -> nth_error initial j = Some b' ->
      (pe a < pe b -> pe a' < pe b') /\ (pn a < pn b -> pn a' < pn b'))
  /\ let mean a b := Rsum (map (fun '(x, y) => (pe x - pe y) ^ 2 + (pn x - pn y) ^ 2 + (pu x - pu y) ^ 2) (combine a b)) / (4 * INR (length a)) in
     let first_loss := match method with FromPoints => mean initial points | FromNormals => mean (map (fun _ => vec 0 0 1) points) normals end in
     (first_loss <= tolerance -> steps = 1%nat) /\ (tolerance < first_loss -> (1 <= max_epoch)%nat -> (2 <= steps)%nat).
Proof.
  intros T step nu nv p q method state tolerance max_epoch points normals c steps width height F PA PB EW EH H.
  unfold fit_nurbs in F. assert (NE : points <> []) by (intros ->; discriminate F).
  assert (IN : exists start, initial_net nu nv points = Ok start /\ n_u start = nu /\ n_v start = nv
    /\ forall i j, control start i j = vec (linspace (- width / 2) (width / 2) nu i) (linspace (- height / 2) (height / 2) nv j) 0).
  { rewrite (extent_value _ _ _ NE EW), (extent_value _ _ _ NE EH). unfold initial_net. destruct points; [contradiction|]. eexists. split; [reflexivity|]. split; [reflexivity|]. split; [reflexivity|]. intros; reflexivity. }
  destruct IN as (start & IN & NU & NV & CC). rewrite IN in F.
  assert (WP : 0 <= width) by (rewrite (extent_value _ _ _ NE EW); apply extent_nonneg; auto).
  assert (HP : 0 <= height) by (rewrite (extent_value _ _ _ NE EH); apply extent_nonneg; auto).
  assert (PW : 0 < width) by (destruct WP as [|<-]; auto; assert (0 < INR (nu - 1)) by (apply lt_0_INR; lia); assert (0 < INR (nv - 1)) by (apply lt_0_INR; lia); nra).
  assert (PH : 0 < height) by (destruct HP as [|<-]; auto; assert (0 < INR (nu - 1)) by (apply lt_0_INR; lia); assert (0 < INR (nv - 1)) by (apply lt_0_INR; lia); nra).
  assert (N1 : 0 < INR (nu - 1)) by (apply lt_0_INR; lia). assert (N2 : 0 < INR (nv - 1)) by (apply lt_0_INR; lia).
  assert (CF : forall i j, control start i j = vec (- width / 2 + width * (INR i / INR (nu - 1))) (- height / 2 + height * (INR j / INR (nv - 1))) 0).
  { intros i j. rewrite CC. unfold linspace. destruct (Nat.leb_spec nu 1); [lia|]. destruct (Nat.leb_spec nv 1); [lia|]. apply point_eq; cbn [pe pn pu vec]; field; lra. }
  assert (EVAL : forall x y, 0 <= x < 1 -> 0 <= y < 1 -> evaluate start p q x y = Some (as_point (vec (width / 2 * unit_curve nu p x) (height / 2 * unit_curve nv q y) 0), as_direction (vec 0 0 1))).
  { intros x y X Y. apply (flat_net_evaluate start nu nv (width / 2) (height / 2)); auto; try lra.
    intros i j I J. rewrite CF. unfold linspace. destruct (Nat.leb_spec nu 1); [lia|]. destruct (Nat.leb_spec nv 1); [lia|]. apply point_eq; cbn [pe pn pu vec]; field; lra. }
  unfold fit_parameters in F.
  destruct (normalize_all (map pe points)) as (es & EE & LE & BE & OE); [destruct points; [contradiction|discriminate]|].
  destruct (normalize_all (map pn points)) as (ns & EN & LN & BN & ON); [destruct points; [contradiction|discriminate]|].
  rewrite EE, EN in F. cbn [bind] in F. rewrite map_length in LE, LN, OE, ON.
  exists start, (combine es ns), (map (fun '(x, y) => vec (width / 2 * unit_curve nu p x) (height / 2 * unit_curve nv q y) 0) (combine es ns)).
  split.
  { intros ->. cbn [fit_loop] in F. destruct (fit_loss p q method _ _ _ start) as [[l|]|]; try discriminate.
    destruct (step state start) as (s' & c'). destruct (Rgtb l tolerance); injection F as <- _; reflexivity. }
  split; auto. split; auto. split; [intros; apply CF|]. rewrite map_length, combine_length, LE, LN, Nat.min_id. split; auto. split; auto.
  assert (AT : forall k z, nth_error (combine es ns) k = Some z -> (k < length points)%nat /\ z = (nth k es 0, nth k ns 0)).
  { intros k z K. assert (KL : (k < length (combine es ns))%nat) by (apply nth_error_Some; congruence). rewrite combine_length in KL. split; [lia|].
    apply (nth_error_nth _ _ (0, 0)) in K. rewrite combine_nth in K by lia. congruence. }
  assert (IE : forall k, (k < length points)%nat -> 0 < nth k es 0 < 1) by (intros k K; apply BE, nth_In; lia).
  assert (IN' : forall k, (k < length points)%nat -> 0 < nth k ns 0 < 1) by (intros k K; apply BN, nth_In; lia).
  split; [|split].
  - intros k pt K. rewrite nth_error_map in K. destruct (nth_error (combine es ns) k) as [(x & y)|] eqn:Z; [|discriminate]. cbn [option_map] in K. injection K as <-.
    destruct (AT k _ Z) as (KL & E). injection E as -> ->. specialize (IE k KL). specialize (IN' k KL). exists (nth k es 0), (nth k ns 0). split; auto.
    split; [apply EVAL; lra|]. cbn [pe pn pu vec].
    pose proof (unit_curve_bounds nu p (nth k es 0) PA ltac:(lra)). pose proof (unit_curve_bounds nv q (nth k ns 0) PB ltac:(lra)).
    split; [|split; auto]; apply Rabs_le; nra.
  - intros i j a b a' b' A B A' B'. rewrite nth_error_map in A', B'.
    destruct (nth_error (combine es ns) i) as [(x & y)|] eqn:ZA; [|discriminate]. destruct (nth_error (combine es ns) j) as [(x' & y')|] eqn:ZB; [|discriminate].
    cbn [option_map] in A', B'. injection A' as <-. injection B' as <-. destruct (AT i _ ZA) as (IL & EA). destruct (AT j _ ZB) as (JL & EB).
    injection EA as -> ->. injection EB as -> ->. cbn [pe pn pu vec].
    assert (NPE : forall k z (f : point -> R), nth_error points k = Some z -> nth k (map f points) 0 = f z) by (intros k z f K; apply nth_error_nth; rewrite nth_error_map, K; auto).
    split; intros L.
    + apply Rmult_lt_compat_l; [lra|]. pose proof (IE i IL). pose proof (IE j JL). apply unit_curve_increasing; auto; try lra. apply OE; auto. rewrite (NPE i a pe), (NPE j b pe) by auto. auto.
    + apply Rmult_lt_compat_l; [lra|]. pose proof (IN' i IL). pose proof (IN' j JL). apply unit_curve_increasing; auto; try lra. apply ON; auto. rewrite (NPE i a pn), (NPE j b pn) by auto. auto.
  - cbv zeta. set (first_loss := match method with FromPoints => _ | FromNormals => _ end).
    assert (RB : forall x y, In (x, y) (combine es ns) -> 0 <= x < 1 /\ 0 <= y < 1).
    { intros x y I. pose proof (BE x (in_combine_l _ _ _ _ I)). pose proof (BN y (in_combine_r _ _ _ _ I)). lra. }
    assert (CO : forall l, (forall x y, In (x, y) l -> 0 <= x < 1 /\ 0 <= y < 1) -> collect (map (fun '(x, y) => evaluate start p q x y) l)
      = Some (map (fun '(x, y) => (as_point (vec (width / 2 * unit_curve nu p x) (height / 2 * unit_curve nv q y) 0), as_direction (vec 0 0 1))) l)).
    { induction l as [|[x y] l IH]; intros B; [reflexivity|]. destruct (B x y (or_introl eq_refl)) as (X & Y). cbn [map collect]. rewrite EVAL by auto. rewrite IH by (intros; apply B; right; auto). reflexivity. }
    assert (FL : forall lo st', fit_loop (fit_loss p q method (combine es ns) (map (fun x => hv (pe x) (pn x) (pu x) 1) points) (map (fun x => hv (pe x) (pn x) (pu x) 0) normals)) step tolerance (S max_epoch) st' start 0 = Some (Ok lo) ->
      fit_loss p q method (combine es ns) (map (fun x => hv (pe x) (pn x) (pu x) 1) points) (map (fun x => hv (pe x) (pn x) (pu x) 0) normals) start = Some (Ok first_loss)).
    { intros lo st' L. cbn [fit_loop] in L. unfold fit_loss at 1 in L. unfold fit_loss. rewrite CO in * by exact RB. cbn [option_map] in *. rewrite !map_length in *. rewrite combine_length, LE, LN, Nat.min_id, ?Nat.eqb_refl in *.
      subst first_loss. destruct method.
      - do 2 f_equal. unfold mse. rewrite !map_length, combine_length, LE, LN, Nat.min_id. f_equal. clear -LE LN.
        assert (LC : length (combine es ns) = length points) by (rewrite combine_length; lia). revert LC. generalize (combine es ns) as l. revert points LE LN. intros points _ _ l. revert points.
        induction l as [|[x y] l IH]; intros [|z points] LC; try discriminate LC; [reflexivity|]. cbn [map combine fst]. rewrite !Rsum_cons. f_equal; [|apply IH; injection LC; auto].
        unfold square_error, as_point. cbn [he hn hu hw hv pe pn pu vec]. ring.
      - destruct (Nat.eqb_spec (length points) (length normals)) as [E|]; [|discriminate]. do 2 f_equal. unfold mse. rewrite !map_length, combine_length, LE, LN, Nat.min_id. f_equal. clear -LE LN E.
        assert (LC : length (combine es ns) = length points) by (rewrite combine_length; lia). revert LC E. generalize (combine es ns) as l. revert points LE LN. intros points _ _ l. revert points normals.
        induction l as [|[x y] l IH]; intros [|z points] [|n normals] LC E; try discriminate LC; try discriminate E; [reflexivity|]. cbn [map combine snd]. rewrite !Rsum_cons. f_equal; [|apply IH; [injection LC; auto|injection E; auto]].
        unfold square_error, as_direction. cbn [he hn hu hw hv pe pn pu vec]. ring. }
    pose proof (FL _ _ F) as FE. cbn [fit_loop] in F. rewrite FE in F. destruct (step state start) as (s' & c'). unfold Rgtb in F at 1. destruct (Rlt_dec tolerance first_loss) as [G|G].
    + split; [intros; lra|]. intros _ M. assert (GE : forall e st c0 k c1 n, fit_loop (fit_loss p q method (combine es ns) (map (fun x => hv (pe x) (pn x) (pu x) 1) points) (map (fun x => hv (pe x) (pn x) (pu x) 0) normals)) step tolerance e st c0 k = Some (Ok (c1, n)) -> (1 <= e)%nat -> (S k <= n)%nat).
      { clear. induction e as [|e IH]; intros st c0 k c1 n F E; [lia|]. cbn [fit_loop] in F. destruct (fit_loss _ _ _ _ _ _ c0) as [[l|]|]; try discriminate. destruct (step st c0) as (s & c').
        destruct (Rgtb l tolerance); [|injection F as _ <-; lia]. destruct e as [|e]; [cbn in F; injection F as _ <-; lia|]. apply IH in F; lia. }
      apply (GE _ _ _ _ _ _ F M).
    + split; [intros _; injection F as _ <-; reflexivity|lra].
Qed.

(** ** The points that are used *)
Lemma every_from_at : forall {A} k (l : list A) skip j, (1 <= k)%nat -> nth_error (every_from k skip l) j = nth_error l (skip + j * k).
Proof.
  intros A k. induction l as [|x l IH]; intros skip j K; [cbn [every_from]; destruct j, (skip + _)%nat; auto|].
  destruct skip as [|skip]; cbn [every_from].
  - destruct j as [|j]; auto. cbn [nth_error]. rewrite IH by auto. replace (0 + S j * k)%nat with (S (k - 1 + j * k)) by nia. reflexivity.
  - rewrite IH by auto. reflexivity.
Qed.
Lemma nth_error_firstn' : forall {A} n (l : list A) i, nth_error (firstn n l) i = if (i <? n)%nat then nth_error l i else None.
Proof.
  intros A n. induction n as [|n IH]; intros l i; [destruct i; reflexivity|]. destruct l as [|x l].
  - cbn [firstn]. destruct i as [|i]; [reflexivity|]. destruct (S i <? S n)%nat; reflexivity.
  - destruct i as [|i]; [reflexivity|]. cbn [firstn nth_error]. rewrite IH. reflexivity.
Qed.
Lemma shortest_fewest : forall {A} (rows : list (list A)) n, rows <> [] -> fewest rows n -> shortest rows = n.
Proof.
  intros A rows n NE ((row & I & L) & U). destruct rows as [|r rest]; [contradiction|]. cbn [shortest].
  assert (G : forall l x, (fold_left Nat.min l x <= x)%nat /\ (forall y, In y l -> (fold_left Nat.min l x <= y)%nat) /\ (fold_left Nat.min l x = x \/ In (fold_left Nat.min l x) l)).
  { clear. induction l as [|y l IH]; intros x; cbn [fold_left]; [split; auto; split; auto; intros y []|].
    destruct (IH (Nat.min x y)) as (G1 & G2 & G3). split; [lia|]. split.
    - intros z [<-|Z]; [lia|auto].
    - destruct G3 as [->|G3]; [|right; right; auto]. destruct (Nat.min_dec x y) as [->| ->]; [left|right; left]; auto. }
  destruct (G (map (@length A) rest) (length r)) as (G1 & G2 & G3). apply Nat.le_antisymm.
  - destruct I as [->|I]; [lia|]. rewrite <- L. apply G2. apply in_map. auto.
  - destruct G3 as [->|G3]; [apply U; left; auto|]. apply in_map_iff in G3. destruct G3 as (r' & <- & R'). apply U. right. auto.
Qed.
Lemma reduced_rows : forall {A} stride (rows out : list (list A)) n, reduced stride rows = Ok out -> fewest rows n ->
  (1 <= stride)%nat /\ length out = length rows /\ forall i row, nth_error rows i = Some row -> exists taken, nth_error out i = Some taken /\ every_kth stride n row taken.
Proof.
  intros A stride rows out n E F. assert (NE : rows <> []) by (intros ->; discriminate). unfold reduced in E. rewrite (shortest_fewest rows n NE F) in E.
  assert (M : map_res (fun r => strided stride (firstn n r)) rows = Ok out) by (destruct rows; [contradiction|exact E]). destruct (map_res_at _ _ _ M) as (L & AT).
  assert (SP : (1 <= stride)%nat).
  { destruct rows as [|r rest]; [contradiction|]. destruct (AT 0%nat r eq_refl) as (y & _ & Y). unfold strided in Y. destruct (Nat.eqb_spec stride 0); [discriminate|lia]. }
  split; auto. split; auto. intros i row I. destruct (AT i row I) as (y & Y & SY). exists y. split; auto. unfold strided in SY. destruct (Nat.eqb_spec stride 0); [discriminate|]. injection SY as <-.
  intros j. rewrite every_from_at by auto. apply nth_error_firstn'.
Qed.
Theorem fit_uses : forall T (step : T -> net -> T * net) nu nv p q method states tolerance max_epoch stride cantings translations points normals facets few_points few_normals,
  fitted_surface nu nv p q method step states tolerance max_epoch stride cantings translations points normals = Some (Ok facets) ->
  fewest points few_points -> fewest normals few_normals ->
  (1 <= stride)%nat /\ length facets = length points
  /\ forall i row row', nth_error points i = Some row -> nth_error normals i = Some row' ->
     exists used_points used_normals c steps canting t,
     every_kth stride few_points row used_points /\ every_kth stride few_normals row' used_normals
     /\ fit_nurbs nu nv p q method step (states i) tolerance max_epoch used_points used_normals = Some (Ok (c, steps))
     /\ nth_error cantings i = Some canting /\ nth_error translations i = Some t /\ nth_error facets i = Some (fitted_facet method c canting t).
Proof.
  intros T step nu nv p q method states tolerance max_epoch stride cantings translations points normals facets few_points few_normals F FP FN.
  unfold fitted_surface in F. destruct (reduced stride points) as [ps|] eqn:RP; [|discriminate]. destruct (reduced stride normals) as [ns|] eqn:RN; [|discriminate].
  destruct (reduced_rows stride points ps few_points RP FP) as (SP & LP & AP). destruct (reduced_rows stride normals ns few_normals RN FN) as (_ & LN & AN).
  split; auto. destruct (collect _) as [results|] eqn:C; [|discriminate]. cbn [option_map] in F. injection F as F.
  destruct (collect_at _ _ _ C) as (L1 & A1). destruct (map_res_at _ _ _ F) as (L2 & A2). rewrite seq_length in L1. split; [congruence|].
  intros i row row' I I'. destruct (AP i row I) as (used & U & UK). destruct (AN i row' I') as (used' & U' & UK').
  destruct (A1 i i) as (r & R1 & R2); [rewrite seq_at; auto; apply nth_error_Some; congruence|]. rewrite U, U' in R2.
  destruct (A2 i r R1) as (facet & FA & FE). destruct (nth_error cantings i) as [canting|] eqn:CA; [|injection R2 as <-; discriminate].
  destruct (nth_error translations i) as [t|] eqn:TR; [|injection R2 as <-; discriminate].
  destruct (fit_nurbs nu nv p q method step (states i) tolerance max_epoch used used') as [[(c & steps)|]|] eqn:FI; cbn [option_map] in R2; try discriminate; injection R2 as <-; [|discriminate].
  injection FE as <-. exists used, used', c, steps, canting, t. auto 10.
Qed.
