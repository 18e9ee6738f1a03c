(** C127: the measurements a fit uses and the surface it starts from. *)
From Coq Require Import List Arith ZArith Reals Lra Lia.
From Verif Require Import RealSums ModelField ModelVectors ProofsVectors ModelTransforms ModelLBVH ModelNurbs ModelTraining ModelSurfaceGenerator SpecTransforms SpecNurbs SpecSurfaceGenerator
  ProofsSurfaceGenerator ProofsSurfaceFit ProofsFitStart.
Import ListNotations.
Local Open Scope R_scope.

(** C127. Whatever the optimizer does, every facet of a fitted surface is the fit to every [stride]-th of its own measurements, cut to
    the number of the facet with the fewest. ... *)
Theorem C127_measurements : forall T (step : T -> net -> T * net) nu nv p q method states tolerance max_epoch stride cantings translations points normals facets few_points few_normals,
  fitted_surface nu nv p q method step states tolerance max_epoch stride cantings translations points normals = Some (Ok facets) ->
  fewest points few_points -> fewest normals few_normals ->
  (1 <= stride)%nat /\ length facets = length points
  /\ forall i row row', nth_error points i = Some row -> nth_error normals i = Some row' ->
     exists used_points used_normals c steps canting t,
     every_kth stride few_points row used_points /\ every_kth stride few_normals row' used_normals
     /\ fit_nurbs nu nv p q method step (states i) tolerance max_epoch used_points used_normals = Some (Ok (c, steps))
     /\ nth_error cantings i = Some canting /\ nth_error translations i = Some t /\ nth_error facets i = Some (fitted_facet method c canting t).
Proof. exact fit_uses. Qed.
Print Assumptions C127_measurements.

(** ... A fit starts from the flat surface around the origin with a regular grid of control points over the extent of the
    measurements: at every measurement it has height zero and an upward normal, lies in the rectangle of the measured extent, and
    measurements farther east or north are compared with points farther east or north.  A fit with a maximum of zero epochs is one
    step of the optimizer from there, and a fit takes only one step if the mean squared distance of the measured points from these
    points of the flat surface (or of the measured normals from its normals) is within the tolerance. *)
Theorem C127_start : forall T (step : T -> net -> T * net) nu nv p q method state tolerance max_epoch points normals c steps width height,
  fit_nurbs nu nv p q method step state tolerance max_epoch points normals = Some (Ok (c, steps)) -> (1 <= p < nu)%nat -> (1 <= q < nv)%nat ->
  extent pe points width -> extent pn points height -> INR (nu - 1) * INR (nv - 1) <= 10 ^ 12 * (width * height) ->
  exists start parameters initial,
  (max_epoch = 0%nat -> c = snd (step state start)) /\ n_u start = nu /\ n_v start = nv
  /\ (forall i j, (i < nu)%nat -> (j < nv)%nat -> control start i j = vec (- width / 2 + width * (INR i / INR (nu - 1))) (- height / 2 + height * (INR j / INR (nv - 1))) 0)
  /\ length parameters = length points /\ length initial = length points
  /\ (forall k pt, nth_error initial k = Some pt -> exists x y, nth_error parameters k = Some (x, y) /\ evaluate start p q x y = Some (as_point pt, as_direction (vec 0 0 1))
      /\ Rabs (pe pt) <= width / 2 /\ Rabs (pn pt) <= height / 2 /\ pu pt = 0)
  /\ (forall i j a b a' b', nth_error points i = Some a -> nth_error points j = Some b -> nth_error initial i = Some a' -> nth_error initial j = Some b' ->
      (pe a < pe b -> pe a' < pe b') /\ (pn a < pn b -> pn a' < pn b'))
  /\ let mean a b := Rsum (map (fun '(x, y) => (pe x - pe y) ^ 2 + (pn x - pn y) ^ 2 + (pu x - pu y) ^ 2) (combine a b)) / (4 * INR (length a)) in
     let first_loss := match method with FromPoints => mean initial points | FromNormals => mean (map (fun _ => vec 0 0 1) points) normals end in
     (first_loss <= tolerance -> steps = 1%nat) /\ (tolerance < first_loss -> (1 <= max_epoch)%nat -> (2 <= steps)%nat).
Proof. exact fit_start. Qed.
Print Assumptions C127_start.

(** Every second point of two facets, the second of which has a point less. *)
Example C127_case : forall step : unit -> net -> unit * net, exists facets,
  fitted_surface 2 2 1 1 FromNormals step (fun _ => tt) 100 5 2 [(vec 1 0 0, vec 0 1 0); (vec 1 0 0, vec 0 1 0)] [hv 0 0 0 0; hv 3 0 0 0]
    [[vec 0 0 0; vec 9 9 9; vec 1 1 0; vec 9 9 9; vec 9 9 9]; [vec 0 0 0; vec 9 9 9; vec 1 1 0]] [map (fun _ => vec 1 0 0) (seq 0 5); map (fun _ => vec 1 0 0) (seq 0 3)] = Some (Ok facets)
  /\ length facets = 2%nat /\ fewest [[vec 0 0 0; vec 9 9 9; vec 1 1 0; vec 9 9 9; vec 9 9 9]; [vec 0 0 0; vec 9 9 9; vec 1 1 0]] 3
  /\ extent pe [vec 0 0 0; vec 1 1 0] 1 /\ extent pn [vec 0 0 0; vec 1 1 0] 1 /\ INR (2 - 1) * INR (2 - 1) <= 10 ^ 12 * (1 * 1).
Proof.
  intros step. set (points := [vec 0 0 0; vec 1 1 0]). assert (NE : points <> []) by discriminate.
  destruct (parameters_ok points NE) as (ps & FP & _ & _). destruct (initial_net 2 2 points) as [c0|] eqn:IN; [|discriminate].
  assert (FI : exists c, fit_nurbs 2 2 1 1 FromNormals step tt 100 5 points [vec 1 0 0; vec 1 0 0] = Some (Ok (c, 1%nat))).
  { unfold fit_nurbs. rewrite IN, FP. change [vec 1 0 0; vec 1 0 0] with (map (fun _ : point => vec 1 0 0) points). cbn [fit_loop].
    rewrite (initial_loss 2 2 points c0 1 1 ps _ (vec 1 0 0)); auto; try lia.
    - destruct (step tt c0) as (s & c). exists c. unfold Rgtb. destruct (Rlt_dec 100 _) as [L|]; auto. exfalso. revert L. unfold square_error, as_direction. cbn [he hn hu hw hv pe pn pu vec]. lra.
    - unfold width_of, height_of, points. cbn [map Rmax_list Rmin_list fold_left pe pn vec INR Nat.sub]. rewrite !(Rmax_right 0 1), !(Rmin_left 0 1) by lra. lra. }
  destruct FI as (c & FI). eexists. split.
  - unfold fitted_surface. match goal with |- context [reduced 2 ?r] => change (reduced 2 r) with (Ok [points; points]) end. cbv iota.
    match goal with |- context [reduced 2 ?r] => change (reduced 2 r) with (Ok [[vec 1 0 0; vec 1 0 0]; [vec 1 0 0; vec 1 0 0]]) end. cbv iota.
    cbn [length seq map nth_error]. rewrite FI. reflexivity.
  - split; [reflexivity|]. split; [split; [eexists; split; [right; left; reflexivity|reflexivity]|intros row [<-|[<-|[]]]; cbn; lia]|].
    split; [|split]; [split| split|cbn; lra].
    + exists (vec 1 1 0), (vec 0 0 0). cbn. split; auto. split; auto. lra.
    + intros a b [<-|[<-|[]]] [<-|[<-|[]]]; cbn; lra.
    + exists (vec 1 1 0), (vec 0 0 0). cbn. split; auto. split; auto. lra.
    + intros a b [<-|[<-|[]]] [<-|[<-|[]]]; cbn; lra.
Qed.
