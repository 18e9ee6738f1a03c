(** C122: proportional flux. *)
From Coq Require Import List Arith ZArith Reals Lra Lia.
From Verif Require Import RealSums ModelField ModelVectors ModelLBVH SpecLBVH ModelBlocking ModelSplatting SpecSplatting ModelIntersections SpecIntersections ModelTrace
  SpecTrace SpecProportional ProofsTraceBatch ProofsProportional.
Import ListNotations.
Local Open Scope R_scope.

(** C122. Multiplying what each ray carries, or the reflectivity of the mirrors, by a positive factor multiplies the flux in every
    pixel by it and changes no fraction, for every scene, with and without blocking; if tracing fails, it fails in the same way ... *)
Theorem C122_flux : forall k sort fuel width height magnitude extinction reflectivity blocking samples, 0 < k ->
  trace_samples sort fuel width height (k * magnitude) extinction reflectivity blocking samples
    = brighter_batch k (trace_samples sort fuel width height magnitude extinction reflectivity blocking samples)
  /\ trace_samples sort fuel width height magnitude extinction (k * reflectivity) blocking samples
    = brighter_batch k (trace_samples sort fuel width height magnitude extinction reflectivity blocking samples).
Proof. exact trace_scaled. Qed.
Print Assumptions C122_flux.

(** ... and what a ray carries is proportional to the irradiance. *)
Theorem C122_irradiance : forall k dni cantings points rays magnitude, tracer_magnitude (Some dni) cantings points rays = Ok magnitude ->
  tracer_magnitude (Some (k * dni)) cantings points rays = Ok (k * magnitude).
Proof. exact magnitude_scaled. Qed.
Print Assumptions C122_irradiance.

(** A batch of two samples with blocking: what is one unit of flux on the way becomes 850, and the blocked sample gets at most a
    quarter of it. *)
Example C122_case : forall sort, sorts sort -> exists ta tb,
  trace_samples sort 9 3 3 850 0 1 (Some stacked) [(upward (-5) 95, 1%nat); (upward (-3) (-2), 2%nat)] = Traced [Some ta; Some tb]
  /\ image_total (t_bitmap tb) <= 850 / 4.
Proof.
  intros sort HS. destruct (stacked_pair sort HS) as (ta & tb & E & B). exists (brighter 850 ta), (brighter 850 tb). split.
  - replace 850 with (850 * 1) at 1 by ring.
    destruct (C122_flux 850 sort 9 3 3 1 0 1 (Some stacked) [(upward (-5) 95, 1%nat); (upward (-3) (-2), 2%nat)] ltac:(lra)) as (T & _).
    rewrite T, E. reflexivity.
  - assert (G : image_total (t_bitmap (brighter 850 tb)) = 850 * image_total (t_bitmap tb)).
    { unfold brighter, image_total. cbn [t_bitmap]. generalize (t_bitmap tb). intros l.
      assert (H : forall r : list R, Rsum (map (Rmult 850) r) = 850 * Rsum r) by (induction r as [|x r IH]; cbn; [ring|fold (Rsum (map (Rmult 850) r)); rewrite IH; cbn; unfold Rsum; ring]).
      induction l as [|r l IH]; cbn [map]; [cbn; ring|]. cbn [Rsum fold_right]. fold (Rsum (map Rsum (map (map (Rmult 850)) l))). fold (Rsum (map Rsum l)). rewrite IH, H. ring. }
    rewrite G. lra.
Qed.
