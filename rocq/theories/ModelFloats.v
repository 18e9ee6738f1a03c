(** Model of counts, indices and weights that the code computes in floating point.  Floating point numbers are the reals of the
    IEEE 754 formats binary64 (Python) and binary32 (the default of torch); every operation is the exact one followed by rounding
    to nearest even.  Overflow is left out: all values stay far below the largest number. *)
From Coq Require Import List Arith ZArith Reals.
From Flocq Require Import Core.
From Verif Require Import ModelNurbs.
Import ListNotations.
Local Open Scope R_scope.

Definition binary64 : R -> R := round radix2 (FLT_exp (-1074) 53) ZnearestE.
Definition binary32 : R -> R := round radix2 (FLT_exp (-149) 24) ZnearestE.
Definition is_binary64 : R -> Prop := generic_format radix2 (FLT_exp (-1074) 53).
Definition is_binary32 : R -> Prop := generic_format radix2 (FLT_exp (-149) 24).

(** [int(total_samples / number_of_heliostats)], optim/training.py:322: true division of integers, then truncation. *)
Definition samples_per_heliostat (total heliostats : nat) : Z := Ztrunc (binary64 (INR total / INR heliostats)).
(** [int(number_of_samples_per_heliostat * test_fraction)], optim/training.py:324. *)
Definition test_samples (samples : nat) (fraction : R) : Z := Ztrunc (binary64 (INR samples * fraction)).
(** [int(math.sqrt(points / facets))], field/heliostat_field.py:454-459. *)
Definition points_per_facet_and_direction (points facets : nat) : Z := Ztrunc (binary64 (sqrt (binary64 (INR points / INR facets)))).
(** The corner indices of raytracing/blocking.py:178-193, in the order of [corner_indices_by_index]. *)
Definition corner_indices_float (n : nat) : list Z :=
  [ Ztrunc (binary64 (INR n / 2));
    Ztrunc (binary64 (binary64 (sqrt (binary64 (INR n / 4))) - 1));
    Ztrunc (binary64 (binary64 (INR n / 2) - 1));
    Ztrunc (binary64 (INR n - binary64 (sqrt (binary64 (INR n / 4))))) ].

(** The uniform knot span, nurbs/surfaces.py:199-207, in binary32: [n] control points, [p] the degree; there are [n - p + 1]
    different knots. *)
Definition uniform_span_float (n p : nat) (x : R) : Z := (Zfloor (binary32 (x * INR (n - p))) + Z.of_nat p)%Z.
(** [torch.linspace(start, end, steps)] in binary32, as used by nurbs/utils.py:37-48: the step is computed once, the first half
    counts up from the start and the second half down from the end. *)
Definition linspace_float (first last : R) (steps i : nat) : R :=
  if (steps =? 1)%nat then first
  else let step := binary32 (binary32 (last - first) / INR (steps - 1)) in
       if (i <? steps / 2)%nat then binary32 (first + binary32 (step * INR i)) else binary32 (last - binary32 (step * INR (steps - 1 - i))).
(** The bounds [1e-7] and [1 - 1e-7] (a difference of Python numbers), nurbs/utils.py:37-48, as binary32 numbers. *)
Definition grid_first : R := binary32 (binary64 (/ 10 ^ 7)).
Definition grid_last : R := binary32 (binary64 (1 - binary64 (/ 10 ^ 7))).

(** The splatting weights in binary32, raytracing/heliostat_ray_tracer.py:674-722: [long()] truncates, and differences with an
    integer tensor convert it (exactly below 2^24). *)
Definition low_weight (x : R) : R := binary32 (IZR (Ztrunc x + 1) - x).
Definition high_weight (x : R) : R := binary32 (x - IZR (Ztrunc x)).
(** The intensities of the pixels 1 to 4 for the continuous coordinates [e] and [u] and the intensity of the ray. *)
Definition pixel_intensities (e u intensity : R) : list R :=
  map (fun '(a, b) => binary32 (binary32 (a * b) * intensity))
    [(low_weight e, high_weight u); (high_weight e, high_weight u); (high_weight e, low_weight u); (low_weight e, low_weight u)].
