(** Model of [artist/optim/loss.py] and [artist/optim/regularizers.py].  A sample is the flattened list of the entries
    that the reduction runs over (one bitmap, one vector).  Prediction and ground truth have the same length; the code
    would broadcast other shapes, the model reports [ShapeError].  [None] is NaN or infinity. *)
From Coq Require Import List Arith Reals Bool.
From Verif Require Import RealSums ModelField ModelVectors ModelTransforms ModelActuators ModelNurbs.
Import ListNotations.
Local Open Scope R_scope.

Definition same_length (a b : list R) : bool := (length a =? length b)%nat.
(** [torch.nn.MSELoss(reduction="none")] summed over the sample. *)
Definition squared_error (prediction truth : list R) : R := Rsum (map (fun '(a, b) => (a - b) ^ 2) (combine prediction truth)).
(** [VectorLoss.__call__], loss.py:79-121, for one sample. *)
Definition vector_loss (prediction truth : list R) : res R :=
  if same_length prediction truth then Ok (squared_error prediction truth) else Err ShapeError.
(** [PixelLoss.__call__], loss.py:270-319, for one sample. *)
Definition pixel_loss (prediction truth : list R) : res (option R) :=
  if same_length prediction truth then Ok (div_opt (squared_error prediction truth) (Rsum truth)) else Err ShapeError.

(** [torch.nn.functional.normalize(x, p=1, eps=1e-12)] over the sample. *)
Definition kl_eps : R := / 10 ^ 12.
Definition distribution (x : list R) : list R := map (fun a => a / Rmax (Rsum (map Rabs x)) kl_eps) x.
(** [torch.log], NaN or infinite outside the positive numbers. *)
Definition ln_opt (x : R) : option R := if Rlt_dec 0 x then Some (ln x) else None.
(** [KLDivergenceLoss.__call__], loss.py:339-410, for one sample; [torch.nn.KLDivLoss(log_target=True)] is
    [exp(target) * (target - input)]. *)
Definition kl_term (prediction truth : R) : option R :=
  obind (ln_opt (prediction + kl_eps)) (fun input => obind (ln_opt (truth + kl_eps)) (fun target =>
  Some (exp target * (target - input)))).
Definition kl_loss (prediction truth : list R) : res (option R) :=
  if same_length prediction truth
  then Ok (obind (collect (map (fun '(q, p) => kl_term q p) (combine (distribution prediction) (distribution truth))))
             (fun terms => Some (Rsum terms)))
  else Err ShapeError.

(** [AngleLoss.__call__], loss.py:430-459: the first three components. *)
Definition first_three (x : hvec) : point := vec (he x) (hn x) (hu x).
Definition angle_loss (prediction truth : hvec) : R :=
  acos (clamp (-1) 1 (dot (normalize (first_three prediction)) (normalize (first_three truth)))).
(** [CosineSimilarityLoss.__call__], loss.py:479-506, with [torch.nn.CosineSimilarity(dim=-1)] on all four components. *)
Definition hnorm (x : hvec) : R := sqrt (hdot x x).
Definition cosine_similarity (x y : hvec) : R := hdot x y / (Rmax (hnorm x) (/ 10 ^ 8) * Rmax (hnorm y) (/ 10 ^ 8)).
Definition cosine_loss (prediction truth : hvec) : R := 1 - cosine_similarity prediction truth.

(** [reduce_loss_per_sample], loss.py:509-549: the samples of each heliostat, passed to the reduction row by row. *)
Fixpoint rows_of {A} (n k : nat) (l : list A) : list (list A) :=
  match n with O => [] | S n' => firstn k l :: rows_of n' k (skipn k l) end.
Definition reduce_loss_per_sample {A} (loss : list R) (samples : nat) (reduction : list R -> A) : res (list A) :=
  if (samples =? 0)%nat then Err ZeroDivisionError
  else let heliostats := (length loss / samples)%nat in
       Ok (map reduction (rows_of heliostats samples (firstn (heliostats * samples) loss))).

(** ** Regularizers, regularizers.py:60-186 *)
(** The displacement of the control points of one facet with [n] rows and [m] columns. *)
Definition displacement (current original : nat -> nat -> point) (i j : nat) : point := vsub (current i j) (original i j).
(** Padding by replication and the four neighbours, regularizers.py:113-127. *)
Definition laplace (n m : nat) (d : nat -> nat -> point) (i j : nat) : point :=
  vsub (vsub (vsub (vsub (smul 4 (d i j)) (d (i - 1)%nat j)) (d (Nat.min (i + 1) (n - 1)) j)) (d i (j - 1)%nat)) (d i (Nat.min (j + 1) (m - 1))).
Definition facet_mean (n m : nat) (f : nat -> nat -> point) : option R :=
  div_opt (Rsum (map (fun i => Rsum (map (fun j => dot (f i j) (f i j)) (seq 0 m))) (seq 0 n))) (3 * INR n * INR m).
Definition sum_facets (l : list (option R)) : option R := obind (collect l) (fun l => Some (Rsum l)).
(** [SmoothnessRegularizer.__call__] and [IdealSurfaceRegularizer.__call__] for one heliostat with the given facets
    and [reduction_dimensions = (1,)], as created in surface_reconstructor.py:938-945. *)
Definition smoothness (n m : nat) (facets : list ((nat -> nat -> point) * (nat -> nat -> point))) : option R :=
  sum_facets (map (fun '(current, original) => facet_mean n m (laplace n m (displacement current original))) facets).
Definition ideal_surface (n m : nat) (facets : list ((nat -> nat -> point) * (nat -> nat -> point))) : option R :=
  sum_facets (map (fun '(current, original) => facet_mean n m (displacement current original)) facets).
