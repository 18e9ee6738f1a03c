(** Model of what happens to gradients that are not finite: [kinematics_reconstructor.py], both reconstructions.  A number is [None]
    if it is infinite or not a number; all operations below give such a result if one of their arguments is. *)
From Coq Require Import List Arith Reals.
From Verif Require Import RealSums.
Import ListNotations.
Local Open Scope R_scope.

Definition number := option R.
Definition lift2 (f : R -> R -> R) (a b : number) : number := match a, b with Some x, Some y => Some (f x y) | _, _ => None end.
Definition lift (f : R -> R) (a : number) : number := match a with Some x => Some (f x) | None => None end.
Definition total (l : list number) : number := fold_right (lift2 Rplus) (Some 0) l.

(** Gradient of the loss with respect to one rotation deviation of one heliostat: the loss is the mean over heliostats of a reduction
    over their samples, and only the samples of the heliostat depend on the parameter.  A sample is the derivative of the reduction
    with respect to its loss and the derivative of its loss; the product is not finite if the latter is not, even if the former is
    zero. *)
Definition loss_gradient (heliostats : nat) (samples : list (R * number)) : number :=
  lift (fun s => s / INR heliostats) (total (map (fun '(w, d) => lift (Rmult w) d) samples)).
(** The mean of the reconstruction from alignments, kinematics_reconstructor.py:521-531. *)
Definition of_mean (derivatives : list number) : list (R * number) := map (fun d => (/ INR (length derivatives), d)) derivatives.
(** The median of the reconstruction from fluxes, kinematics_reconstructor.py:614-620: it has derivative one with respect to the median
    sample [median] and zero with respect to the others. *)
Definition of_median (median : nat) (derivatives : list number) : list (R * number) :=
  map (fun '(k, d) => (if (k =? median)%nat then 1 else 0, d)) (combine (seq 0 (length derivatives)) derivatives).
(** [nan_to_num_(nan=0.0, posinf=0.0, neginf=0.0)], kinematics_reconstructor.py:824-826. *)
Definition nan_to_num (g : number) : number := match g with Some x => Some x | None => Some 0 end.

(** One parameter with the state of [torch.optim.Adam] for it (defaults for everything but the learning rate and the
    first of the [betas], which are set by the scheduler and are the two parts of [rate]). *)
Record adam_state := { value : number; first : number; second : number; step : nat }.
Definition adam (rate : R * R) (st : adam_state) (g : number) : adam_state :=
  let t := S (step st) in
  let m := lift2 (fun m g => snd rate * m + (1 - snd rate) * g) (first st) g in
  let v := lift2 (fun v g => 999 / 1000 * v + (1 - 999 / 1000) * (g * g)) (second st) g in
  let change := lift2 (fun m v => fst rate * (m / (1 - snd rate ^ t)) / (sqrt (v / (1 - (999 / 1000) ^ t)) + / 10 ^ 8)) m v in
  {| value := lift2 Rminus (value st) change; first := m; second := v; step := t |}.

(** An epoch of the reconstruction from alignments, kinematics_reconstructor.py:809-834: the gradient is cleaned. *)
Definition alignment_epoch (rate : R * R) (heliostats : nat) (st : adam_state) (derivatives : list number) : adam_state :=
  adam rate st (nan_to_num (loss_gradient heliostats (of_mean derivatives))).
(** An epoch of the reconstruction from fluxes, kinematics_reconstructor.py:976-1001 with 638-648: the mean over the ranks that share
    the group is used as it is.  [ranks] has, per rank, its number of heliostats, the median sample of the heliostat and the
    derivatives of its samples. *)
Definition flux_epoch (rate : R * R) (st : adam_state) (ranks : list (nat * nat * list number)) : adam_state :=
  adam rate st (lift (fun s => s / INR (length ranks))
    (total (map (fun '(heliostats, median, derivatives) => loss_gradient heliostats (of_median median derivatives)) ranks))).
Definition flux_epochs (rate : nat -> R * R) (st : adam_state) (history : list (list (nat * nat * list number))) : adam_state :=
  fold_left (fun st '(e, ranks) => flux_epoch (rate e) st ranks) (combine (seq 0 (length history)) history) st.
