(** Model of how the facets of a fitted surface share one optimizer and one scheduler: [SurfaceGenerator.generate_fitted_surface_config]
    and [SurfaceGenerator.fit_nurbs], artist/scenario/surface_generator.py.  ModelSurfaceGenerator leaves the state in which the fit of
    a facet starts open; here it is what the fit of the facet before left behind. *)
From Coq Require Import List Arith Reals Bool.
From Verif Require Import ModelField ModelVectors ModelTransforms ModelLBVH ModelNurbs ModelTraining ModelSurfaceGenerator.
Import ListNotations.
Local Open Scope R_scope.

(** The scheduler given by the user, surface_generator.py:233 and 265-266, is [torch.optim.lr_scheduler.ReduceLROnPlateau] (mode "min", documented
    behaviour); the other schedulers of torch would take the loss, which they are given in line 214, for the number of the epoch, and
    are left out.  The threshold is relative to the best loss or absolute. *)
Inductive threshold := Relative (t : R) | Absolute (t : R).
Record plateau := { factor : R; patience : nat; tolerated : threshold; cooldown : nat; lowest : R }.
(** What the scheduler remembers: the best loss ([None] is infinity), the number of epochs without improvement and the rest of the
    cooldown. *)
Record memory := { best_loss : option R; without : nat; rest : nat }.
Definition blank : memory := {| best_loss := None; without := 0; rest := 0 |}.
Definition improves (t : threshold) (loss : R) (best : option R) : bool :=
  match best with
  | None => match t with Relative x => if Rlt_dec x 1 then true else false | Absolute _ => true end
  | Some b => match t with
              | Relative x => if Rlt_dec loss (b * (1 - x)) then true else false
              | Absolute x => if Rlt_dec loss (b - x) then true else false
              end
  end.
(** [scheduler.step(loss)]: the new memory and the new learning rate of the optimizer. *)
Definition plateau_step (s : plateau) (state : memory * R) (loss : R) : memory * R :=
  let '(m, rate) := state in
  let better := improves (tolerated s) loss (best_loss m) in
  let best := if better then Some loss else best_loss m in
  let bad := if better then 0%nat else S (without m) in
  let bad := if (0 <? rest m)%nat then 0%nat else bad in
  if (patience s <? bad)%nat
  then let reduced := Rmax (rate * factor s) (lowest s) in
       ({| best_loss := best; without := 0; rest := cooldown s |}, if Rlt_dec (/ 10 ^ 8) (rate - reduced) then reduced else rate)
  else ({| best_loss := best; without := bad; rest := rest m - 1 |}, rate).

(** The loop of [fit_nurbs], lines 191-221, as [fit_loop] but with the state it ends in. *)
Fixpoint fit_epochs {S} (loss : net -> option (res R)) (step : S -> net -> S * net) (tolerance : R) (epochs : nat) (state : S) (c : net)
  : option (res (S * net)) :=
  match epochs with
  | O => Some (Ok (state, c))
  | Datatypes.S others =>
      match loss c with
      | None => None
      | Some (Err e) => Some (Err e)
      | Some (Ok l) =>
          let '(state, c') := step state c in
          if Rgtb l tolerance then fit_epochs loss step tolerance others state c' else Some (Ok (state, c'))
      end
  end.

Section Sharing.
(** [Q]: what the optimizer keeps for the parameters it was given.  The parameter groups are cleared and the new control points added for
    every facet, lines 189-192: the optimizer has no state for them yet ([fresh]) and its learning rate is the one it was created
    with ([initial]).  The scheduler is not touched. *)
Context {Q : Type}.
Variables (fresh : Q) (initial : R) (scheduler : option plateau) (tolerance : R) (max_epoch : nat).
(** A facet: the control points its fit starts from, the loss and a step of the optimizer with the learning rate and the
    gradient of this loss (automatic differentiation and optimizer are arbitrary). *)
Record task := { start : net; loss : net -> option (res R); optimize : Q -> R -> net -> Q * net }.
(** Lines 195-216. *)
Definition fit_step (t : task) (state : Q * (memory * R)) (c : net) : (Q * (memory * R)) * net :=
  let '(q, (m, rate)) := state in
  let '(q', c') := optimize t q rate c in
  ((q', match scheduler, loss t c with Some s, Some (Ok l) => plateau_step s (m, rate) l | _, _ => (m, rate) end), c').
Definition fit_task (m : memory) (t : task) : option (res (memory * net)) :=
  match fit_epochs (loss t) (fit_step t) tolerance (S max_epoch) (fresh, (m, initial)) (start t) with
  | Some (Ok ((_, (m', _)), c)) => Some (Ok (m', c))
  | Some (Err e) => Some (Err e)
  | None => None
  end.
(** The loop over the facets, lines 338-361; the same for the facets of several heliostats, paint_scenario_parser.py:652-663, which
    are all given the same scheduler. *)
Fixpoint fit_tasks (m : memory) (ts : list task) : option (res (list net)) :=
  match ts with
  | [] => Some (Ok [])
  | t :: others =>
      match fit_task m t with
      | Some (Ok (m', c)) => option_map (fun r => bind r (fun cs => Ok (c :: cs))) (fit_tasks m' others)
      | Some (Err e) => Some (Err e)
      | None => None
      end
  end.
End Sharing.
Arguments task : clear implicits.

(** [generate_fitted_surface_config], lines 277-376, with the shared scheduler; [optimize] gives for the points and normals of a facet
    the step of the optimizer.  Errors of the measurements of any facet are reported before a fit is started. *)
Definition shared_surface {Q} (fresh : Q) (initial : R) (scheduler : option plateau) (n_u n_v p q : nat) (method : fit_method)
  (optimize : list point -> list point -> Q -> R -> net -> Q * net) (m : memory) (tolerance : R) (max_epoch stride : nat)
  (cantings : list (point * point)) (translations : list hvec) (points normals : list (list point)) : option (res (list stored_facet)) :=
  match reduced stride points, reduced stride normals with
  | Ok points, Ok normals =>
      match map_res (fun i =>
          match nth_error points i, nth_error normals i, nth_error cantings i, nth_error translations i with
          | Some ps, Some ns, Some canting, Some t =>
              bind (initial_net n_u n_v ps) (fun c => bind (fit_parameters ps) (fun parameters =>
              Ok ({| start := c; loss := fit_loss p q method parameters (map (fun x => hv (pe x) (pn x) (pu x) 1) ps) (map (fun x => hv (pe x) (pn x) (pu x) 0) ns);
                     optimize := optimize ps ns |}, (canting, t))))
          | _, _, _, _ => Err IndexError
          end) (seq 0 (length points)) with
      | Ok tasks => option_map (fun r => bind r (fun cs => Ok (map (fun '(c, (canting, t)) => fitted_facet method c canting t) (combine cs (map snd tasks)))))
                      (fit_tasks fresh initial scheduler tolerance max_epoch m (map fst tasks))
      | Err e => Some (Err e)
      end
  | Err e, _ => Some (Err e)
  | _, Err e => Some (Err e)
  end.
