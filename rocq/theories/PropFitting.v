(** C129: facets of a fitted surface. *)
From Coq Require Import List Arith ZArith Reals Bool Lia Lra.
From Verif Require Import ModelField ModelVectors ModelTransforms ModelLBVH ModelNurbs ModelTraining ModelSurfaceGenerator ModelFitting SpecFitting ProofsFitting.
Import ListNotations.
Local Open Scope R_scope.

(** C129 (full statement: the fit of a facet only depends on the measurements of this facet, not on the facets or heliostats fitted
    before with the same optimizer and scheduler).  The first facet is fitted as if it was the only one, ... *)
Theorem C129_first_partial : forall Q (fresh : Q) initial scheduler tolerance max_epoch m t ts c cs,
  fit_tasks fresh initial scheduler tolerance max_epoch m (t :: ts) = Some (Ok (c :: cs)) ->
  fit_tasks fresh initial scheduler tolerance max_epoch m [t] = Some (Ok [c]).
Proof. intros Q fresh initial scheduler tolerance max_epoch. exact (tasks_first fresh initial tolerance max_epoch scheduler). Qed.
Print Assumptions C129_first_partial.

(** ... without a scheduler all facets are, for every optimizer, ... *)
Theorem C129_unscheduled_partial : forall Q (fresh : Q) initial tolerance max_epoch m ts cs,
  fit_tasks fresh initial None tolerance max_epoch m ts = Some (Ok cs)
  <-> Forall2 (fun t c => fit_tasks fresh initial None tolerance max_epoch m [t] = Some (Ok [c])) ts cs.
Proof. intros Q fresh initial tolerance max_epoch. exact (tasks_alone fresh initial tolerance max_epoch). Qed.
Print Assumptions C129_unscheduled_partial.

(** ... and a surface generated with a shared scheduler is one of the fitted surfaces that C91, C92 and C127 are about. *)
Theorem C129_generated_partial : forall Q (fresh : Q) initial scheduler nu nv p q method optimize m tolerance max_epoch stride cantings translations points normals facets,
  shared_surface fresh initial scheduler nu nv p q method optimize m tolerance max_epoch stride cantings translations points normals = Some (Ok facets) ->
  exists T (step : T -> net -> T * net) states, fitted_surface nu nv p q method step states tolerance max_epoch stride cantings translations points normals = Some (Ok facets).
Proof. exact shared_is_fitted. Qed.
Print Assumptions C129_generated_partial.

(** The scheduler remembers the best loss of the facets before.  Take any facet whose loss falls in every epoch by more than the
    threshold when it is fitted alone, so that its learning rate is never reduced, and any optimizer whose steps depend on the learning
    rate.  Fitted a second time after itself, the facet has not reached the remembered loss when the patience is over, its learning rate
    is reduced, and the same measurements give other control points. *)
Theorem C129_independent_refuted : forall Q (fresh : Q) initial tolerance s (t : task Q) (state : nat -> Q * net) l,
  let lower := Rmax (initial * factor s) (lowest s) in
  let last := state (patience s + 1)%nat in
  state 0%nat = (fresh, start t) -> (forall k, state (S k) = optimize t (fst (state k)) initial (snd (state k))) ->
  (forall k, (k <= patience s + 1)%nat -> loss t (snd (state k)) = Some (Ok (l k)) /\ tolerance < l k /\ 0 <= l k) ->
  (forall k, (k <= patience s)%nat -> gains (tolerated s) (l k) (l (S k))) -> sensible (tolerated s) -> / 10 ^ 8 < initial - lower ->
  snd (optimize t (fst last) lower (snd last)) <> snd (optimize t (fst last) initial (snd last)) ->
  exists a b, fit_tasks fresh initial (Some s) tolerance (patience s + 1) blank [t] = Some (Ok [a])
  /\ fit_tasks fresh initial (Some s) tolerance (patience s + 1) blank [t; t] = Some (Ok [a; b]) /\ a <> b.
Proof. exact second_facet. Qed.
Print Assumptions C129_independent_refuted.

(** A facet whose loss is the distance of its surface to the height one, and an optimizer that raises the surface by the learning rate. *)
Definition level (h : R) : net := {| n_u := 2; n_v := 2; control := fun _ _ => vec 0 0 h |}.
Definition rising : task unit :=
  {| start := level 0; loss := fun c => Some (Ok (1 - pu (control c 0%nat 0%nat))); optimize := fun q r c => (q, level (pu (control c 0%nat 0%nat) + r)) |}.
Definition halving : plateau := {| factor := 1 / 2; patience := 1; tolerated := Absolute (1 / 100); cooldown := 0; lowest := 1 / 10 ^ 6 |}.
Example C129_case : let state k := (tt, level (INR k / 10)) in let l k := 1 - INR k / 10 in
  (forall k, state (S k) = optimize rising (fst (state k)) (1 / 10) (snd (state k)))
  /\ (forall k, (k <= 2)%nat -> loss rising (snd (state k)) = Some (Ok (l k)) /\ 0 < l k /\ 0 <= l k)
  /\ (forall k, (k <= 1)%nat -> gains (tolerated halving) (l k) (l (S k))) /\ sensible (tolerated halving)
  /\ / 10 ^ 8 < 1 / 10 - Rmax (1 / 10 * factor halving) (lowest halving)
  /\ snd (optimize rising tt (Rmax (1 / 10 * factor halving) (lowest halving)) (level (2 / 10))) <> snd (optimize rising tt (1 / 10) (level (2 / 10)))
  /\ exists a, fit_tasks tt (1 / 10) None 0 0 blank [rising; rising] = Some (Ok [a; a]).
Proof.
  cbv zeta. cbn [tolerated halving gains sensible factor lowest rising loss optimize fst snd level control pu vec]. split; [|split; [|split; [|split; [|split; [|split]]]]].
  - intros k. rewrite S_INR. do 2 f_equal. lra.
  - intros k K. assert (INR k <= 2) by (replace 2 with (INR 2) by reflexivity; apply le_INR; lia). repeat split; auto; lra.
  - intros k _. rewrite S_INR. lra.
  - lra.
  - rewrite Rmax_left by lra. lra.
  - rewrite Rmax_left by lra. intros C. apply (f_equal (fun c => pu (control c 0%nat 0%nat))) in C. cbn in C. lra.
  - exists (level (0 + 1 / 10)). unfold fit_tasks, fit_task. cbn [fit_epochs rising loss start level control pu vec fit_step optimize]. destruct (Rgtb (1 - 0) 0); reflexivity.
Qed.
