(** Model of [artist/scenario/surface_generator.py] and of [create_planar_nurbs_control_points]. *)
From Coq Require Import List Arith ZArith Reals Bool.
From Verif Require Import RealSums ModelField ModelVectors ModelTransforms ModelLBVH ModelNurbs ModelCoordinates ModelTraining.
Import ListNotations.
Local Open Scope R_scope.

(** A facet as stored in a [FacetConfig]: control points, the two canting vectors and the translation vector. The degrees
    are those of the generator for all facets; the facet key is left out. *)
Definition stored_facet : Type := net * (point * point * hvec).

(** [create_planar_nurbs_control_points], nurbs/utils.py:52-121, for all facets: the extents are the norms of the canting
    vectors (their fourth component is zero). *)
Definition planar_control_points (n_u n_v : nat) (cantings : list (point * point)) : list net :=
  map (fun '(c_e, c_n) => planar_net n_u n_v (norm c_e) (norm c_n)) cantings.

(** [SurfaceGenerator.generate_ideal_surface_config], surface_generator.py:378-436: one facet for each translation. *)
Definition ideal_surface (n_u n_v : nat) (cantings : list (point * point)) (translations : list hvec) : res (list stored_facet) :=
  map_res (fun i =>
    match nth_error (planar_control_points n_u n_v cantings) i, nth_error translations i, nth_error cantings i with
    | Some c, Some t, Some (c_e, c_n) => Ok (c, (c_e, c_n, t))
    | _, _, _ => Err IndexError
    end) (seq 0 (length translations)).

(** ** Fitting, [SurfaceGenerator.fit_nurbs], surface_generator.py:71-223 *)
(** The initial control points, lines 136-174: an upright flat grid around the origin with the extent of the points;
    [max] and [min] of an empty tensor raise. *)
Definition initial_net (n_u n_v : nat) (points : list point) : res net :=
  match points with
  | [] => Err RuntimeError
  | _ =>
      let width := Rmax_list (map pe points) - Rmin_list (map pe points) in
      let height := Rmax_list (map pn points) - Rmin_list (map pn points) in
      Ok {| n_u := n_u; n_v := n_v;
            control := fun i j => vec (linspace (- width / 2) (width / 2) n_u i) (linspace (- height / 2) (height / 2) n_v j) 0 |}
  end.
(** The evaluation points, lines 133-134 and 177-181. *)
Definition fit_parameters (points : list point) : res (list (R * R)) :=
  bind (normalize_column (map pe points)) (fun es => bind (normalize_column (map pn points)) (fun ns => Ok (combine es ns))).

(** [torch.nn.MSELoss] on rows of four components. *)
Definition square_error (a b : hvec) : R :=
  (he a - he b) ^ 2 + (hn a - hn b) ^ 2 + (hu a - hu b) ^ 2 + (hw a - hw b) ^ 2.
Definition mse (a b : list hvec) : R := Rsum (map (fun '(x, y) => square_error x y) (combine a b)) / (4 * INR (length a)).
Inductive fit_method := FromPoints | FromNormals.
(** The loss of one epoch, lines 197-213. [None]: the surface could not be evaluated; different numbers of points and
    normals raise (a single normal would be broadcast, which is left out). *)
Definition fit_loss (p q : nat) (method : fit_method) (parameters : list (R * R)) (points normals : list hvec) (c : net) : option (res R) :=
  option_map (fun rows =>
    match method with
    | FromPoints => if (length rows =? length points)%nat then Ok (mse (map fst rows) points) else Err RuntimeError
    | FromNormals => if (length rows =? length normals)%nat then Ok (mse (map snd rows) normals) else Err RuntimeError
    end) (collect (map (fun '(x, y) => evaluate c p q x y) parameters)).

(** The loop, lines 193-221: [S] is the state of optimizer and scheduler, [step] one optimizer and scheduler step. The
    loop ends after the first epoch whose loss is not above the tolerance. Result: the control points and the number of
    optimizer steps. *)
Fixpoint fit_loop {S} (loss : net -> option (res R)) (step : S -> net -> S * net) (tolerance : R) (epochs : nat) (state : S) (c : net) (steps : nat)
  : option (res (net * nat)) :=
  match epochs with
  | O => Some (Ok (c, steps))
  | Datatypes.S rest =>
      match loss c with
      | None => None
      | Some (Err e) => Some (Err e)
      | Some (Ok l) =>
          let '(state, c') := step state c in
          if Rgtb l tolerance then fit_loop loss step tolerance rest state c' (Datatypes.S steps) else Some (Ok (c', Datatypes.S steps))
      end
  end.
(** The condition [epoch <= max_epoch] holds for [max_epoch + 1] epochs. *)
Definition fit_nurbs {S} (n_u n_v p q : nat) (method : fit_method) (step : S -> net -> S * net) (state : S) (tolerance : R) (max_epoch : nat)
  (points normals : list point) : option (res (net * nat)) :=
  match initial_net n_u n_v points, fit_parameters points with
  | Ok c, Ok parameters =>
      fit_loop (fit_loss p q method parameters (map (fun x => hv (pe x) (pn x) (pu x) 1) points) (map (fun x => hv (pe x) (pn x) (pu x) 0) normals))
        step tolerance (Datatypes.S max_epoch) state c 0
  | Err e, _ => Some (Err e)
  | _, Err e => Some (Err e)
  end.

(** ** [SurfaceGenerator.generate_fitted_surface_config], surface_generator.py:225-376 *)
(** [rows[::step]]. *)
Fixpoint every_from {A} (k skip : nat) (l : list A) : list A :=
  match l with
  | [] => []
  | x :: rest => match skip with O => x :: every_from k (k - 1) rest | S s => every_from k s rest end
  end.
Definition strided {A} (k : nat) (l : list A) : res (list A) := if (k =? 0)%nat then Err ValueError else Ok (every_from k 0 l).
Definition shortest {A} (rows : list (list A)) : nat := match rows with [] => 0%nat | r :: rest => fold_left Nat.min (map (@length A) rest) (length r) end.
(** The rows cut to the shortest facet and thinned out, lines 289-321; [min] of no facets raises. *)
Definition reduced {A} (stride : nat) (rows : list (list A)) : res (list (list A)) :=
  match rows with [] => Err ValueError | _ => map_res (fun r => strided stride (firstn (shortest rows) r)) rows end.
(** The stored translations, lines 323-327. *)
Definition fitted_translation (method : fit_method) (t : hvec) : hvec :=
  match method with FromPoints => hv 0 0 0 0 | FromNormals => t end.
(** Lines 360-373: the fitted control points are moved by the translation, which is stored as well. *)
Definition moved (c : net) (t : hvec) : net :=
  {| n_u := n_u c; n_v := n_v c; control := fun i j => vadd (control c i j) (vec (he t) (hn t) (hu t)) |}.
Definition fitted_facet (method : fit_method) (c : net) (canting : point * point) (t : hvec) : stored_facet :=
  (moved c (fitted_translation method t), (fst canting, snd canting, fitted_translation method t)).
(** The loop over the facets, lines 338-373; every facet starts with the state of optimizer and scheduler left by the
    previous one, which the model leaves open: [states] gives it for each facet. *)
Definition fitted_surface {S} (n_u n_v p q : nat) (method : fit_method) (step : S -> net -> S * net) (states : nat -> S) (tolerance : R)
  (max_epoch stride : nat) (cantings : list (point * point)) (translations : list hvec) (points normals : list (list point))
  : option (res (list stored_facet)) :=
  match reduced stride points, reduced stride normals with
  | Ok points, Ok normals =>
      option_map (fun facets => map_res (fun f => f) facets) (collect (map (fun i =>
        match nth_error points i, nth_error normals i, nth_error cantings i, nth_error translations i with
        | Some ps, Some ns, Some canting, Some t =>
            option_map (fun r => match r with Ok (c, _) => Ok (fitted_facet method c canting t) | Err e => Err e end)
              (fit_nurbs n_u n_v p q method step (states i) tolerance max_epoch ps ns)
        | _, _, _, _ => Some (Err IndexError)
        end) (seq 0 (length points))))
  | Err e, _ => Some (Err e)
  | _, Err e => Some (Err e)
  end.
