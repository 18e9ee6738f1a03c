(** Vocabulary of the property about moved scenes (C121). *)
From Coq Require Import List Reals.
From Verif Require Import ModelVectors ModelIntersections ModelTrace ModelKinematics.
Local Open Scope R_scope.

(** Everything that has a place is moved by [v]; directions, sizes and angles stay. *)
Definition moved (v p : point) : point := vadd p v.
Definition moved_target (v : point) (t : target) : target :=
  match t with
  | PlanarTarget p => PlanarTarget {| plane_center := moved v (plane_center p); plane_normal := plane_normal p; plane_width := plane_width p; plane_height := plane_height p |}
  | CylindricalTarget c => CylindricalTarget {| cyl_center := moved v (cyl_center c); cyl_axis := cyl_axis c; cyl_normal := cyl_normal c;
                                                cyl_radius := cyl_radius c; cyl_height := cyl_height c; cyl_opening := cyl_opening c |}
  end.
Definition moved_sample (v : point) (s : sample) : sample :=
  {| s_incident := s_incident s; s_surface := map (fun '(p, n) => (moved v p, n)) (s_surface s); s_target := moved_target v (s_target s);
     s_distortions := s_distortions s |}.
(** A heliostat that is to be aligned: its position and its aim point. *)
Definition moved_heliostat (v : point) (k : kinematics) : kinematics :=
  {| k_position := moved v (k_position k); k_initial_orientation := k_initial_orientation k;
     k_translation_1 := k_translation_1 k; k_translation_2 := k_translation_2 k; k_translation_c := k_translation_c k;
     k_tilt_1n := k_tilt_1n k; k_tilt_1u := k_tilt_1u k; k_tilt_2e := k_tilt_2e k; k_tilt_2n := k_tilt_2n k;
     k_drive_1 := k_drive_1 k; k_drive_2 := k_drive_2 k |}.
Definition moved_request (v : point) (r : request) : request :=
  {| rq_kinematics := moved_heliostat v (rq_kinematics r); rq_incident := rq_incident r; rq_aim := moved v (rq_aim r) |}.
