(** Vocabulary of the actuator properties (C34, C35).  A linear actuator, the pivot radius and the offset form a
    triangle: the stroke lies opposite to the angle between the radius and the offset. *)
From Coq Require Import Reals.
From Verif Require Import ModelActuators.
Local Open Scope R_scope.

(** [angle] is opposite to [stroke] in the triangle (law of cosines). *)
Definition triangle (offset radius stroke angle : R) : Prop :=
  0 <= stroke /\ 0 <= angle <= PI /\ stroke * stroke = offset * offset + radius * radius - 2 * offset * radius * cos angle.
(** Reachable: away from the stretched and the folded triangle by the code's margins. *)
Definition reachable (offset radius stroke angle : R) : Prop :=
  triangle offset radius stroke angle
  /\ Rabs (offset - radius) + / 10 ^ 6 <= stroke <= offset + radius - / 10 ^ 6
  /\ -1 + / 10 ^ 6 <= cos angle <= 1 - / 10 ^ 6.
(** The stroke belonging to a motor position. *)
Definition stroke_of (a : actuator) (motor : R) : R :=
  motor / a_increment (physics_informed a) + a_initial_stroke (physics_informed a).
Definition in_reach (a : actuator) (motor : R) : Prop :=
  exists angle, reachable (a_offset (physics_informed a)) (a_radius (physics_informed a)) (stroke_of a motor) angle.
(** The turning direction is 0 or 1: a longer stroke turns forwards for 0 and backwards for 1. *)
Definition direction_known (a : actuator) : Prop := a_clockwise a = 0 \/ a_clockwise a = 1.
Definition turning (a : actuator) : R := if Req_EM_T (a_clockwise a) 1 then -1 else 1.
