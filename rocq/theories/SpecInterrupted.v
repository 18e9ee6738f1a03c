(** Vocabulary of C132. *)
From Coq Require Import List String.
From Verif Require Import ModelScenario.
Import ListNotations.

(** The same configuration with other heliostats. *)
Definition with_heliostats (c : scenario_config) (hs : list heliostat_config) : scenario_config :=
  {| sc_position := sc_position c; sc_planar := sc_planar c; sc_cylindrical := sc_cylindrical c;
     sc_light_sources := sc_light_sources c; sc_prototype := sc_prototype c; sc_heliostats := hs |}.
(** The same heliostat with all parts of the prototype. *)
Definition without_parts (h : heliostat_config) : heliostat_config :=
  {| h_name := h_name h; h_id := h_id h; h_position := h_position h; h_surface := None; h_kinematics := None; h_actuators := None |}.
