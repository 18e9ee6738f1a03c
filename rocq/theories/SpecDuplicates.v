(** Vocabulary of the property about equal names (C119). *)
From Coq Require Import List String.
From Verif Require Import ModelScenario.
Import ListNotations.

(** A configuration with other heliostats. *)
Definition with_heliostats (c : scenario_config) (l : list heliostat_config) : scenario_config :=
  {| sc_position := sc_position c; sc_planar := sc_planar c; sc_cylindrical := sc_cylindrical c;
     sc_light_sources := sc_light_sources c; sc_prototype := sc_prototype c; sc_heliostats := l |}.
(** All heliostats of a loaded scenario. *)
Definition all_heliostats (s : scenario) : list heliostat := flat_map g_heliostats (s_groups s).
