(** C133: blocking and the order in which heliostats and samples are listed. *)
From Coq Require Import List Arith ZArith Reals Lia Lra Permutation.
From Verif Require Import RealSums ModelField ModelLBVH SpecLBVH ModelBlocking ModelSplatting ModelIntersections ModelTrace SpecOrder ProofsLBVHRefuted SpecSplatting ProofsTraceBatch ProofsOrder ProofsOrderRefuted.
Import ListNotations.
Local Open Scope R_scope.

(** C133 (full statement: tracing a batch with blocking gives every sample the same bitmap and factors in whatever order the samples
    and the heliostats of the scenario are listed).  The order of the samples never matters.  The order of the heliostats does not matter if
    no two mirrors have the same Morton code, whatever sorting [torch.sort] does among equal keys.  Missing: with three mirrors in one cell
    the statement is false, since which of them is tested at all depends on their order; two mirrors in one cell are not covered. *)
Theorem C133_samples : forall sort fuel width height magnitude extinction reflectivity blocking samples samples' rows, Permutation samples samples' ->
  trace_samples sort fuel width height magnitude extinction reflectivity blocking samples = Traced rows ->
  exists rows', trace_samples sort fuel width height magnitude extinction reflectivity blocking samples' = Traced rows'
  /\ List.length rows' = List.length samples' /\ Permutation (combine samples rows) (combine samples' rows').
Proof. exact samples_reordered. Qed.
Print Assumptions C133_samples.
(** The scene of C66_blocking_refuted, in which the second sample loses at least three quarters of its flux, with the samples swapped. *)
Example C133_samples_case : forall sort, sorts sort -> exists ta tb,
  trace_samples sort 9 3 3 1 0 1 (Some stacked) [(upward (-3) (-2), 2%nat); (upward (-5) 95, 1%nat)] = Traced [Some tb; Some ta] /\ image_total (t_bitmap tb) <= 1/4.
Proof.
  intros sort HS. destruct (stacked_pair sort HS) as (ta & tb & E & B). exists ta, tb. split; auto.
  destruct (C133_samples sort 9 3 3 1 0 1 (Some stacked) [(upward (-5) 95, 1%nat); (upward (-3) (-2), 2%nat)] [(upward (-3) (-2), 2%nat); (upward (-5) 95, 1%nat)] _ (perm_swap _ _ []) E) as (rows' & E' & L & P).
  rewrite E'. f_equal.
  destruct rows' as [|x [|y [|z rows']]]; try discriminate. cbn [combine] in P.
  assert (X : In (upward (-3) (-2), 2%nat, x) [(upward (-5) 95, 1%nat, Some ta); (upward (-3) (-2), 2%nat, Some tb)]) by (apply (Permutation_in _ (Permutation_sym P)); left; auto).
  assert (Y : In (upward (-5) 95, 1%nat, y) [(upward (-5) 95, 1%nat, Some ta); (upward (-3) (-2), 2%nat, Some tb)]) by (apply (Permutation_in _ (Permutation_sym P)); right; left; auto).
  destruct X as [X|[X|[]]], Y as [Y|[Y|[]]]; congruence.
Qed.

Theorem C133_mirrors_partial : forall sort sort' fuel width height magnitude extinction reflectivity perm corners corners' codes samples samples',
  sorts sort -> sorts sort' -> relisted perm corners corners' -> renumbered perm samples samples' ->
  morton_codes (/ 10 ^ 6) (map centroid corners) = Ok codes -> NoDup codes ->
  trace_samples sort' fuel width height magnitude extinction reflectivity (Some corners') samples'
  = trace_samples sort fuel width height magnitude extinction reflectivity (Some corners) samples.
Proof. exact mirrors_relisted. Qed.
Print Assumptions C133_mirrors_partial.

(** Whatever way of sorting is used, there are mirrors of which three share a cell and a ray that is not blocked at all in one order of
    the mirrors and is blocked to at least three quarters in another. *)
Theorem C133_mirrors_refuted : forall sort, sorts sort -> exists perm corners corners' r, relisted perm corners corners' /\ sane_ray r
  /\ (r_owner r < List.length corners)%nat /\ nth_error perm (r_owner r) = Some (r_owner r)
  /\ forall fuel, (39 <= fuel)%nat -> exists b, batch_blocked sort fuel corners [r] = Blocked [Some 0] /\ batch_blocked sort fuel corners' [r] = Blocked [Some b] /\ 3/4 <= b.
Proof. exact same_cell_order. Qed.
Print Assumptions C133_mirrors_refuted.

(** Seven mirrors with different codes, listed backwards; the sample of the last heliostat then is a sample of the first. *)
Example C133_case : relisted [6; 5; 4; 3; 2; 1; 0]%nat seven (rev seven) /\ (exists codes, morton_codes (/ 10 ^ 6) (map centroid seven) = Ok codes /\ NoDup codes)
  /\ forall s : sample, renumbered [6; 5; 4; 3; 2; 1; 0]%nat [(s, 6%nat); (s, 2%nat)] [(s, 0%nat); (s, 4%nat)].
Proof.
  split; [|split].
  - split; [|split; [reflexivity|]].
    + change [6; 5; 4; 3; 2; 1; 0]%nat with (rev (seq 0 7)). apply Permutation_sym, Permutation_rev.
    + intros k j H. do 7 (destruct k as [|k]; [injection H as <-; reflexivity|]). destruct k; discriminate.
  - exists seven_codes. split; [apply seven_morton|apply seven_nodup].
  - intros s. repeat constructor.
Qed.
