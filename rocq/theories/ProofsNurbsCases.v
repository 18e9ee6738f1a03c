(** Summaries and concrete cases for C42-C47. *)
From Coq Require Import List Arith ZArith Reals Bool Lra Lia Psatz.
From Verif Require Import RealSums ModelField ModelVectors ProofsVectors ModelTransforms ModelActuators ModelNurbs SpecTransforms SpecNurbs
  ProofsTransforms ProofsBasis ProofsKnots ProofsSurface.
Import ListNotations.
Local Open Scope R_scope.

Theorem knot_vector_all : forall n p, (1 <= p < n)%nat ->
  length (knot_vector n p) = (n + p + 1)%nat
  /\ (forall i, (i <= p)%nat -> knot_of (knot_vector n p) i = 0)
  /\ (forall i, (n <= i < n + p + 1)%nat -> knot_of (knot_vector n p) i = 1)
  /\ non_decreasing (knot_vector n p)
  /\ forall i, (p <= i <= n)%nat -> knot_of (knot_vector n p) i = INR (i - p) / INR (n - p).
Proof.
  intros n p P. split; [apply knots_length|]. split; [intros; apply knot_low; auto|]. split; [intros; apply knot_high; auto|].
  split; [apply knots_non_decreasing; auto|]. intros. apply knot_mid; auto.
Qed.
Lemma knots_case : (1 <= 2 < 4)%nat /\ map (knot_of (knot_vector 4 2)) (seq 0 7) = [0; 0; 0; / 2; 1; 1; 1].
Proof.
  split; [lia|]. cbn [seq map]. rewrite !(knot_low 4 2) by lia. rewrite (knot_mid 4 2 3), !(knot_high 4 2) by lia.
  cbn [Nat.sub INR]. repeat f_equal. lra.
Qed.
Lemma general_at_one : forall n p, (1 <= p < n)%nat -> general_span (knot_vector n p) p 1 = Z.of_nat (n - 1).
Proof.
  intros n p P. apply general_close; [apply knots_length|lia|]. rewrite knot_high by lia. rewrite Rminus_diag_eq, Rabs_R0, Rabs_R1 by auto. lra.
Qed.
Lemma span_case : uniform_span (knot_vector 4 2) 2 (3 / 4) = 3%Z /\ general_shape 1 4 100 = None /\ INR (4 - 2) <= 5 * 10 ^ 4.
Proof.
  split; [|split; [reflexivity|cbn [Nat.sub INR]; lra]]. rewrite uniform_formula by lia. rewrite (floor_unique _ 1); [reflexivity|].
  cbn [Nat.sub INR]. lra.
Qed.
Theorem basis_all : forall knots p i x, non_decreasing knots -> (p <= i)%nat -> (i + p + 1 < length knots)%nat ->
  knot_of knots i <= x < knot_of knots (S i) ->
  exists values derivatives, basis_functions knots p (Z.of_nat i) x = Some (values, derivatives)
  /\ length values = S p /\ length derivatives = S p
  /\ (forall r, (r <= p)%nat -> nth r values 0 = cox_de_boor (knot_of knots) p (i - p + r) x
        /\ nth r derivatives 0 = cox_de_boor' (knot_of knots) p (i - p + r) x)
  /\ (forall r, (r <= p)%nat -> 0 <= nth r values 0)
  /\ Rsum values = 1 /\ Rsum derivatives = 0.
Proof.
  intros knots p i x M P LEN X. 
  assert (MM : mono (knot_of knots) (length knots - 1)) by (intros a b AB; apply M; lia).
  do 2 eexists. split; [apply basis_cox; auto|]. rewrite !map_length, !seq_length. split; [auto|]. split; [auto|].
  split. { intros r R0. rewrite !nth_map_seq by lia. auto. }
  split. { intros r R0. rewrite !nth_map_seq by lia. apply (cox_nonneg _ (length knots - 1)); auto. lia. }
  split.
  - rewrite <- (column_sum (knot_of knots) i (length knots - 1) x MM ltac:(lia) X p ltac:(lia) ltac:(lia)). apply Rsum_map_ext.
    intros r R0. apply in_seq in R0. apply (cox_pol _ _ (length knots - 1)); auto; lia.
  - rewrite <- (derivative_sum (knot_of knots) i (length knots - 1) x ltac:(lia) p ltac:(lia) ltac:(lia)). apply Rsum_map_ext.
    intros r R0. apply in_seq in R0. apply (cox_pol' _ _ (length knots - 1)); auto; lia.
Qed.
Theorem cox_derivative : forall knots p i x k, non_decreasing knots -> (k + p + 1 < length knots)%nat -> (S i < length knots)%nat ->
  knot_of knots i < x < knot_of knots (S i) ->
  derivable_pt_lim (cox_de_boor (knot_of knots) p k) x (cox_de_boor' (knot_of knots) p k x).
Proof.
  intros knots p i x k M K I X.
  assert (MM : mono (knot_of knots) (length knots - 1)) by (intros a b AB; apply M; lia).
  rewrite (cox_pol' _ i (length knots - 1)) by (auto; try lia; lra).
  assert (D : derivable_pt_lim (pol (knot_of knots) i p k) x (pol' (knot_of knots) i p k x)) by (apply (pol_derivative _ _ (length knots - 1)); auto; lia).
  intros eps E. destruct (D eps E) as (d & H).
  set (room := Rmin (x - knot_of knots i) (knot_of knots (S i) - x)).
  assert (RP : 0 < room) by (apply Rmin_pos; lra).
  exists (mkposreal (Rmin d room) (Rmin_pos _ _ (cond_pos d) RP)). intros h H0 HH. cbn [pos] in HH.
  assert (B1 : Rabs h < d) by (eapply Rlt_le_trans; [exact HH|apply Rmin_l]).
  assert (B2 : Rabs h < room) by (eapply Rlt_le_trans; [exact HH|apply Rmin_r]).
  assert (B3 : room <= x - knot_of knots i) by apply Rmin_l. assert (B4 : room <= knot_of knots (S i) - x) by apply Rmin_r.
  pose proof (Rle_abs h) as A1. pose proof (Rle_abs (- h)) as A2. rewrite Rabs_Ropp in A2.
  rewrite (cox_pol _ i (length knots - 1) p k (x + h)), (cox_pol _ i (length knots - 1) p k x) by (auto; try lia; lra).
  apply H; auto.
Qed.
Theorem cox_outside : forall knots p i x k, non_decreasing knots -> (k + p + 1 < length knots)%nat -> (S i < length knots)%nat ->
  knot_of knots i <= x < knot_of knots (S i) -> (k < i - p \/ i < k)%nat -> cox_de_boor (knot_of knots) p k x = 0.
Proof.
  intros knots p i x k M K I X O. assert (MM : mono (knot_of knots) (length knots - 1)) by (intros a b AB; apply M; lia).
  rewrite (cox_pol _ i (length knots - 1)) by (auto; try lia; lra). apply pol_zero. lia.
Qed.
Lemma basis_case : non_decreasing (knot_vector 4 2) /\ knot_of (knot_vector 4 2) 2 <= / 4 < knot_of (knot_vector 4 2) 3
  /\ basis_functions (knot_vector 4 2) 2 2 (/ 4) = Some ([/ 4; 5 / 8; / 8], [- 2; 1; 1]).
Proof.
  split; [apply knots_non_decreasing; lia|]. 
  assert (X : knot_of (knot_vector 4 2) 2 <= / 4 < knot_of (knot_vector 4 2) 3).
  { rewrite (knot_low 4 2 2), (knot_mid 4 2 3) by lia. cbn [Nat.sub INR]. lra. }
  split; auto. change 2%Z with (Z.of_nat 2). rewrite basis_polynomials by (auto using knots_non_decreasing; try rewrite knots_length; try apply knots_non_decreasing; lia).
  cbn [seq map Nat.sub Nat.add].
  assert (K0 : forall i, (i <= 2)%nat -> knot_of (knot_vector 4 2) i = 0) by (intros; apply knot_low; lia).
  assert (K3 : knot_of (knot_vector 4 2) 3 = / 2) by (rewrite knot_mid by lia; cbn [Nat.sub INR]; lra).
  assert (K4 : forall i, (4 <= i <= 6)%nat -> knot_of (knot_vector 4 2) i = 1) by (intros; apply knot_high; lia).
  cbn [pol pol' Nat.eqb Nat.add INR]. rewrite !K0, !K3, !K4 by lia. unfold inverse_gap.
  repeat match goal with |- context [Req_EM_T ?a ?b] => destruct (Req_EM_T a b); [try lra|try lra] end.
  do 2 f_equal; repeat (apply f_equal2; [lra|]); reflexivity.
Qed.
Lemma surface_case : fits (planar_net 4 5 2 3) 2 3
  /\ exists n, evaluate (planar_net 4 5 2 3) 2 3 0 0 = Some (as_point (vec (-2) (-3) 0), n).
Proof.
  assert (F : fits (planar_net 4 5 2 3) 2 3) by (split; cbn; lia). split; auto.
  destruct (corner _ _ _ F) as (n & E). exists n. rewrite E. do 3 f_equal. cbn [planar_net control]. unfold linspace. cbn [Nat.leb Nat.sub INR].
  apply point_eq; cbn [pe pn pu vec]; lra.
Qed.
Lemma normal_case : exists point, evaluate (planar_net 2 2 2 3) 1 1 (/ 2) (/ 2) = Some (as_point point, as_direction (vec 0 0 1)).
Proof.
  assert (F : fits (planar_net 2 2 2 3) 1 1) by (split; cbn; lia).
  assert (K0 : forall i, (i <= 1)%nat -> knot_of (knot_vector 2 1) i = 0) by (intros; apply knot_low; lia).
  assert (K1 : forall i, (2 <= i <= 3)%nat -> knot_of (knot_vector 2 1) i = 1) by (intros; apply knot_high; lia).
  assert (X : knot_of (knot_vector 2 1) 1 <= / 2 < knot_of (knot_vector 2 1) 2) by (rewrite K0, K1 by lia; lra).
  eexists. rewrite (evaluate_patch _ 1 1 1 1 (/ 2) (/ 2) F) by (auto; cbn; lia).
  apply f_equal. apply (f_equal2 pair); [reflexivity|]. apply f_equal.
  assert (E : forall a, (a < 2)%nat -> pol (knot_of (knot_vector 2 1)) 1 1 a (/ 2) = / 2).
  { intros a A. destruct a as [|[|a]]; [| |lia]; cbn [pol' pol Nat.eqb Nat.add INR]; rewrite !K0, !K1 by lia; unfold inverse_gap;
    repeat match goal with |- context [Req_EM_T ?a ?b] => destruct (Req_EM_T a b); [try lra|try lra] end; lra. }
  assert (E' : forall a, (a < 2)%nat -> pol' (knot_of (knot_vector 2 1)) 1 1 a (/ 2) = match a with O => -1 | _ => 1 end).
  { intros a A. destruct a as [|[|a]]; [| |lia]; cbn [pol' pol Nat.eqb Nat.add INR]; rewrite !K0, !K1 by lia; unfold inverse_gap;
    repeat match goal with |- context [Req_EM_T ?a ?b] => destruct (Req_EM_T a b); [try lra|try lra] end; lra. }
  unfold patch_point. cbn [planar_net n_u n_v].
  rewrite (tensor_ext 2 2 (fun a => pol' (knot_of (knot_vector 2 1)) 1 1 a (/ 2)) (fun a => match a with O => -1 | _ => 1 end)
     (fun a => pol (knot_of (knot_vector 2 1)) 1 1 a (/ 2)) (fun _ => / 2)) by auto.
  rewrite (tensor_ext 2 2 (fun a => pol (knot_of (knot_vector 2 1)) 1 1 a (/ 2)) (fun _ => / 2)
     (fun a => pol' (knot_of (knot_vector 2 1)) 1 1 a (/ 2)) (fun a => match a with O => -1 | _ => 1 end)) by auto.
  assert (C : cross (tensor 2 2 (fun a => match a with O => -1 | _ => 1 end) (fun _ => / 2) (control (planar_net 2 2 2 3)))
                    (tensor 2 2 (fun _ => / 2) (fun a => match a with O => -1 | _ => 1 end) (control (planar_net 2 2 2 3))) = vec 0 0 24).
  { apply point_eq; unfold tensor, cross; cbn [planar_net control seq map Rsum fold_right pe pn pu vec]; unfold linspace; cbn [Nat.leb Nat.sub INR];
    cbn [pe pn pu]; lra. }
  cbn [planar_net control] in C |- *. rewrite C.
  assert (N : norm (vec 0 0 24) = 24). { unfold norm. replace (dot (vec 0 0 24) (vec 0 0 24)) with (24 * 24) by (unfold dot; cbn [pe pn pu vec]; ring). apply sqrt_square. lra. }
  unfold normalize, normalize_eps. rewrite N, Rmax_left by lra. apply point_eq; cbn [smul pe pn pu vec]; field; lra.
Qed.
Lemma placement_case : / 10 ^ 12 <= norm (vec 1 0 0) /\ / 10 ^ 8 * norm (vec 1 0 0) <= norm (cross (vec 1 0 0) (vec 0 1 0))
  /\ hw (hv 1 2 3 0) = 0 /\ Forall (fun f => fits (fst f) 1 1) [(planar_net 2 2 1 1, (vec 1 0 0, vec 0 1 0, hv 1 2 3 0))].
Proof.
  assert (N1 : norm (vec 1 0 0) = 1). { unfold norm. replace (dot (vec 1 0 0) (vec 1 0 0)) with 1 by (unfold dot; cbn [pe pn pu vec]; ring). apply sqrt_1. }
  assert (N2 : norm (cross (vec 1 0 0) (vec 0 1 0)) = 1).
  { unfold norm. match goal with |- sqrt ?d = 1 => replace d with 1 by (vunfold; ring) end. apply sqrt_1. }
  rewrite N1, N2. split; [lra|]. split; [lra|]. split; [reflexivity|]. repeat constructor.
Qed.
