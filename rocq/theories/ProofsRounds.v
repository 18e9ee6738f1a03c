(** When the alignment stops (C40). *)
From Coq Require Import List Reals Lra Lia.
From Verif Require Import ModelField ModelVectors ModelTransforms ModelIntersections ModelKinematics SpecIntersections SpecTransforms SpecKinematics.
Import ListNotations.
Local Open Scope R_scope.

Lemma combine_map' : forall (A B C : Type) (f : A -> B -> C) (g : A -> B) l, map (fun '(a, b) => f a b) (combine l (map g l)) = map (fun a => f a (g a)) l.
Proof. induction l; cbn; congruence. Qed.
Lemma all_close_spec : forall eps (f g : request -> R) l, all_close eps (map f l) (map g l) = true <-> forall r, In r l -> Rabs (f r - g r) <= eps.
Proof.
  intros eps f g l. unfold all_close. rewrite forallb_forall. split.
  - intros H r I. specialize (H (f r, g r)). assert (J : In (f r, g r) (combine (map f l) (map g l))).
    { clear H. induction l; cbn in *; [tauto|]. destruct I as [->|I]; auto. }
    specialize (H J). cbn in H. destruct (Rle_dec (Rabs (f r - g r)) eps); auto. discriminate.
  - intros H [a b] J. assert (K : exists r, In r l /\ a = f r /\ b = g r).
    { clear H. induction l; cbn in *; [tauto|]. destruct J as [E|J]; [injection E as <- <-; eauto|]. destruct (IHl J) as (r & R1 & R2). eauto. }
    destruct K as (r & I & -> & ->). destruct (Rle_dec (Rabs (f r - g r)) eps); auto.
Qed.
Lemma align_loop_step : forall eps n batch motors last before, align_loop eps (S n) batch motors last before
  = (let orientations := map (fun '(r, m) => forward (rq_kinematics r) m) (combine batch motors) in
     let loss := map (fun '(r, o) => request_loss r o) (combine batch orientations) in
     if (match last with None => false | Some l => all_close eps l loss end) then (Some orientations, motors)
     else align_loop eps n batch (map (fun '(r, o) => inverse (rq_kinematics r) (desired r o)) (combine batch orientations)) (Some loss) (Some orientations)).
Proof. reflexivity. Qed.
Lemma loop_rounds : forall eps batch n j last before o ms,
  align_loop eps (S n) batch (map (rounds j) batch) last before = (o, ms) ->
  (last = match j with O => None | S j' => Some (map (misalignment j') batch) end) ->
  exists i, (j <= i <= j + n)%nat /\ o = Some (map (fun r => forward (rq_kinematics r) (rounds i r)) batch)
  /\ (forall i', (j <= i' < i)%nat -> ~ settled eps batch i')
  /\ ((settled eps batch i /\ ms = map (rounds i) batch) \/ (~ settled eps batch i /\ i = (j + n)%nat /\ ms = map (rounds (S i)) batch)).
Proof.
  intros eps batch n. induction n as [|n IH]; intros j last before o ms H L; rewrite align_loop_step in H; cbv zeta in H.
  all: rewrite (combine_map' _ _ _ (fun r m => forward (rq_kinematics r) m)) in H;
       rewrite (combine_map' _ _ _ (fun r o => request_loss r o) (fun r => forward (rq_kinematics r) (rounds j r))) in H;
       rewrite (combine_map' _ _ _ (fun r o => inverse (rq_kinematics r) (desired r o)) (fun r => forward (rq_kinematics r) (rounds j r))) in H;
       change (map (fun a => request_loss a (forward (rq_kinematics a) (rounds j a))) batch) with (map (misalignment j) batch) in H;
       change (map (fun a => inverse (rq_kinematics a) (desired a (forward (rq_kinematics a) (rounds j a)))) batch) with (map (rounds (S j)) batch) in H.
  all: assert (ST : (match last with None => false | Some l => all_close eps l (map (misalignment j) batch) end) = true <-> settled eps batch j)
         by (subst last; unfold settled; destruct j as [|j']; [split; [discriminate|intros (X & _); lia]|];
             rewrite all_close_spec; replace (S j' - 1)%nat with j' by lia; split; [intros X; split; [lia|auto]|intros (_ & X); auto]);
       destruct (match last with None => false | Some l => all_close eps l (map (misalignment j) batch) end) eqn:E.
  - injection H as <- <-. exists j. split; [lia|]. split; auto. split; [intros; lia|]. left. split; auto. apply ST. auto.
  - injection H as <- <-. exists j. split; [lia|]. split; auto. split; [intros; lia|]. right. split; [intros X; apply ST in X; discriminate|].
    split; [lia|auto].
  - injection H as <- <-. exists j. split; [lia|]. split; auto. split; [intros; lia|]. left. split; auto. apply ST. auto.
  - destruct (IH (S j) _ _ _ _ H eq_refl) as (i & I & O & N & D). exists i. split; [lia|]. split; auto. split.
    + intros i' I'. destruct (PeanoNat.Nat.eq_dec i' j) as [->|]; [intros X; apply ST in X; discriminate|apply N; lia].
    + destruct D as [D|(D & -> & F)]; auto. right. split; auto. split; [lia|auto].
Qed.
Theorem stops_when_settled : forall n eps batch os ms, incident_ray_directions_to_orientations n eps batch = Ok (os, ms) ->
  exists j, (j < n)%nat /\ os = map (fun r => motor_positions_to_orientation (rq_kinematics r) (rounds j r)) batch
  /\ (forall j', (j' < j)%nat -> ~ settled eps batch j')
  /\ ((settled eps batch j /\ ms = map (rounds j) batch) \/ (~ settled eps batch j /\ S j = n /\ ms = map (rounds n) batch)).
Proof.
  intros n eps batch os ms H. unfold incident_ray_directions_to_orientations in H. destruct n as [|n]; [discriminate|].
  destruct (align_loop eps (S n) batch (map (fun _ => (0, 0)) batch) None None) as [o ms'] eqn:L.
  change (map (fun _ : request => (0, 0)) batch) with (map (rounds 0) batch) in L.
  destruct (loop_rounds _ _ _ 0%nat _ _ _ _ L eq_refl) as (i & I & -> & N & D). injection H as <- <-.
  exists i. split; [lia|]. split; [rewrite map_map; reflexivity|]. split; [intros; apply N; lia|].
  destruct D as [D|(D & -> & F)]; auto.
Qed.

(** ** A batch takes at least as many rounds as its members (C75) *)
Theorem batch_rounds : forall n eps batch os ms i r o m, incident_ray_directions_to_orientations n eps batch = Ok (os, ms) ->
  nth_error batch i = Some r -> incident_ray_directions_to_orientations n eps [r] = Ok ([o], [m]) ->
  exists alone shared, (alone <= shared < n)%nat /\ o = motor_positions_to_orientation (rq_kinematics r) (rounds alone r)
  /\ nth_error os i = Some (motor_positions_to_orientation (rq_kinematics r) (rounds shared r))
  /\ (settled eps batch alone -> shared = alone /\ nth_error os i = Some o /\ nth_error ms i = Some m)
  /\ ((alone < shared)%nat -> settled eps [r] alone /\ ~ settled eps batch alone).
Proof.
  intros n eps batch os ms i r o m H B A.
  destruct (stops_when_settled _ _ _ _ _ H) as (j & J & O & N & D). destruct (stops_when_settled _ _ _ _ _ A) as (j1 & J1 & O1 & N1 & D1).
  cbn [map] in O1. injection O1 as ->. exists j1, j.
  assert (SUB : forall k, settled eps batch k -> settled eps [r] k).
  { intros k (K & S1). split; auto. intros r' [<-|[]]. apply S1. apply (nth_error_In _ _ B). }
  assert (LE : (j1 <= j)%nat).
  { destruct (Compare_dec.le_lt_dec j1 j) as [L|L]; auto. exfalso. destruct D as [(D & _)|(_ & D & _)]; [|lia]. apply (N1 j L). auto. }
  assert (NO : nth_error os i = Some (motor_positions_to_orientation (rq_kinematics r) (rounds j r))).
  { rewrite O. apply (map_nth_error (fun r => motor_positions_to_orientation (rq_kinematics r) (rounds j r)) _ _ B). }
  split; [lia|]. split; [reflexivity|]. split; [exact NO|]. split.
  - intros S1. assert (E : j = j1). { destruct (Compare_dec.le_lt_dec j j1) as [L|L]; [lia|]. exfalso. apply (N j1 L). auto. }
    subst j. split; auto. split; auto. destruct D1 as [(_ & D1)|(D1 & _)]; [|exfalso; apply D1; auto]. destruct D as [(_ & D)|(D & _)]; [|contradiction].
    cbn [map] in D1. injection D1 as ->. rewrite D. apply map_nth_error. auto.
  - intros L. destruct D1 as [(D1 & _)|(_ & D1 & _)]; [|lia]. split; auto.
Qed.
