(** Facets in another order than configured (C79). *)
From Coq Require Import List Arith Bool String Ascii Sorted Permutation Reals Lra Lia.
From Verif Require Import ModelField ModelVectors ModelTransforms ModelHdf5 SpecHdf5 ProofsHdf5 ModelScenario SpecScenario ProofsScenario.
Import ListNotations.

Lemma map_inj_on : forall (A B : Type) (f : A -> B) (l m : list A), NoDup (map f m) -> (forall x, In x l -> In x m) -> map f l = map f m -> l = m.
Proof.
  intros A B f l m N I E.
  assert (J : forall x y, In x m -> In y m -> f x = f y -> x = y).
  { clear I E. induction m as [|a m IH]; [intros ? ? []|]. cbn in N. inversion N as [|? ? N1 N2]; subst. intros x y [X|X] [Y|Y] E; subst; auto.
    - exfalso. apply N1. rewrite E. apply in_map. auto.
    - exfalso. apply N1. rewrite <- E. apply in_map. auto. }
  clear N. assert (K : forall x, In x m -> In x m) by auto. revert I J K E. generalize m at 1 2 3 5 as u. revert m.
  induction l as [|a l IH]; intros m u I J K E; destruct m as [|b m]; cbn in E; try discriminate; auto.
  injection E as E1 E2. f_equal; [apply J; auto; [apply I|apply K]; left; auto|].
  apply (IH m u); auto; intros x X; [apply I|apply K]; right; auto.
Qed.
Lemma sorted_nth : forall (l : list string) i j a b, StronglySorted before l -> (i < j)%nat -> nth_error l i = Some a -> nth_error l j = Some b -> before a b.
Proof.
  induction l as [|x l IH]; intros i j a b S L A B; [destruct i; discriminate|]. inversion S as [|? ? S1 S2]; subst. destruct j as [|j]; [lia|]. cbn in B.
  destruct i as [|i]; cbn in A.
  - injection A as <-. rewrite Forall_forall in S2. apply S2. eapply nth_error_In; eauto.
  - apply (IH i j); auto; lia.
Qed.

(** Two facets whose keys are not in alphabetical order, as facet_2 and facet_10, do not come back in the configured order. *)
Theorem facets_out_of_order : forall c h i j fi fj, valid c -> kinematics_available c -> In h (sc_heliostats c) ->
  nth_error (facets_of c h) i = Some fi -> nth_error (facets_of c h) j = Some fj -> (i < j)%nat -> String.compare (f_key fj) (f_key fi) = Lt ->
  NoDup (map f_translation (facets_of c h)) ->
  exists file s g l, generate_scenario c = Ok file /\ load_scenario file = Ok s /\ In g (s_groups s) /\ In l (g_heliostats g) /\ l_name l = h_name h
    /\ Permutation (map lf_translation (l_facets l)) (map f_translation (facets_of c h))
    /\ map lf_translation (l_facets l) <> map f_translation (facets_of c h).
Proof.
  intros c h i j fi fj V O I A B L C N. destruct (round_trip_groups c V O) as (file & s & G & F & _ & _ & T). destruct (T h I) as (g & J & _ & K).
  exists file, s, g, (expected c h). do 4 (split; auto). split; [reflexivity|].
  assert (E : map lf_translation (l_facets (expected c h)) = map f_translation (in_order f_key (facets_of c h))).
  { cbn. rewrite map_map. apply map_ext. reflexivity. }
  rewrite E. split; [apply Permutation_map, in_order_perm|]. intros E'.
  apply map_inj_on in E'; [|exact N|intros x X; apply (in_order_in f_key); exact X].
  assert (D : NoDup (map f_key (facets_of c h))).
  { unfold facets_of. destruct (h_surface h) as [sf|] eqn:Q.
    - destruct (valid_parts c V h I) as (P & _). destruct (P sf Q) as ((W & _) & _). apply W.
    - destruct (valid_prototype c V) as (_ & (W & _) & _). apply W. }
  pose proof (in_order_sorted _ f_key _ D) as S. rewrite E' in S.
  pose proof (sorted_nth _ i j (f_key fi) (f_key fj) S L (map_nth_error f_key i _ A) (map_nth_error f_key j _ B)) as M.
  apply (before_irrefl (f_key fi)). apply (before_trans _ (f_key fj)); auto.
Qed.
(** The prototype facets of one heliostat, written in the order in which the facets are numbered. *)
Local Open Scope string_scope.
Definition numbered : scenario_config := sample [sample_planar] [sample_cylindrical] [sample_facet "facet_2" 2; sample_facet "facet_10" 3] [sample_heliostat "AA31" None None None].
Lemma numbered_case : valid numbered /\ kinematics_available numbered /\ exists h fi fj, In h (sc_heliostats numbered)
  /\ nth_error (facets_of numbered h) 0 = Some fi /\ nth_error (facets_of numbered h) 1 = Some fj /\ String.compare (f_key fj) (f_key fi) = Lt
  /\ NoDup (map f_translation (facets_of numbered h)).
Proof.
  split; [|split].
  - apply sample_valid; try discriminate.
    + split; [split; [cbn; nodup|intros x [<-|[<-|[]]]; names]|]. intros f [<-|[<-|[]]]; eauto.
    + split; [cbn; nodup|intros x [<-|[]]; names].
    + intros x [<-|[]]. cbn. repeat split; discriminate.
  - apply available_own; intros x [<-|[]]; cbn; congruence.
  - eexists _, _, _. split; [left; reflexivity|]. split; [reflexivity|]. split; [reflexivity|]. split; [reflexivity|].
    cbn. constructor; [intros [E|[]]; injection E; intros; lra|]. constructor; [intros []|constructor].
Qed.
