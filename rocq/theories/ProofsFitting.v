(** Proofs for C129. *)
From Coq Require Import List Arith ZArith Reals Bool Lia Lra.
From Verif Require Import ModelField ModelVectors ModelTransforms ModelLBVH ModelNurbs ModelTraining ModelSurfaceGenerator ModelFitting SpecFitting.
Import ListNotations.
Local Open Scope R_scope.

Section S.
Context {Q : Type}.
Variables (fresh : Q) (initial : R) (tolerance : R) (max_epoch : nat).

Lemma tasks_first : forall s m t (ts : list (task Q)) c cs,
  fit_tasks fresh initial s tolerance max_epoch m (t :: ts) = Some (Ok (c :: cs)) ->
  fit_tasks fresh initial s tolerance max_epoch m [t] = Some (Ok [c]).
Proof.
  intros s m t ts c cs E. cbn [fit_tasks] in *. destruct (fit_task _ _ _ _ _ _ t) as [[(m', x)|e]|]; try discriminate.
  destruct (fit_tasks _ _ _ _ _ m' ts) as [[ys|e]|]; try discriminate. cbn in E. injection E as -> ->. reflexivity.
Qed.

(** Without a scheduler the memory stays as it is. *)
Lemma epochs_memory : forall (t : task Q) n q m r c q' m' r' c',
  fit_epochs (loss t) (fit_step None t) tolerance n (q, (m, r)) c = Some (Ok ((q', (m', r')), c')) -> m' = m.
Proof.
  intros t. induction n as [|n IH]; intros q m r c q' m' r' c' E; cbn [fit_epochs] in E.
  - congruence.
  - destruct (loss t c) as [[l|]|] eqn:L; try discriminate. unfold fit_step at 1 in E. destruct (optimize t q r c) as (q1, c1).
    destruct (Rgtb l tolerance); [eauto|congruence].
Qed.
Lemma tasks_alone : forall m (ts : list (task Q)) cs,
  fit_tasks fresh initial None tolerance max_epoch m ts = Some (Ok cs)
  <-> Forall2 (fun t c => fit_tasks fresh initial None tolerance max_epoch m [t] = Some (Ok [c])) ts cs.
Proof.
  intros m. induction ts as [|t ts IH]; intros cs.
  - cbn. split; [intros [= <-]; constructor|intros A; inversion A; reflexivity].
  - assert (M : forall m' c, fit_task fresh initial None tolerance max_epoch m t = Some (Ok (m', c)) -> m' = m).
    { unfold fit_task. intros m' c. destruct (fit_epochs _ _ _ _ _ _) as [[((q1, (m1, r1)), c1)|]|] eqn:E; try discriminate.
      intros [= <- <-]. eauto using epochs_memory. }
    cbn [fit_tasks]. split.
    + destruct (fit_task _ _ _ _ _ m t) as [[(m', c)|]|] eqn:F; try discriminate. specialize (M _ _ eq_refl). subst m'.
      destruct (fit_tasks _ _ _ _ _ m ts) as [[ys|]|] eqn:G; try discriminate. intros [= <-]. constructor.
      * cbn [fit_tasks]. rewrite F. reflexivity.
      * apply IH. reflexivity.
    + intros A. inversion A as [|? c ? cs' B D]; subst. cbn [fit_tasks] in B. destruct (fit_task _ _ _ _ _ m t) as [[(m', c1)|]|] eqn:F; try discriminate.
      specialize (M _ _ eq_refl). subst m'. cbn in B. injection B as ->. apply IH in D. rewrite D. reflexivity.
Qed.
End S.

(** ** The second of two equal facets *)
Lemma improves_gains : forall t now before, improves t now (Some before) = true <-> gains t before now.
Proof. intros [x|x] now before; cbn; destruct (Rlt_dec _ _); split; auto; discriminate. Qed.

Section Second.
Context {Q : Type}.
Variables (fresh : Q) (initial : R) (tolerance : R) (s : plateau) (t : task Q).
(** The fit with the initial learning rate. *)
Fixpoint steady (n : nat) : Q * net := match n with O => (fresh, start t) | S k => let '(q, c) := steady k in optimize t q initial c end.
Variable l : nat -> R.
Hypothesis above : forall k, (k <= patience s + 1)%nat -> loss t (snd (steady k)) = Some (Ok (l k)) /\ tolerance < l k.
Hypothesis better : forall k, (k <= patience s)%nat -> gains (tolerated s) (l k) (l (S k)).
Hypothesis sane : sensible (tolerated s).
Hypothesis positive : forall k, (k <= patience s + 1)%nat -> 0 <= l k.

Lemma decreasing : forall j k, (j <= k)%nat -> (k <= patience s + 1)%nat -> l k <= l j.
Proof.
  intros j k J. induction J as [|k J IH]; intros K; [lra|]. specialize (IH ltac:(lia)). specialize (better k ltac:(lia)). specialize (positive k ltac:(lia)).
  clear above. unfold gains in better. unfold sensible in sane. destruct (tolerated s) as [x|x]; [|lra]. assert (0 <= l k * x) by (apply Rmult_le_pos; lra). lra.
Qed.
Lemma first_run : forall n k m, (n + k = patience s + 2)%nat ->
  (match k with O => m = blank | S j => m = {| best_loss := Some (l j); without := 0; rest := 0 |} end) ->
  exists q r, fit_epochs (loss t) (fit_step (Some s) t) tolerance n (fst (steady k), (m, initial)) (snd (steady k))
    = Some (Ok ((q, ({| best_loss := Some (l (patience s + 1)); without := 0; rest := 0 |}, r)), snd (steady (patience s + 2)))).
Proof.
  induction n as [|n IH]; intros k m N M; cbn [fit_epochs].
  - replace k with (patience s + 2)%nat in * by lia. replace (patience s + 2)%nat with (S (patience s + 1)) in M by lia. subst m. eauto.
  - destruct (above k ltac:(lia)) as (L & T). rewrite L. unfold fit_step at 1. rewrite L.
    assert (P : plateau_step s (m, initial) (l k) = ({| best_loss := Some (l k); without := 0; rest := 0 |}, initial)).
    { unfold plateau_step. destruct k as [|j]; subst m.
      - cbn [best_loss blank improves]. replace (match tolerated s with Relative x => if Rlt_dec x 1 then true else false | Absolute _ => true end) with true.
        + reflexivity.
        + destruct (tolerated s) as [x|x]; auto. destruct (Rlt_dec x 1); auto. exfalso. cbn in sane. lra.
      - cbn [best_loss]. replace (improves (tolerated s) (l (S j)) (Some (l j))) with true by (symmetry; apply improves_gains; apply better; lia). reflexivity. }
    rewrite P. specialize (IH (S k)). cbn [steady] in IH. destruct (steady k) as (q0, c0). cbn [fst snd] in *.
    destruct (optimize t q0 initial c0) as (q1, c1). unfold Rgtb. destruct (Rlt_dec tolerance (l k)); [|contradiction].
    apply IH; [lia|reflexivity].
Qed.
Lemma no_gain : forall k, (k <= patience s + 1)%nat -> improves (tolerated s) (l k) (Some (l (patience s + 1))) = false.
Proof.
  intros k K. destruct (improves _ _ _) eqn:I; auto. apply improves_gains in I. pose proof (decreasing k (patience s + 1) K ltac:(lia)).
  pose proof (positive (patience s + 1) ltac:(lia)). unfold gains in I. unfold sensible in sane. destruct (tolerated s) as [x|x]; [|lra]. assert (0 <= l (patience s + 1) * x) by (apply Rmult_le_pos; lra). lra.
Qed.
Lemma second_run : forall n k, (n + k = patience s)%nat ->
  let lower := Rmax (initial * factor s) (lowest s) in / 10 ^ 8 < initial - lower ->
  exists q m r, fit_epochs (loss t) (fit_step (Some s) t) tolerance (S (S n))
     (fst (steady k), ({| best_loss := Some (l (patience s + 1)); without := k; rest := 0 |}, initial)) (snd (steady k))
    = Some (Ok ((q, (m, r)), snd (optimize t (fst (steady (patience s + 1))) lower (snd (steady (patience s + 1)))))).
Proof.
  intros n k N lower LO. revert k N. induction n as [|n IH]; intros k N.
  - replace k with (patience s) in * by lia. clear N k. destruct (above (patience s) ltac:(lia)) as (L & T). destruct (above (patience s + 1) ltac:(lia)) as (L1 & T1).
    cbn [fit_epochs]. rewrite L. unfold fit_step at 1. rewrite L. unfold plateau_step at 1. cbn [best_loss without rest]. rewrite no_gain by lia. cbn [Nat.ltb Nat.leb].
    replace (patience s <=? patience s)%nat with true by (symmetry; apply Nat.leb_le; lia). fold lower. destruct (Rlt_dec (/ 10 ^ 8) (initial - lower)); [|contradiction].
    replace (patience s + 1)%nat with (S (patience s)) in * by lia. cbn [steady] in *. destruct (steady (patience s)) as (q0, c0). cbn [fst snd] in *.
    destruct (optimize t q0 initial c0) as (q1, c1). cbn [fst snd] in *. unfold Rgtb. destruct (Rlt_dec tolerance (l (patience s))); [|contradiction].
    rewrite L1. unfold fit_step at 1. rewrite L1. destruct (optimize t q1 lower c1) as (q2, c2). cbn [fst snd].
    destruct (plateau_step s _ _) as (m2, r2). exists q2, m2, r2. destruct (Rlt_dec tolerance (l (S (patience s)))); reflexivity.
  - destruct (above k ltac:(lia)) as (L & T). remember (S n) as n1. cbn [fit_epochs]. rewrite L. unfold fit_step at 1. rewrite L. unfold plateau_step at 1.
    cbn [best_loss without rest]. rewrite no_gain by lia. cbn [Nat.ltb Nat.leb Nat.sub].
    replace (patience s <=? k)%nat with false by (symmetry; apply Nat.leb_gt; lia). subst n1. specialize (IH (S k) ltac:(lia)). cbn [steady] in IH.
    destruct (steady k) as (q0, c0). cbn [fst snd] in *. destruct (optimize t q0 initial c0) as (q1, c1). unfold Rgtb at 1. destruct (Rlt_dec tolerance (l k)); [|contradiction].
    exact IH.
Qed.
Theorem second_differs :
  let lower := Rmax (initial * factor s) (lowest s) in / 10 ^ 8 < initial - lower ->
  fit_tasks fresh initial (Some s) tolerance (patience s + 1) blank [t] = Some (Ok [snd (steady (patience s + 2))])
  /\ fit_tasks fresh initial (Some s) tolerance (patience s + 1) blank [t; t]
     = Some (Ok [snd (steady (patience s + 2)); snd (optimize t (fst (steady (patience s + 1))) lower (snd (steady (patience s + 1))))]).
Proof.
  intros lower LO. destruct (first_run (patience s + 2) 0 blank ltac:(lia) eq_refl) as (q & r & A). destruct (second_run (patience s) 0 ltac:(lia) LO) as (q2 & m2 & r2 & B).
  fold lower in B. replace (S (S (patience s))) with (patience s + 2)%nat in B by lia. change (fst (steady 0)) with fresh in *. change (snd (steady 0)) with (start t) in *.
  assert (F : fit_task fresh initial (Some s) tolerance (patience s + 1) blank t = Some (Ok ({| best_loss := Some (l (patience s + 1)); without := 0; rest := 0 |}, snd (steady (patience s + 2))))).
  { unfold fit_task. replace (S (patience s + 1)) with (patience s + 2)%nat by lia. rewrite A. reflexivity. }
  cbn [fit_tasks]. rewrite F. split; [reflexivity|]. unfold fit_task. replace (S (patience s + 1)) with (patience s + 2)%nat by lia. rewrite B. reflexivity.
Qed.
End Second.

(** ** The abstract optimizer state of ModelSurfaceGenerator *)
Section Abstract.
Context {Q : Type}.
Variables (fresh : Q) (initial : R) (scheduler : option plateau) (tolerance : R) (max_epoch : nat).
Variable tasks : list (task Q).
Definition indexed_step (state : nat * (Q * (memory * R))) (c : net) : (nat * (Q * (memory * R))) * net :=
  let '(i, s) := state in
  match nth_error tasks i with Some t => let '(s', c') := fit_step scheduler t s c in ((i, s'), c') | None => ((i, s), c) end.
Lemma loop_of_epochs : forall i t, nth_error tasks i = Some t -> forall n s c k s' c',
  fit_epochs (loss t) (fit_step scheduler t) tolerance n s c = Some (Ok (s', c')) ->
  exists steps, fit_loop (loss t) indexed_step tolerance n (i, s) c k = Some (Ok (c', steps)).
Proof.
  intros i t I. induction n as [|n IH]; intros s c k s' c' E; cbn [fit_epochs fit_loop] in *.
  - injection E as -> ->. eauto.
  - destruct (loss t c) as [[l|]|]; try discriminate. unfold indexed_step at 1. rewrite I. destruct (fit_step scheduler t s c) as (s1, c1).
    destruct (Rgtb l tolerance); [eauto|]. injection E as -> ->. eauto.
Qed.
Lemma memories : forall m ts cs, fit_tasks fresh initial scheduler tolerance max_epoch m ts = Some (Ok cs) ->
  exists ms : nat -> memory, length cs = length ts /\ forall i t, nth_error ts i = Some t -> exists s' c', nth_error cs i = Some c'
    /\ fit_epochs (loss t) (fit_step scheduler t) tolerance (S max_epoch) (fresh, (ms i, initial)) (start t) = Some (Ok (s', c')).
Proof.
  intros m ts. revert m. induction ts as [|t ts IH]; intros m cs E; cbn [fit_tasks] in E.
  - injection E as <-. exists (fun _ => m). split; auto. intros [|i] t; discriminate.
  - unfold fit_task in E. destruct (fit_epochs _ _ _ _ _ _) as [[((q1, (m1, r1)), c1)|]|] eqn:F; try discriminate.
    destruct (fit_tasks _ _ _ _ _ m1 ts) as [[ys|]|] eqn:G; try discriminate. cbn in E. injection E as <-.
    destruct (IH _ _ G) as (ms & L & A). exists (fun i => match i with O => m | S j => ms j end). split; [cbn; lia|].
    intros [|i] u U; cbn in U.
    + injection U as <-. eexists _, _. split; [reflexivity|exact F].
    + exact (A i u U).
Qed.
End Abstract.

Lemma map_res_nth : forall A B (f : A -> res B) l r, map_res f l = Ok r -> length r = length l /\ forall i a, nth_error l i = Some a -> exists b, f a = Ok b /\ nth_error r i = Some b.
Proof.
  intros A B f. induction l as [|a l IH]; intros r E; cbn in E.
  - injection E as <-. split; auto. intros [|i] a; discriminate.
  - destruct (f a) as [b|] eqn:F; [|discriminate]. cbn in E. destruct (map_res f l) as [bs|] eqn:G; [|discriminate]. cbn in E. injection E as <-.
    destruct (IH _ eq_refl) as (L & N). split; [cbn; lia|]. intros [|i] x X; cbn in X; [injection X as <-; eauto|exact (N i x X)].
Qed.
Lemma collect_all : forall A B (f : A -> option (res B)) l r, length r = length l ->
  (forall i a, nth_error l i = Some a -> exists b, f a = Some (Ok b) /\ nth_error r i = Some b) ->
  option_map (fun x => map_res (fun y => y) x) (collect (map f l)) = Some (Ok r).
Proof.
  intros A B f. induction l as [|a l IH]; intros r L N; destruct r as [|b r]; cbn in L; try lia; [reflexivity|].
  destruct (N 0%nat a eq_refl) as (b' & F & E). cbn in E. injection E as <-. cbn [map collect]. rewrite F.
  specialize (IH r ltac:(lia) (fun i => N (S i))). destruct (collect (map f l)) as [xs|]; [|discriminate]. cbn in *. injection IH as ->. reflexivity.
Qed.
Theorem shared_is_fitted : forall Q (fresh : Q) initial scheduler nu nv p q method optimize m tolerance max_epoch stride cantings translations points normals facets,
  shared_surface fresh initial scheduler nu nv p q method optimize m tolerance max_epoch stride cantings translations points normals = Some (Ok facets) ->
  exists T (step : T -> net -> T * net) states, fitted_surface nu nv p q method step states tolerance max_epoch stride cantings translations points normals = Some (Ok facets).
Proof.
  intros Q fresh initial scheduler nu nv p q method opt m tolerance max_epoch stride cantings translations points normals facets E. unfold shared_surface in E.
  unfold fitted_surface. destruct (reduced stride points) as [ps|]; [|discriminate]. destruct (reduced stride normals) as [ns|]; [|discriminate].
  destruct (map_res _ _) as [tasks|] eqn:M; [|discriminate]. destruct (map_res_nth _ _ _ _ _ M) as (LT & NT). rewrite seq_length in LT.
  destruct (fit_tasks _ _ _ _ _ _ _) as [[cs|]|] eqn:F; try discriminate. cbn in E. injection E as <-.
  destruct (memories _ _ _ _ _ _ _ _ F) as (ms & LC & A). rewrite map_length in LC.
  exists (nat * (Q * (memory * R)))%type, (indexed_step scheduler (map fst tasks)), (fun i => (i, (fresh, (ms i, initial)))).
  apply collect_all.
  - rewrite map_length, combine_length, map_length, seq_length. lia.
  - intros i a I. assert (a = i /\ (i < length ps)%nat) as (-> & LI).
    { assert (i < length (seq 0 (length ps)))%nat by (apply nth_error_Some; congruence). rewrite seq_length in H. split; auto.
      rewrite (nth_error_nth' _ 0%nat) in I by (rewrite seq_length; lia). rewrite seq_nth in I by lia. cbn in I. congruence. }
    destruct (NT i i I) as ((t, (canting, tr)) & G & NI).
    destruct (nth_error ps i) as [pp|]; [|discriminate]. destruct (nth_error ns i) as [nn|]; [|discriminate].
    destruct (nth_error cantings i) as [ct|]; [|discriminate]. destruct (nth_error translations i) as [tt|]; [|discriminate].
    destruct (initial_net nu nv pp) as [c0|] eqn:IN; [|discriminate]. cbn [bind] in G. destruct (fit_parameters pp) as [pa|] eqn:FP; [|discriminate].
    cbn [bind] in G. injection G as Et Ec Er. subst ct tt. assert (TI : nth_error (map fst tasks) i = Some t) by (rewrite nth_error_map, NI; reflexivity).
    destruct (A i t TI) as (s' & c' & NC & FE). destruct (loop_of_epochs scheduler tolerance (map fst tasks) i t TI _ _ _ 0%nat _ _ FE) as (steps & FL).
    exists (fitted_facet method c' canting tr). split.
    + unfold fit_nurbs. rewrite IN, FP. rewrite <- Et in FL. cbn [loss start] in FL. rewrite FL. reflexivity.
    + rewrite nth_error_map. rewrite (nth_error_nth' _ (c', (canting, tr))) by (rewrite combine_length, map_length; lia).
      rewrite combine_nth by (rewrite map_length; lia). cbn [option_map]. rewrite (nth_error_nth _ _ _ NC).
      rewrite (nth_error_nth (map snd tasks) i _ (x := (canting, tr))); [reflexivity|]. rewrite nth_error_map, NI. reflexivity.
Qed.

Theorem second_facet : forall Q (fresh : Q) initial tolerance s (t : task Q) (state : nat -> Q * net) l,
  let lower := Rmax (initial * factor s) (lowest s) in
  let last := state (patience s + 1)%nat in
  state 0%nat = (fresh, start t) -> (forall k, state (S k) = optimize t (fst (state k)) initial (snd (state k))) ->
  (forall k, (k <= patience s + 1)%nat -> loss t (snd (state k)) = Some (Ok (l k)) /\ tolerance < l k /\ 0 <= l k) ->
  (forall k, (k <= patience s)%nat -> gains (tolerated s) (l k) (l (S k))) -> sensible (tolerated s) -> / 10 ^ 8 < initial - lower ->
  snd (optimize t (fst last) lower (snd last)) <> snd (optimize t (fst last) initial (snd last)) ->
  exists a b, fit_tasks fresh initial (Some s) tolerance (patience s + 1) blank [t] = Some (Ok [a])
  /\ fit_tasks fresh initial (Some s) tolerance (patience s + 1) blank [t; t] = Some (Ok [a; b]) /\ a <> b.
Proof.
  intros Q fresh initial tolerance s t state l lower last S0 SS A B SE LO NE.
  assert (ST : forall k, state k = steady fresh initial t k).
  { induction k as [|k IH]; [exact S0|]. rewrite SS. cbn [steady]. rewrite <- IH. destruct (state k); reflexivity. }
  destruct (second_differs fresh initial tolerance s t l) as (X & Y); auto.
  - intros k K. rewrite <- ST. destruct (A k K) as (? & ? & ?). auto.
  - intros k K. apply A. exact K.
  - eexists _, _. split; [exact X|]. split; [exact Y|]. rewrite <- !ST. replace (patience s + 2)%nat with (S (patience s + 1)) by lia. rewrite SS. fold last. intros C. apply NE. symmetry. exact C.
Qed.
