From Coq Require Import List Arith Bool ZArith String Lia Permutation.
From Coq Require Import Reals Lra Sorted.
From Verif Require Import ModelField ModelDirections SpecField ProofsDistributed.
Import ListNotations.
Local Open Scope nat_scope.
Local Arguments Nat.modulo : simpl never.
Local Arguments Nat.div : simpl never.

(** * Names *)
Lemma mem_name_In : forall n l, mem_name n l = true <-> In n l.
Proof.
  intros. unfold mem_name. rewrite existsb_exists. split.
  - intros (x & H1 & H2). apply String.eqb_eq in H2. subst; auto.
  - intros. exists n. split; auto. apply String.eqb_refl.
Qed.

Lemma name_to_index_from_some : forall names start n i,
  name_to_index_from start names n = Some i -> start <= i /\ nth_error names (i - start) = Some n.
Proof.
  induction names as [|x names IH]; simpl; intros start n i H; [discriminate|].
  destruct (name_to_index_from (S start) names n) eqn:E.
  - injection H as <-. apply IH in E. destruct E. split; [lia|].
    replace (n0 - start) with (S (n0 - S start)) by lia. auto.
  - destruct (String.eqb_spec x n); [|discriminate]. injection H as <-. subst.
    split; [lia|]. rewrite Nat.sub_diag. auto.
Qed.

Lemma name_to_index_from_none : forall names start n,
  name_to_index_from start names n = None <-> ~ In n names.
Proof.
  induction names as [|x names IH]; simpl; intros; [intuition|].
  specialize (IH (S start) n).
  destruct (name_to_index_from (S start) names n) eqn:E.
  - split; [discriminate|]. intros H. exfalso. assert (Some n0 = None) by (apply IH; tauto). discriminate.
  - destruct (String.eqb_spec x n).
    + split; [discriminate|]. subst. tauto.
    + split; auto. intros _ [?|?]; auto. apply IH; auto.
Qed.

Lemma name_to_index_some : forall names n i,
  name_to_index names n = Some i -> nth_error names i = Some n.
Proof.
  intros. apply name_to_index_from_some in H. destruct H. rewrite Nat.sub_0_r in H0. auto.
Qed.

Lemma name_to_index_In : forall names n, In n names -> exists i, name_to_index names n = Some i.
Proof.
  intros. destruct (name_to_index names n) eqn:E; eauto.
  apply name_to_index_from_none in E. tauto.
Qed.

Lemma name_to_index_nodup : forall names n i, NoDup names ->
  nth_error names i = Some n -> name_to_index names n = Some i.
Proof.
  intros. destruct (name_to_index_In names n) as [j Hj]; [eapply nth_error_In; eauto|].
  rewrite Hj. f_equal. apply name_to_index_some in Hj.
  eapply (proj1 (NoDup_nth_error names)); auto.
  - apply nth_error_Some. congruence.
  - congruence.
Qed.

(** * Index mapping *)
Section Mapping.
Context {D : Type}.
Implicit Types (e : entry D) (es : list (entry D)).

Definition of_heliostat (n : string) es := filter (fun e => String.eqb n (entry_heliostat e)) es.
Definition row_of (target_names : list string) e : Z * D :=
  (match name_to_index target_names (entry_target e) with
   | Some i => Z.of_nat i | None => (-1)%Z end, entry_direction e).

Lemma data_fold : forall tn es (d : string -> list (Z * D)) name,
  fold_left (fun (data : string -> list (Z * D)) e =>
                   fun name =>
                     if String.eqb name (entry_heliostat e)
                     then data name ++
                          [(match name_to_index tn (entry_target e) with
                            | Some i => Z.of_nat i | None => (-1)%Z end, entry_direction e)]
                     else data name) es d name
  = d name ++ map (row_of tn) (of_heliostat name es).
Proof.
  induction es as [|e es IH]; simpl; intros; [rewrite app_nil_r; auto|].
  rewrite IH. destruct (String.eqb name (entry_heliostat e)); simpl; auto.
  rewrite <- app_assoc. reflexivity.
Qed.

Lemma increment_at_length : forall l i, List.length (increment_at l i) = List.length l.
Proof. induction l; destruct i; simpl; auto. Qed.

Lemma increment_at_nth : forall l i j, i < List.length l ->
  nth j (increment_at l i) 0 = nth j l 0 + (if i =? j then 1 else 0).
Proof.
  induction l; simpl; intros i j H; [lia|].
  destruct i, j; simpl; try lia. rewrite IHl by lia. reflexivity.
Qed.

Lemma mask_fold_length : forall gn es mask,
  List.length (fold_left (fun mask e =>
     match name_to_index gn (entry_heliostat e) with
     | Some i => increment_at mask i | None => mask end) es mask) = List.length mask.
Proof.
  induction es as [|e es IH]; simpl; intros; auto. rewrite IH.
  destruct name_to_index; auto. apply increment_at_length.
Qed.

Lemma mask_fold_nth : forall gn, NoDup gn -> forall es mask j n,
  List.length mask = List.length gn -> nth_error gn j = Some n ->
  nth j (fold_left (fun mask e =>
     match name_to_index gn (entry_heliostat e) with
     | Some i => increment_at mask i | None => mask end) es mask) 0
  = nth j mask 0 + List.length (of_heliostat n es).
Proof.
  intros gn ND. induction es as [|e es IH]; simpl; intros mask j n L Hj; [lia|].
  destruct (String.eqb_spec n (entry_heliostat e)) as [->|Hne].
  - rewrite (name_to_index_nodup gn _ j ND Hj). rewrite (IH _ j (entry_heliostat e)); auto.
    2: rewrite increment_at_length; auto.
    rewrite increment_at_nth.
    + rewrite Nat.eqb_refl. simpl. lia.
    + rewrite L. apply nth_error_Some. congruence.
  - destruct (name_to_index gn (entry_heliostat e)) eqn:E.
    + apply name_to_index_some in E. rewrite (IH _ j n); auto.
      2: rewrite increment_at_length; auto.
      rewrite increment_at_nth.
      * destruct (Nat.eqb_spec n0 j); [congruence|]. lia.
      * rewrite L. apply nth_error_Some. congruence.
    + rewrite (IH _ j n); auto.
Qed.

Lemma mask_fold_eq : forall gn es, NoDup gn ->
  fold_left (fun mask e =>
     match name_to_index gn (entry_heliostat e) with
     | Some i => increment_at mask i | None => mask end) es (repeat 0 (List.length gn))
  = map (fun n => List.length (of_heliostat n es)) gn.
Proof.
  intros gn es ND. apply (nth_ext _ _ 0 0).
  - rewrite mask_fold_length, repeat_length, map_length. auto.
  - rewrite mask_fold_length, repeat_length. intros j Hj.
    destruct (nth_error gn j) eqn:E.
    2:{ apply nth_error_None in E. lia. }
    rewrite (mask_fold_nth gn ND _ _ j s); auto.
    + assert (Z0 : forall n j, nth j (repeat 0 n) 0 = 0) by (induction n; destruct j0; simpl; auto).
      rewrite Z0. simpl.
      assert (M : nth_error (map (fun n => List.length (of_heliostat n es)) gn) j
                  = Some (List.length (of_heliostat s es))) by (apply (map_nth_error (fun n => List.length (of_heliostat n es)) j gn E)).
      symmetry. apply nth_error_nth. auto.
    + apply repeat_length.
Qed.

Lemma filter_or_perm : forall {A} (p q : A -> bool) l,
  (forall x, In x l -> p x = true -> q x = true -> False) ->
  Permutation (filter (fun x => p x || q x) l) (filter p l ++ filter q l).
Proof.
  induction l as [|x l IH]; simpl; intros H; auto.
  specialize (IH (fun y Hy => H y (or_intror Hy))). specialize (H x (or_introl eq_refl)).
  destruct (p x), (q x); simpl; auto.
  - exfalso; auto.
  - rewrite IH. apply Permutation_middle.
Qed.

Lemma grouping_perm : forall gn es, NoDup gn ->
  Permutation (flat_map (fun n => of_heliostat n es) gn)
              (filter (fun e => mem_name (entry_heliostat e) gn) es).
Proof.
  induction gn as [|n gn IH]; simpl; intros es ND.
  - assert (E : filter (fun _ : entry D => false) es = []) by (induction es; auto).
    rewrite E. auto.
  - inversion ND; subst. rewrite IH by auto.
    rewrite (filter_ext (fun e => mem_name (entry_heliostat e) (n :: gn))
       (fun e => String.eqb n (entry_heliostat e) || mem_name (entry_heliostat e) gn)).
    + rewrite filter_or_perm; [reflexivity|].
      intros e _ A B. apply String.eqb_eq in A. apply mem_name_In in B. subst. tauto.
    + intros e. unfold mem_name. simpl. rewrite String.eqb_sym. reflexivity.
Qed.

Lemma of_heliostat_filter : forall gn es n, In n gn ->
  of_heliostat n (filter (fun e => mem_name (entry_heliostat e) gn) es) = of_heliostat n es.
Proof.
  intros gn es n Hn. induction es as [|e es IH]; simpl; auto.
  destruct (mem_name (entry_heliostat e) gn) eqn:E; simpl.
  - destruct (String.eqb n (entry_heliostat e)); congruence.
  - destruct (String.eqb_spec n (entry_heliostat e)) as [->|]; auto.
    apply mem_name_In in Hn. congruence.
Qed.

Lemma flat_map_ext_in : forall {A B} (f g : A -> list B) l,
  (forall x, In x l -> f x = g x) -> flat_map f l = flat_map g l.
Proof. induction l; simpl; intros; auto. rewrite H, IHl; auto. Qed.

Lemma map_flat_map : forall {A B C} (f : B -> C) (g : A -> list B) l,
  map f (flat_map g l) = flat_map (fun x => map f (g x)) l.
Proof. induction l; simpl; auto. rewrite map_app, IHl. auto. Qed.

Definition rows_of (gn : list string) es := flat_map (fun n => of_heliostat n es) gn.

Lemma index_mapping_strings_spec : forall ok gn tn es, NoDup gn ->
  index_mapping_strings ok gn tn es =
  (if existsb (fun e => negb (mem_name (entry_target e) tn) || negb (ok (entry_direction e)))
      (filter (fun e => mem_name (entry_heliostat e) gn) es)
   then Err ValueError
   else Ok {| mr_mask := map (fun n => List.length (of_heliostat n es)) gn;
              mr_targets := map (fun e => Some (fst (row_of tn e))) (rows_of gn es);
              mr_directions := map (fun e => Some (entry_direction e)) (rows_of gn es) |}).
Proof.
  intros ok gn tn es ND. unfold index_mapping_strings.
  set (fl := filter (fun e => mem_name (entry_heliostat e) gn) es).
  destruct (existsb _ fl); auto.
  rewrite mask_fold_eq by auto.
  rewrite (flat_map_ext_in _ (fun n => map (row_of tn) (of_heliostat n fl)) gn)
    by (intros; rewrite data_fold; auto).
  assert (E1 : forall n, In n gn -> of_heliostat n fl = of_heliostat n es)
    by (intros; apply of_heliostat_filter; auto).
  rewrite (flat_map_ext_in _ (fun n => map (row_of tn) (of_heliostat n es)) gn)
    by (intros; rewrite E1; auto).
  rewrite <- map_flat_map. fold (rows_of gn es).
  assert (L : List.length fl = List.length (rows_of gn es)).
  { symmetry. apply Permutation_length. apply grouping_perm. auto. }
  unfold fill. rewrite !map_length, L, Nat.ltb_irrefl, Nat.sub_diag. simpl.
  rewrite !app_nil_r, !map_map. do 2 f_equal.
  apply map_ext_in. intros. rewrite E1; auto.
Qed.
End Mapping.

Lemma repeat_interleave_map : forall {A} (f : A -> nat) (rows : list A),
  repeat_interleave rows (map f rows) = Ok (flat_map (fun r => repeat r (f r)) rows).
Proof. induction rows; simpl; auto. rewrite IHrows. reflexivity. Qed.

Lemma repeat_map_const : forall {A B} (x : B) (l : list A), repeat x (List.length l) = map (fun _ => x) l.
Proof. induction l; simpl; congruence. Qed.

(** ** C06 *)
Lemma index_mapping_faithful : forall {D} (ok : D -> bool) gn tn (es : list (entry D)) r,
  NoDup gn -> index_mapping_strings ok gn tn es = Ok r ->
  exists rows : list (entry D),
    repeat_interleave gn (mr_mask r) = Ok (map entry_heliostat rows)
    /\ mr_directions r = map (fun e => Some (entry_direction e)) rows
    /\ Forall2 (fun t e => exists i, t = Some (Z.of_nat i) /\ nth_error tn i = Some (entry_target e))
               (mr_targets r) rows
    /\ (forall n, In n gn -> filter (fun e => String.eqb n (entry_heliostat e)) rows
                            = filter (fun e => String.eqb n (entry_heliostat e)) es)
    /\ (forall e, In e rows -> In (entry_heliostat e) gn /\ In e es).
Proof.
  intros D ok gn tn es r ND H. rewrite index_mapping_strings_spec in H by auto.
  destruct (existsb _ _) eqn:E; [discriminate|]. injection H as <-. simpl.
  exists (rows_of gn es).
  assert (IN : forall e, In e (rows_of gn es) -> In (entry_heliostat e) gn /\ In e es).
  { intros e He. apply in_flat_map in He. destruct He as (n & Hn & He).
    apply filter_In in He. destruct He as [He1 He2]. apply String.eqb_eq in He2. subst; auto. }
  split; [|split; [|split; [|split]]]; auto.
  - rewrite repeat_interleave_map. f_equal. unfold rows_of. rewrite map_flat_map.
    apply flat_map_ext_in. intros n _.
    induction es as [|e es IH]; auto. simpl. destruct (String.eqb_spec n (entry_heliostat e)).
    + simpl. subst. f_equal.
      assert (IH' := fun E => IH E). clear IH.
      clear. induction es as [|e0 es IH]; auto. simpl.
      destruct (String.eqb_spec (entry_heliostat e) (entry_heliostat e0)); simpl; congruence.
    + clear. induction es as [|e0 es IH]; auto. simpl.
      destruct (String.eqb_spec n (entry_heliostat e0)); simpl; congruence.
  - assert (T : forall e, In e (rows_of gn es) -> mem_name (entry_target e) tn = true).
    { intros e He. destruct (IN e He) as [I1 I2].
      destruct (mem_name (entry_target e) tn) eqn:T; auto. exfalso.
      assert (X : existsb (fun e => negb (mem_name (entry_target e) tn) || negb (ok (entry_direction e)))
          (filter (fun e => mem_name (entry_heliostat e) gn) es) = true).
      { apply existsb_exists. exists e. split.
        - apply filter_In. split; auto. apply mem_name_In; auto.
        - rewrite T. reflexivity. }
      congruence. }
    revert T. generalize (rows_of gn es). induction l as [|e l IH]; simpl; intros T; constructor.
    + specialize (T e (or_introl eq_refl)). apply mem_name_In in T.
      destruct (name_to_index_In tn _ T) as [i Hi]. exists i. rewrite Hi. split; auto.
      apply name_to_index_some; auto.
    + apply IH. intros; apply T; auto.
  - intros n Hn. unfold rows_of. clear - ND Hn.
    induction gn as [|m gn IH]; [destruct Hn|]. inversion ND; subst. simpl. rewrite filter_app.
    assert (F1 : forall m es, m <> n ->
       filter (fun e : entry D => String.eqb n (entry_heliostat e)) (of_heliostat m es) = []).
    { clear. intros m es Hm. induction es as [|e es IH]; auto. simpl.
      destruct (String.eqb_spec m (entry_heliostat e)); auto. simpl.
      destruct (String.eqb_spec n (entry_heliostat e)); auto. congruence. }
    assert (F2 : forall es, 
       filter (fun e : entry D => String.eqb n (entry_heliostat e)) (of_heliostat n es)
       = of_heliostat n es).
    { clear. intros es. induction es as [|e es IH]; auto. simpl.
      destruct (String.eqb n (entry_heliostat e)) eqn:E; auto. simpl. rewrite E, IH. auto. }
    assert (F3 : forall gn, ~ In n gn ->
       filter (fun e : entry D => String.eqb n (entry_heliostat e))
              (flat_map (fun n => of_heliostat n es) gn) = []).
    { clear - F1. induction gn; simpl; intros; auto. rewrite filter_app, F1, IHgn; auto. }
    destruct Hn as [->|Hn].
    + rewrite F2, F3 by auto. rewrite app_nil_r. reflexivity.
    + rewrite F1, IH by (auto; intros ->; tauto). reflexivity.
Qed.

(** ** C07 *)
Lemma mapping_direction_ok_iff : forall d,
  mapping_direction_ok d = true <-> acceptable_mapping_direction d.
Proof.
  intros d. unfold mapping_direction_ok, acceptable_mapping_direction, allclose.
  destruct d as [|e [|n [|u [|w [|]]]]];
    try (split; [discriminate|intros (?&?&?&?&H&_); discriminate]).
  rewrite Rabs_R0, Rabs_R1, Rminus_0_r.
  destruct (Rle_dec (Rabs w) (1 / 100 + 1 / 100 * 0)) as [H1|H1];
  destruct (Rle_dec (Rabs (sqrt (e * e + n * n + u * u + w * w) - 1)) (1 / 10000 + 1 / 10000 * 1)) as [H2|H2];
  simpl; (split; [intros H; try discriminate|intros (e'&n'&u'&w'&H&Ha&Hb); injection H as <- <- <- <-]); auto.
  - exists e, n, u, w. split; auto. split; lra.
  - exfalso. apply H2. lra.
  - exfalso. apply H1. lra.
  - exfalso. apply H1. lra.
Qed.

Lemma default_direction_ok_iff : forall d,
  default_direction_ok d = true <-> acceptable_default_direction d.
Proof.
  intros d. unfold default_direction_ok, acceptable_default_direction, allclose.
  destruct d as [|e [|n [|u [|w [|]]]]];
    try (split; [discriminate|intros (?&?&?&?&H&_); discriminate]).
  rewrite Rabs_R0, Rabs_R1, Rminus_0_r.
  destruct (Rle_dec (Rabs w) (1 / 100000000 + 1 / 100000 * 0)) as [H1|H1];
  destruct (Rle_dec (Rabs (sqrt (e * e + n * n + u * u) - 1)) (1 / 100000000 + 1 / 100000 * 1)) as [H2|H2];
  simpl; (split; [intros H; try discriminate|intros (e'&n'&u'&w'&H&Ha&Hb); injection H as <- <- <- <-]); auto.
  - exists e, n, u, w. split; auto. split; lra.
  - exfalso. apply H2. lra.
  - exfalso. apply H1. lra.
  - exfalso. apply H1. lra.
Qed.

Lemma index_mapping_strings_rejects : forall gn tn (es : list (entry (list R))), NoDup gn ->
  (index_mapping_strings mapping_direction_ok gn tn es = Err ValueError <->
   exists e, In e es /\ In (entry_heliostat e) gn /\
     (~ In (entry_target e) tn \/ ~ acceptable_mapping_direction (entry_direction e)))
  /\ (index_mapping_strings mapping_direction_ok gn tn es <> Err ValueError ->
      exists r, index_mapping_strings mapping_direction_ok gn tn es = Ok r).
Proof.
  intros gn tn es ND. rewrite index_mapping_strings_spec by auto.
  set (b := existsb _ _).
  assert (B : b = true <-> exists e, In e es /\ In (entry_heliostat e) gn /\
     (~ In (entry_target e) tn \/ ~ acceptable_mapping_direction (entry_direction e))).
  { unfold b. rewrite existsb_exists. split.
    - intros (e & He & Hb). apply filter_In in He. destruct He as [He1 He2].
      apply mem_name_In in He2. exists e. split; auto. split; auto.
      apply orb_true_iff in Hb. destruct Hb as [Hb|Hb]; apply negb_true_iff in Hb.
      + left. rewrite <- mem_name_In. congruence.
      + right. rewrite <- mapping_direction_ok_iff. congruence.
    - intros (e & He & Hg & Hb). exists e. split.
      + apply filter_In. split; auto. apply mem_name_In; auto.
      + apply orb_true_iff. rewrite !negb_true_iff. rewrite <- mem_name_In, <- mapping_direction_ok_iff in Hb.
        destruct Hb; [left|right]; apply not_true_is_false; auto. }
  rewrite <- B. destruct b; split; try (split; congruence).
  - intros H. congruence.
  - intros _. eauto.
Qed.

Lemma index_mapping_default_rejects : forall gn tn d i,
  (index_mapping_default default_direction_ok gn tn d i = Err ValueError <->
   ~ acceptable_default_direction d \/ (Z.of_nat (List.length (nodup string_dec tn)) <= i)%Z)
  /\ (index_mapping_default default_direction_ok gn tn d i <> Err ValueError ->
      index_mapping_default default_direction_ok gn tn d i =
      Ok {| mr_mask := repeat 1 (List.length gn);
            mr_targets := repeat (Some i) (List.length gn);
            mr_directions := repeat (Some d) (List.length gn) |}).
Proof.
  intros. unfold index_mapping_default, number_of_keys.
  pose proof (default_direction_ok_iff d) as K.
  destruct (default_direction_ok d); simpl.
  - destruct (Z.leb_spec (Z.of_nat (List.length (nodup string_dec tn))) i); split; try congruence; auto.
    + tauto.
    + split; [discriminate|]. intros [H1|H1]; [exfalso; tauto|lia].
  - split; [|congruence]. split; auto. intros _. left. rewrite <- K. discriminate.
Qed.

Lemma default_negative_index_accepted : 
  index_mapping_default default_direction_ok ["h"%string] ["t"%string] [0;1;0;0]%R (-1)%Z
  <> Err ValueError.
Proof.
  intros H. apply index_mapping_default_rejects in H. simpl in H. destruct H as [H|H]; [|lia].
  apply H. exists 0%R, 1%R, 0%R, 0%R. split; auto. rewrite Rabs_R0. split; [lra|].
  replace (0*0+1*1+0*0)%R with 1%R by ring. rewrite sqrt_1.
  replace (1-1)%R with 0%R by ring. rewrite Rabs_R0. lra.
Qed.

(** ** C08 *)
Fixpoint owners_from (start : nat) (mask : list nat) : list nat :=
  match mask with
  | [] => []
  | m :: mask' => repeat start m ++ owners_from (S start) mask'
  end.

Lemma owners_from_ge : forall mask s i, In i (owners_from s mask) -> s <= i < s + List.length mask.
Proof.
  induction mask; simpl; intros s i H; [tauto|].
  apply in_app_or in H. destruct H as [H|H].
  - apply repeat_spec in H. lia.
  - apply IHmask in H. lia.
Qed.

Lemma owners_from_sorted : forall mask s, StronglySorted le (owners_from s mask).
Proof.
  induction mask as [|m mask IH]; simpl; intros s; [constructor|].
  assert (G : forall x, In x (owners_from (S s) mask) -> s <= x)
    by (intros x Hx; apply owners_from_ge in Hx; lia).
  induction m; simpl; auto. constructor; auto.
  apply Forall_app. split.
  - apply Forall_forall. intros x Hx. apply repeat_spec in Hx. lia.
  - apply Forall_forall. auto.
Qed.

Lemma owners_from_count : forall mask s i, s <= i ->
  count_occ Nat.eq_dec (owners_from s mask) i = nth (i - s) mask 0.
Proof.
  induction mask as [|m mask IH]; simpl; intros s i H.
  - destruct (i - s); auto.
  - rewrite count_occ_app.
    destruct (Nat.eq_dec i s).
    + subst. rewrite Nat.sub_diag. rewrite count_occ_repeat_eq by auto.
      assert (C : count_occ Nat.eq_dec (owners_from (S s) mask) s = 0).
      { apply count_occ_not_In. intros I. apply owners_from_ge in I. lia. }
      lia.
    + rewrite count_occ_repeat_neq by auto. simpl. rewrite IH by lia.
      replace (i - s) with (S (i - S s)) by lia. reflexivity.
Qed.

Lemma owners_from_length : forall mask s, List.length (owners_from s mask) = list_sum mask.
Proof. induction mask; simpl; intros; auto. rewrite app_length, repeat_length, IHmask. auto. Qed.

Lemma owners_spec : forall mask, owners_of_mask mask (owners_from 0 mask).
Proof.
  intros. split; [apply owners_from_sorted|]. intros. rewrite owners_from_count by lia.
  rewrite Nat.sub_0_r. auto.
Qed.

Lemma repeat_interleave_ok : forall {A} (rows : list A) mask,
  List.length rows = List.length mask -> exists out, repeat_interleave rows mask = Ok out.
Proof.
  induction rows; destruct mask; simpl; intros; try discriminate; eauto.
  destruct (IHrows mask) as [out ->]; eauto.
Qed.

Lemma repeat_interleave_length : forall {A} (rows : list A) mask out,
  repeat_interleave rows mask = Ok out -> List.length out = list_sum mask.
Proof.
  induction rows; destruct mask; simpl; intros out H; try discriminate.
  - injection H as <-. auto.
  - destruct (repeat_interleave rows mask) eqn:E; [|discriminate].
    injection H as <-. rewrite app_length, repeat_length, (IHrows _ _ E). auto.
Qed.

Lemma repeat_interleave_nth : forall {A} (rows : list A) mask out s k i,
  repeat_interleave rows mask = Ok out -> nth_error (owners_from s mask) k = Some i ->
  exists v, nth_error out k = Some v /\ nth_error rows (i - s) = Some v.
Proof.
  induction rows as [|r rows IH]; destruct mask as [|m mask]; simpl; intros out s k i H Hk; try discriminate.
  - destruct k; discriminate.
  - destruct (repeat_interleave rows mask) as [rest|] eqn:E; [|discriminate]. injection H as <-.
    destruct (Nat.lt_ge_cases k m).
    + rewrite nth_error_app1 in * by (rewrite repeat_length; auto).
      assert (I : In i (repeat s m)) by (eapply nth_error_In; eauto).
      apply repeat_spec in I. subst. rewrite Nat.sub_diag. exists r. split; auto.
      rewrite nth_error_repeat; auto.
    + rewrite nth_error_app2 in * by (rewrite repeat_length; auto). rewrite repeat_length in *.
      assert (I : In i (owners_from (S s) mask)) by (eapply nth_error_In; eauto).
      apply owners_from_ge in I.
      destruct (IH _ _ _ _ _ E Hk) as (v & V1 & V2). exists v. split; auto.
      replace (i - s) with (S (i - S s)) by lia. auto.
Qed.

Lemma repeat_interleave_rows : forall {A} (rows : list A) mask out,
  repeat_interleave rows mask = Ok out -> rows_selected rows out (owners_from 0 mask).
Proof.
  intros. split.
  - rewrite owners_from_length. eapply repeat_interleave_length; eauto.
  - intros k i Hk. destruct (repeat_interleave_nth _ _ _ 0 _ _ H Hk) as (v & V1 & V2).
    rewrite Nat.sub_0_r in V2. eauto.
Qed.

Lemma bind_ok : forall {A B} (r : res A) (f : A -> res B) b,
  bind r f = Ok b -> exists a, r = Ok a /\ f a = Ok b.
Proof. destruct r; simpl; intros; [eauto|discriminate]. Qed.

Definition effective_mask {V} (g : group_state V) (m : option (list nat)) : list nat :=
  match m with Some m => m | None => repeat 1 (List.length (gd_positions (gs_base g))) end.

Lemma activate_inv : forall {V} (g g' : group_state V) m, activate_heliostats g m = Ok g' ->
  gs_base g' = gs_base g /\ gs_mask g' = effective_mask g m /\
  gs_number_of_active g' = list_sum (gs_mask g') /\
  (forall attr, In attr essential_attributes ->
     repeat_interleave (attr (gs_base g)) (gs_mask g') = Ok (attr (gs_active g'))) /\
  (match gd_actuator_optimizable (gs_active g) with
   | [] => gd_actuator_optimizable (gs_active g') = []
   | _ => repeat_interleave (gd_actuator_optimizable (gs_base g)) (gs_mask g')
          = Ok (gd_actuator_optimizable (gs_active g'))
   end).
Proof.
  intros V g g' m H. unfold activate_heliostats in H. fold (effective_mask g m) in H.
  repeat (apply bind_ok in H; destruct H as (? & ? & H)).
  injection H as <-. simpl. split; auto. split; auto. split; auto. split.
  - intros attr Hin. unfold essential_attributes in Hin. simpl in Hin.
    repeat (destruct Hin as [<-|Hin]; [simpl; assumption|]). destruct Hin.
  - destruct (gd_actuator_optimizable (gs_active g)); [congruence|auto].
Qed.

Lemma activation_aligned : forall {V} (base : group_data V) history m g,
  activate_all (new_group base) (history ++ [m]) = Ok g ->
  exists owners,
    gs_base g = base
    /\ owners_of_mask (match m with Some m => m | None => repeat 1 (List.length (gd_positions base)) end) owners
    /\ gs_number_of_active g = List.length owners
    /\ forall attr, In attr essential_attributes -> rows_selected (attr base) (attr (gs_active g)) owners.
Proof.
  intros V base history m g.
  assert (G : forall g0, gs_base g0 = base -> activate_all g0 (history ++ [m]) = Ok g ->
    exists owners,
    gs_base g = base
    /\ owners_of_mask (match m with Some m => m | None => repeat 1 (List.length (gd_positions base)) end) owners
    /\ gs_number_of_active g = List.length owners
    /\ forall attr, In attr essential_attributes -> rows_selected (attr base) (attr (gs_active g)) owners).
  { induction history as [|m0 history IH]; simpl; intros g0 Hb H.
    - apply bind_ok in H. destruct H as (g1 & H & E). injection E as ->.
      apply activate_inv in H. destruct H as (B & M & N & A & _).
      exists (owners_from 0 (gs_mask g)). split; [congruence|]. split.
      + rewrite M. unfold effective_mask. rewrite Hb. apply owners_spec.
      + split; [rewrite owners_from_length; auto|].
        intros attr Ha. apply repeat_interleave_rows. rewrite <- Hb. auto.
    - apply bind_ok in H. destruct H as (g1 & H & E).
      apply (IH g1); auto. apply activate_inv in H. destruct H as (B & _). congruence. }
  apply G. reflexivity.
Qed.

Lemma activation_succeeds : forall {V} (g : group_state V) mask, well_formed_data (gs_base g) ->
  List.length mask = List.length (gd_positions (gs_base g)) ->
  exists g', activate_heliostats g (Some mask) = Ok g'.
Proof.
  intros V g mask W L. unfold activate_heliostats.
  assert (R : forall attr, In attr (gd_actuator_optimizable :: essential_attributes) ->
     exists out, repeat_interleave (attr (gs_base g)) mask = Ok out).
  { intros attr Ha. apply repeat_interleave_ok. rewrite (W attr Ha). auto. }
  unfold essential_attributes in R.
  repeat match goal with
  | |- context [bind (repeat_interleave (?a (gs_base g)) mask) _] =>
      let out := fresh "out" in let E := fresh "E" in
      destruct (R a) as [out E]; [simpl; tauto|]; rewrite E; cbn [bind]
  end.
  destruct (gd_actuator_optimizable (gs_active g)).
  - cbn [bind]. eauto.
  - destruct (R gd_actuator_optimizable) as [o E']; [simpl; tauto|]. rewrite E'. cbn [bind]. eauto.
Qed.

(** Optimizable actuator parameters: fine as long as no earlier activation was empty. *)
Lemma activation_optimizable : forall {V} (base : group_data V) history m g,
  gd_actuator_optimizable base <> [] ->
  (forall m', In (Some m') history -> 0 < list_sum m') ->
  0 < List.length (gd_positions base) ->
  activate_all (new_group base) (history ++ [m]) = Ok g ->
  exists owners,
    owners_of_mask (match m with Some m => m | None => repeat 1 (List.length (gd_positions base)) end) owners
    /\ rows_selected (gd_actuator_optimizable base) (gd_actuator_optimizable (gs_active g)) owners.
Proof.
  intros V base history m g Hne Hh Hp.
  assert (G : forall g0, gs_base g0 = base -> gd_actuator_optimizable (gs_active g0) <> [] ->
    activate_all g0 (history ++ [m]) = Ok g ->
    exists owners,
    owners_of_mask (match m with Some m => m | None => repeat 1 (List.length (gd_positions base)) end) owners
    /\ rows_selected (gd_actuator_optimizable base) (gd_actuator_optimizable (gs_active g)) owners).
  { induction history as [|m0 history IH]; simpl; intros g0 Hb Hao H.
    - apply bind_ok in H. destruct H as (g1 & H & E). injection E as ->.
      apply activate_inv in H. destruct H as (B & M & N & _ & A).
      exists (owners_from 0 (gs_mask g)). split.
      + rewrite M. unfold effective_mask. rewrite Hb. apply owners_spec.
      + destruct (gd_actuator_optimizable (gs_active g0)); [congruence|].
        rewrite Hb in A. apply repeat_interleave_rows. auto.
    - apply bind_ok in H. destruct H as (g1 & H & E).
      apply activate_inv in H. destruct H as (B & M & N & _ & A).
      apply (IH (fun m' Hm => Hh m' (or_intror Hm)) g1); auto; [congruence|].
      destruct (gd_actuator_optimizable (gs_active g0)); [congruence|].
      apply repeat_interleave_length in A. intros X. rewrite X in A. simpl in A.
      rewrite M in A. unfold effective_mask in A. destruct m0 as [m0|].
      + specialize (Hh m0 (or_introl eq_refl)). lia.
      + rewrite Hb in A. destruct (List.length (gd_positions base)); simpl in *; lia. }
  apply G; auto.
Qed.

Lemma tiny_data_wf : well_formed_data tiny_data.
Proof. intros attr H. simpl in H. repeat (destruct H as [<-|H]; [reflexivity|]). destruct H. Qed.

Lemma activation_history_refuted :
  exists g, activate_all (new_group tiny_data) [Some [0]; Some [1]] = Ok g /\
    gd_actuator_fixed (gs_active g) = [11] /\ gd_actuator_optimizable (gs_active g) = [].
Proof. eexists. split; [reflexivity|]. split; reflexivity. Qed.

(** ** C09 *)
Lemma arange_step_blocks : forall h per, 1 <= per -> arange_step (h * per) per = map (fun k => k * per) (seq 0 h).
Proof.
  intros. unfold arange_step.
  replace ((h * per + per - 1) / per) with h; auto.
  symmetry. symmetry. apply (Nat.div_unique _ _ _ (per - 1)); nia.
Qed.

Lemma flat_map_app_perm : forall {A B} (f g : A -> list B) l,
  Permutation (flat_map f l ++ flat_map g l) (flat_map (fun x => f x ++ g x) l).
Proof.
  intros. rewrite !flat_map_concat_map. symmetry. apply concat_map_app_perm.
Qed.

Lemma map_add_seq : forall a n s, map (fun k => a + k) (seq s n) = seq (a + s) n.
Proof. induction n; simpl; intros; auto. rewrite IHn. do 2 f_equal. lia. Qed.

Definition active_rows {A} (rows : list A) (mask : list nat) : list A :=
  map fst (filter (fun rm => 0 <? snd rm) (combine rows mask)).

Lemma repeat_interleave_even : forall {A} (rows : list A) mask (f : nat -> nat) per,
  List.length rows = List.length mask ->
  (forall m, In m mask -> m = 0 \/ m = per) -> 1 <= per -> f 0 = 0 ->
  repeat_interleave rows (map f mask) =
  Ok (flat_map (fun r => repeat r (f per)) (active_rows rows mask)).
Proof.
  induction rows as [|r rows IH]; destruct mask as [|m mask]; simpl; intros f per L H P F; try discriminate; auto.
  rewrite (IH mask f per) by (auto; lia).
  unfold active_rows. simpl. destruct (H m (or_introl eq_refl)); subst m; simpl.
  - rewrite F. reflexivity.
  - destruct per; [lia|]. reflexivity.
Qed.

Lemma active_rows_length : forall {A} (rows : list A) mask, List.length rows = List.length mask ->
  List.length (active_rows rows mask) = List.length (filter (fun m => 0 <? m) mask).
Proof.
  induction rows as [|r rows IH]; destruct mask as [|m mask]; simpl; intros; try discriminate; auto.
  unfold active_rows in *. simpl. destruct (0 <? m); simpl; rewrite IH; auto.
Qed.

Lemma select_rows_const : forall {A} (full : list A) r l,
  (forall i, In i l -> nth_error full i = Some r) ->
  select_rows full l = Ok (repeat r (List.length l)).
Proof.
  induction l; simpl; intros; auto. rewrite (H a) by auto. rewrite IHl by auto. reflexivity.
Qed.

Lemma select_rows_app : forall {A} (full : list A) l1 l2,
  select_rows full (l1 ++ l2) =
  bind (select_rows full l1) (fun a => bind (select_rows full l2) (fun b => Ok (a ++ b))).
Proof.
  induction l1; simpl; intros.
  - destruct (select_rows full l2); auto.
  - destruct (nth_error full a); auto. rewrite IHl1.
    destruct (select_rows full l1); simpl; auto. destruct (select_rows full l2); auto.
Qed.

Lemma nth_error_blocks : forall {A} per (ar : list A) h k r,
  nth_error ar h = Some r -> k < per ->
  nth_error (flat_map (fun r => repeat r per) ar) (h * per + k) = Some r.
Proof.
  induction ar as [|x ar IH]; intros h k r H K; [destruct h; discriminate|]. simpl.
  destruct h; simpl in *.
  - injection H as ->. rewrite nth_error_app1 by (rewrite repeat_length; lia).
    apply nth_error_repeat; auto.
  - rewrite nth_error_app2 by (rewrite repeat_length; lia). rewrite repeat_length.
    replace (per + h * per + k - per) with (h * per + k) by lia. auto.
Qed.

Lemma select_blocks : forall {A} per idx (ar pre : list A),
  (forall k, In k idx -> k < per) ->
  select_rows (flat_map (fun r => repeat r per) (pre ++ ar))
     (flat_map (fun h => map (fun k => h * per + k) idx) (seq (List.length pre) (List.length ar)))
  = Ok (flat_map (fun r => repeat r (List.length idx)) ar).
Proof.
  induction ar as [|r ar IH]; intros pre H; simpl; auto.
  rewrite select_rows_app.
  rewrite (select_rows_const _ r).
  - simpl. specialize (IH (pre ++ [r]) H). rewrite <- app_assoc in IH. simpl in IH.
    rewrite app_length in IH. simpl in IH. rewrite Nat.add_1_r in IH. rewrite IH. simpl.
    rewrite map_length. reflexivity.
  - intros i Hi. apply in_map_iff in Hi. destruct Hi as (k & <- & Hk).
    apply nth_error_blocks; auto. rewrite nth_error_app2, Nat.sub_diag by auto. reflexivity.
Qed.

Lemma even_mask_total : forall per mask,
  (forall m, In m mask -> m = 0 \/ m = per) ->
  list_sum mask = List.length (filter (fun m => 0 <? m) mask) * per.
Proof. apply mask_even_samples. Qed.

Lemma split_spec : forall per mask tc,
  (forall m, In m mask -> m = 0 \/ m = per) -> In per mask -> 2 <= per -> tc per < per ->
  exists s, train_test_split mask tc = Ok s
   /\ sr_per_heliostat s = per
   /\ 1 <= sr_number_of_train s /\ 1 <= sr_number_of_test s
   /\ sr_number_of_train s + sr_number_of_test s = per
   /\ Permutation (sr_train_indices s ++ sr_test_indices s) (seq 0 (list_sum mask))
   /\ (forall (A : Type) (rows full : list A), repeat_interleave rows mask = Ok full ->
         exists train_rows test_rows,
           select_rows full (sr_train_indices s) = Ok train_rows
           /\ repeat_interleave rows (sr_mask_train s) = Ok train_rows
           /\ select_rows full (sr_test_indices s) = Ok test_rows
           /\ repeat_interleave rows (sr_mask_test s) = Ok test_rows)
   /\ (forall i, nth i mask 0 = per -> nth i (sr_mask_train s) 0 = sr_number_of_train s
                                     /\ nth i (sr_mask_test s) 0 = sr_number_of_test s)
   /\ (forall i, nth i mask 0 = 0 -> nth i (sr_mask_train s) 0 = 0 /\ nth i (sr_mask_test s) 0 = 0).
Proof.
  intros per mask tc He Hin Hper Htc.
  set (h := List.length (filter (fun m => 0 <? m) mask)).
  assert (Hh : 1 <= h).
  { unfold h. assert (I : In per (filter (fun m => 0 <? m) mask))
      by (apply filter_In; split; auto; apply Nat.ltb_lt; lia).
    destruct (filter _ mask); [destruct I|simpl; lia]. }
  assert (Ht : list_sum mask = h * per) by (apply even_mask_total; auto).
  unfold train_test_split. fold h. rewrite Ht.
  destruct (Nat.eqb_spec h 0); [lia|].
  rewrite (Nat.mul_comm h per), Nat.div_mul by lia. rewrite (Nat.mul_comm per h).
  set (test := Nat.max 1 (tc per)).
  destruct (Nat.ltb_spec per test); [lia|].
  rewrite arange_step_blocks by lia.
  eexists. split; [reflexivity|]. simpl.
  split; auto. split; [lia|]. split; [lia|]. split; [lia|]. split; [|split].
  - rewrite flat_map_map. rewrite flat_map_app_perm.
    rewrite (flat_map_ext_in _ (fun x => seq (x * per) per)).
    + rewrite flat_map_seq_blocks. reflexivity.
    + intros x _. rewrite !map_add_seq, Nat.add_0_r.
      rewrite <- seq_app. f_equal. lia.
  - intros A rows full HR.
    assert (L : List.length rows = List.length mask).
    { clear - HR. revert mask full HR. induction rows; destruct mask; simpl; intros; try discriminate; auto.
      destruct (repeat_interleave rows mask) eqn:E; [|discriminate]. f_equal. eauto. }
    pose proof (repeat_interleave_even rows mask (fun m => m) per L He ltac:(lia) eq_refl) as E0.
    rewrite map_id in E0. rewrite HR in E0. injection E0 as ->.
    exists (flat_map (fun r => repeat r (per - test)) (active_rows rows mask)).
    exists (flat_map (fun r => repeat r test) (active_rows rows mask)).
    assert (AL : h = List.length (active_rows rows mask)) by (symmetry; apply active_rows_length; auto).
    split; [|split; [|split]].
    + rewrite flat_map_map. rewrite AL.
      pose proof (select_blocks per (seq 0 (per - test)) (active_rows rows mask) []) as S0.
      simpl in S0. rewrite S0.
      * rewrite seq_length. reflexivity.
      * intros k Hk. apply in_seq in Hk. lia.
    + rewrite (repeat_interleave_even rows mask (fun m => m - test) per); auto; lia.
    + rewrite AL.
      pose proof (select_blocks per (seq (per - test) test) (active_rows rows mask) []) as S0.
      simpl in S0. rewrite S0.
      * rewrite seq_length. reflexivity.
      * intros k Hk. apply in_seq in Hk. lia.
    + rewrite (repeat_interleave_even rows mask (fun m => m - (per - test)) per); auto; try lia.
      replace (per - (per - test)) with test by lia. reflexivity.
  - assert (N : forall (f : nat -> nat) i, f 0 = 0 -> nth i (map f mask) 0 = f (nth i mask 0)).
    { intros f i F. rewrite <- F at 1. apply map_nth. }
    split; intros i Hi; rewrite !N by lia; rewrite Hi; lia.
Qed.

(** ** C58 *)
Lemma index_to_target_area_from_length : forall types t,
  List.length (index_to_target_area_from t types) = List.length (List.concat types).
Proof.
  induction types; simpl; intros; auto.
  rewrite !app_length, map_length, seq_length, IHtypes. auto.
Qed.

Lemma index_to_target_area_spec : forall types t i tl,
  nth_error (index_to_target_area_from t types) i = Some tl ->
  exists names, nth_error types (fst tl - t) = Some names /\ t <= fst tl
    /\ nth_error names (snd tl) = nth_error (List.concat types) i.
Proof.
  induction types as [|names types IH]; simpl; intros t i tl H; [destruct i; discriminate|].
  destruct (Nat.lt_ge_cases i (List.length names)).
  - rewrite nth_error_app1 in H by (rewrite map_length, seq_length; auto).
    rewrite (map_nth_error _ _ _ (d := i)) in H.
    + injection H as <-. simpl. rewrite Nat.sub_diag. exists names. split; auto. split; auto.
      rewrite nth_error_app1; auto.
    + rewrite (nth_error_nth' _ 0) by (rewrite seq_length; auto). rewrite seq_nth; auto.
  - rewrite nth_error_app2 in H by (rewrite map_length, seq_length; auto).
    rewrite map_length, seq_length in H. apply IH in H.
    destruct H as (ns & H1 & H2 & H3). exists ns.
    replace (fst tl - t) with (S (fst tl - S t)) by lia. simpl. split; auto. split; [lia|].
    rewrite nth_error_app2 by auto. auto.
Qed.

Lemma target_lookup : forall types name i,
  name_to_index (List.concat types) name = Some i ->
  exists t l names, nth_error (index_to_target_area types) i = Some (t, l)
    /\ nth_error types t = Some names /\ nth_error names l = Some name.
Proof.
  intros types name i H. pose proof (name_to_index_some _ _ _ H) as N.
  destruct (nth_error (index_to_target_area types) i) as [[t l]|] eqn:E.
  - destruct (index_to_target_area_spec types 0 i (t, l) E) as (names & H1 & H2 & H3).
    simpl in *. rewrite Nat.sub_0_r in H1. exists t, l, names. rewrite H3. auto.
  - apply nth_error_None in E. unfold index_to_target_area in E.
    rewrite index_to_target_area_from_length in E.
    assert (i < List.length (List.concat types)) by (apply nth_error_Some; congruence). lia.
Qed.

Lemma target_lookup_total : forall types name, In name (List.concat types) ->
  exists i, name_to_index (List.concat types) name = Some i /\ i < List.length (List.concat types).
Proof.
  intros. destruct (name_to_index_In _ _ H) as [i Hi]. exists i. split; auto.
  apply name_to_index_some in Hi. apply nth_error_Some. congruence.
Qed.

Lemma target_lookup_unique : forall types name i, NoDup (List.concat types) ->
  nth_error (List.concat types) i = Some name -> name_to_index (List.concat types) name = Some i.
Proof. intros; apply name_to_index_nodup; auto. Qed.

Lemma centers_spec : forall {P C A} (fp : P -> A) (fc : C -> A) planar cyl i,
  (forall p, nth_error planar i = Some p -> center_of_target_area fp fc planar cyl i = Some (fp p))
  /\ (forall k c, nth_error cyl k = Some c ->
        center_of_target_area fp fc planar cyl (List.length planar + k) = Some (fc c))
  /\ (List.length planar + List.length cyl <= i -> center_of_target_area fp fc planar cyl i = None).
Proof.
  intros. unfold center_of_target_area. split; [|split].
  - intros p Hp. assert (i < List.length planar) by (apply nth_error_Some; congruence).
    destruct (Nat.ltb_spec i (List.length planar)); [|lia]. rewrite Hp. auto.
  - intros k c Hc. destruct (Nat.ltb_spec (List.length planar + k) (List.length planar)); [lia|].
    rewrite Nat.add_comm, Nat.add_sub. rewrite Hc. auto.
  - intros H. destruct (Nat.ltb_spec i (List.length planar)); [lia|].
    replace (nth_error cyl (i - List.length planar)) with (@None C); auto.
    symmetry. apply nth_error_None. lia.
Qed.

(** * Assembled statements *)
Lemma default_index_refuted :
  ~ (forall group_names target_names d i r,
       index_mapping_default default_direction_ok group_names target_names d i = Ok r ->
       (0 <= i < Z.of_nat (List.length target_names))%Z).
Proof.
  intros H.
  pose proof (proj2 (index_mapping_default_rejects ["h"%string] ["t"%string] [0;1;0;0]%R (-1)%Z)
                default_negative_index_accepted) as E.
  apply H in E. lia.
Qed.

Lemma foreign_entries_refuted :
  ~ (forall group_names target_names (mapping : list (entry (list R))) r,
       NoDup group_names ->
       index_mapping_strings mapping_direction_ok group_names target_names mapping = Ok r ->
       forall e, In e mapping -> In (entry_target e) target_names).
Proof.
  intros H.
  specialize (H ["A"%string] ["s"%string] [("X"%string, "nowhere"%string, [])] 
     {| mr_mask := [0]; mr_targets := []; mr_directions := [] |}
     ltac:(repeat constructor; simpl; tauto) eq_refl _ (or_introl eq_refl)).
  simpl in H. destruct H as [H|[]]. discriminate.
Qed.

Lemma index_mapping_rejects : forall group_names target_names,
  NoDup group_names ->
  (forall mapping : list (entry (list R)),
     (index_mapping_strings mapping_direction_ok group_names target_names mapping = Err ValueError <->
      exists e, In e mapping /\ In (entry_heliostat e) group_names /\
        (~ In (entry_target e) target_names \/ ~ acceptable_mapping_direction (entry_direction e)))
     /\ (index_mapping_strings mapping_direction_ok group_names target_names mapping <> Err ValueError ->
         exists r, index_mapping_strings mapping_direction_ok group_names target_names mapping = Ok r))
  /\ (forall d i,
     (index_mapping_default default_direction_ok group_names target_names d i = Err ValueError <->
      ~ acceptable_default_direction d
      \/ (Z.of_nat (List.length (nodup string_dec target_names)) <= i)%Z)
     /\ (index_mapping_default default_direction_ok group_names target_names d i <> Err ValueError ->
         index_mapping_default default_direction_ok group_names target_names d i =
         Ok {| mr_mask := repeat 1 (List.length group_names);
               mr_targets := repeat (Some i) (List.length group_names);
               mr_directions := repeat (Some d) (List.length group_names) |})).
Proof.
  intros. split; intros.
  - apply index_mapping_strings_rejects; auto.
  - apply index_mapping_default_rejects.
Qed.

Lemma activation_alignment_refuted :
  exists g, well_formed_data tiny_data
    /\ activate_all (new_group tiny_data) [Some [0]; Some [1]] = Ok g
    /\ ~ (exists owners, owners_of_mask [1] owners /\
            rows_selected (gd_actuator_optimizable tiny_data)
                          (gd_actuator_optimizable (gs_active g)) owners).
Proof.
  destruct activation_history_refuted as (g & H1 & H2 & H3).
  exists g. split; [apply tiny_data_wf|]. split; auto.
  intros (owners & [_ O2] & [R1 _]). rewrite H3 in R1. specialize (O2 0).
  destruct owners; [simpl in O2; discriminate|simpl in R1; discriminate].
Qed.

Lemma strongly_sorted_count_unique : forall l1 l2,
  StronglySorted le l1 -> StronglySorted le l2 ->
  (forall i, count_occ Nat.eq_dec l1 i = count_occ Nat.eq_dec l2 i) -> l1 = l2.
Proof.
  induction l1 as [|x l1 IH]; intros l2 S1 S2 H.
  - destruct l2 as [|y l2]; auto. specialize (H y). simpl in H.
    destruct (Nat.eq_dec y y); [discriminate|congruence].
  - destruct l2 as [|y l2].
    + specialize (H x). simpl in H. destruct (Nat.eq_dec x x); [discriminate|congruence].
    + assert (x = y).
      { inversion S1; inversion S2; subst.
        assert (I1 : In x (y :: l2)).
        { apply (count_occ_In Nat.eq_dec). rewrite <- H. simpl. destruct (Nat.eq_dec x x); [lia|congruence]. }
        assert (I2 : In y (x :: l1)).
        { apply (count_occ_In Nat.eq_dec). rewrite H. simpl. destruct (Nat.eq_dec y y); [lia|congruence]. }
        destruct I1 as [|I1]; auto. destruct I2 as [|I2]; auto.
        rewrite Forall_forall in H3, H7. specialize (H3 _ I2). specialize (H7 _ I1). lia. }
      subst y. f_equal. inversion S1; inversion S2; subst. apply IH; auto.
      intros i. specialize (H i). simpl in H. destruct (Nat.eq_dec x i); congruence.
Qed.

Lemma owners_unique : forall mask o1 o2, owners_of_mask mask o1 -> owners_of_mask mask o2 -> o1 = o2.
Proof.
  intros mask o1 o2 [A1 A2] [B1 B2]. apply strongly_sorted_count_unique; auto.
  intros. rewrite A2, B2. auto.
Qed.

Lemma activation_alignment : forall {V : Type} (base : group_data V) history m g,
  activate_all (new_group base) (history ++ [m]) = Ok g ->
  exists owners,
    gs_base g = base
    /\ owners_of_mask (match m with
                       | Some m => m
                       | None => repeat 1 (List.length (gd_positions base)) end) owners
    /\ gs_number_of_active g = List.length owners
    /\ (forall attr, In attr essential_attributes -> rows_selected (attr base) (attr (gs_active g)) owners)
    /\ (gd_actuator_optimizable base <> [] -> 0 < List.length (gd_positions base) ->
        (forall m', In (Some m') history -> 0 < list_sum m') ->
        rows_selected (gd_actuator_optimizable base) (gd_actuator_optimizable (gs_active g)) owners).
Proof.
  intros V base history m g H.
  destruct (activation_aligned base history m g H) as (owners & A & B & C & E).
  exists owners. split; [auto|]. split; [auto|]. split; [auto|]. split; [auto|].
  intros H0 H1 H2.
  destruct (activation_optimizable base history m g H0 H2 H1 H) as (o2 & O1 & O2).
  rewrite (owners_unique _ _ _ B O1). exact O2.
Qed.

(** One empty activation loses the optimizable actuator parameters of all later activations. *)
Lemma optimizable_stays_empty : forall {V : Type} masks (g0 g : group_state V),
  gd_actuator_optimizable (gs_active g0) = [] -> activate_all g0 masks = Ok g ->
  gd_actuator_optimizable (gs_active g) = [].
Proof.
  induction masks as [|m masks IH]; simpl; intros g0 g E H.
  - injection H as <-. exact E.
  - apply bind_ok in H. destruct H as (g1 & H & H'). apply (IH g1); auto.
    apply activate_inv in H. destruct H as (_ & _ & _ & _ & A). rewrite E in A. exact A.
Qed.
Lemma interleave_nothing : forall {A} (rows out : list A) mask,
  list_sum mask = 0 -> repeat_interleave rows mask = Ok out -> out = [].
Proof.
  induction rows as [|r rows IH]; intros out [|m mask] H E; simpl in E; try discriminate.
  - congruence.
  - destruct (repeat_interleave rows mask) as [o|] eqn:Q; [|discriminate]. simpl in H.
    assert (m = 0) by lia. subst m. injection E as <-. apply (IH _ mask); auto; lia.
Qed.
Lemma empty_activation : forall {V : Type} (base : group_data V) before m0 after m g,
  list_sum m0 = 0 -> 0 < list_sum m ->
  activate_all (new_group base) (before ++ Some m0 :: after ++ [Some m]) = Ok g ->
  gd_actuator_optimizable (gs_active g) = []
  /\ gs_number_of_active g = list_sum m
  /\ ~ exists owners, owners_of_mask m owners /\
        rows_selected (gd_actuator_optimizable base) (gd_actuator_optimizable (gs_active g)) owners.
Proof.
  intros V base before m0 after m g Z P H.
  assert (E : gd_actuator_optimizable (gs_active g) = []).
  { revert H. generalize (new_group base) as g0. induction before as [|b before IH]; simpl; intros g0 H.
    - apply bind_ok in H. destruct H as (g1 & H & H'). apply (optimizable_stays_empty _ g1) in H'; auto.
      apply activate_inv in H. destruct H as (_ & M & _ & _ & A). simpl in M.
      destruct (gd_actuator_optimizable (gs_active g0)) as [|x l].
      + congruence.
      + rewrite M in A. apply interleave_nothing in A; auto.
    - apply bind_ok in H. destruct H as (g1 & H & H'). apply (IH g1). auto. }
  split; [exact E|].
  assert (L : before ++ Some m0 :: after ++ [Some m] = (before ++ Some m0 :: after) ++ [Some m])
    by (rewrite <- app_assoc; reflexivity).
  rewrite L in H. destruct (activation_aligned base _ _ g H) as (owners & _ & B & C & _).
  assert (N : List.length owners = list_sum m).
  { rewrite (owners_unique _ _ _ B (owners_spec m)). apply owners_from_length. }
  split; [congruence|].
  intros (o & O1 & [O2 _]). rewrite (owners_unique _ _ _ O1 B) in O2. rewrite E in O2. simpl in O2. lia.
Qed.

Lemma fraction_admissible : forall (f : R) (n : nat),
  (0 <= f < 1)%R -> 1 <= n -> Z.to_nat (Int_part (INR n * f)) < n.
Proof.
  intros f n Hf Hn.
  assert (P : (0 < INR n)%R) by (apply lt_0_INR; lia).
  pose proof (base_Int_part (INR n * f)) as [B1 B2].
  assert (L : (IZR (Int_part (INR n * f)) < INR n)%R) by nra.
  revert L. generalize (Int_part (INR n * f)) as z. intros z L.
  rewrite INR_IZR_INZ in L. apply lt_IZR in L. lia.
Qed.

Lemma target_names_and_indices : forall types : list (list string),
  (forall name, In name (List.concat types) ->
     exists i, name_to_index (List.concat types) name = Some i /\ i < List.length (List.concat types))
  /\ (forall name i, name_to_index (List.concat types) name = Some i ->
        exists t l names, nth_error (index_to_target_area types) i = Some (t, l)
          /\ nth_error types t = Some names /\ nth_error names l = Some name)
  /\ (NoDup (List.concat types) -> forall name i, nth_error (List.concat types) i = Some name ->
        name_to_index (List.concat types) name = Some i)
  /\ List.length (index_to_target_area types) = List.length (List.concat types).
Proof.
  intros. split; [apply target_lookup_total|]. split; [apply target_lookup|].
  split; [intros; apply target_lookup_unique; auto|]. apply index_to_target_area_from_length.
Qed.
