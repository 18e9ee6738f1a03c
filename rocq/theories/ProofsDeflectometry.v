(** Proofs about the choice of deflectometry files (C151). *)
From Coq Require Import List Arith NArith String Ascii Bool Lia Sorted.
From Verif Require Import ModelDeflectometry SpecDeflectometry.
Import ListNotations.
Local Open Scope string_scope.

(** ** The order of names *)
Definition before (a b : string) : Prop := String.compare a b <> Gt.
Lemma ascii_compare_spec : forall x y, Ascii.compare x y = Nat.compare (nat_of_ascii x) (nat_of_ascii y).
Proof.
  intros. unfold Ascii.compare, nat_of_ascii. rewrite N2Nat.inj_compare. reflexivity.
Qed.
Lemma compare_cons : forall x a y b, String.compare (String x a) (String y b) =
  match Nat.compare (nat_of_ascii x) (nat_of_ascii y) with Eq => String.compare a b | c => c end.
Proof. intros. cbn [String.compare]. rewrite ascii_compare_spec. reflexivity. Qed.
Lemma before_refl : forall a, before a a.
Proof. intros a H. pose proof (String.compare_antisym a a) as A. rewrite H in A. discriminate. Qed.
Lemma before_total : forall a b, String.compare a b = Gt -> before b a.
Proof. intros a b H. unfold before. rewrite String.compare_antisym, H. cbn. discriminate. Qed.
Lemma before_trans : forall a b c, before a b -> before b c -> before a c.
Proof.
  unfold before. induction a as [|x a IH]; intros [|y b] [|z c] H1 H2; try (cbn in *; congruence).
  rewrite compare_cons in *. 
  destruct (Nat.compare_spec (nat_of_ascii x) (nat_of_ascii y)); destruct (Nat.compare_spec (nat_of_ascii y) (nat_of_ascii z));
  destruct (Nat.compare_spec (nat_of_ascii x) (nat_of_ascii z)); try lia; try congruence. eapply IH; eauto.
Qed.
Lemma compare_app : forall p a b, String.compare (p ++ a) (p ++ b) = String.compare a b.
Proof. induction p as [|x p IH]; intros; [reflexivity|]. cbn [append]. rewrite compare_cons, Nat.compare_refl. apply IH. Qed.

(** ** The last of the sorted names *)
Lemma in_insert : forall x l y, In y (insert_name x l) <-> y = x \/ In y l.
Proof.
  intros x. induction l as [|z l IH]; intros y; cbn [insert_name]; [cbn; intuition|].
  destruct (String.compare x z); cbn [In]; rewrite ?IH; intuition.
Qed.
Lemma in_sorted : forall l y, In y (sorted_names l) <-> In y l.
Proof. induction l as [|x l IH]; intros; cbn; [tauto|]. rewrite in_insert. fold (sorted_names l). rewrite IH. intuition. Qed.
Lemma insert_sorted : forall x l, StronglySorted before l -> StronglySorted before (insert_name x l).
Proof.
  intros x. induction l as [|z l IH]; intros H; cbn [insert_name]; [repeat constructor|].
  apply StronglySorted_inv in H as (H & F). rewrite Forall_forall in F.
  assert (G : before x z -> StronglySorted before (x :: z :: l)).
  { intros B. constructor; [constructor; auto; apply Forall_forall; auto|]. constructor; auto. apply Forall_forall. intros y Y. apply (before_trans x z y); auto. }
  destruct (String.compare x z) eqn:E; [apply G; unfold before; congruence..|].
  constructor; auto. apply Forall_forall. intros y Y. apply in_insert in Y as [->|Y]; auto. apply before_total. auto.
Qed.
Lemma sorted_sorted : forall l, StronglySorted before (sorted_names l).
Proof. induction l; cbn; [constructor|]. apply insert_sorted. auto. Qed.
Lemma last_of_sorted : forall l, l <> [] -> StronglySorted before l -> In (last l EmptyString) l /\ forall y, In y l -> before y (last l EmptyString).
Proof.
  induction l as [|x l IH]; intros N H; [congruence|]. apply StronglySorted_inv in H as (H & F). rewrite Forall_forall in F.
  destruct l as [|y l]; [cbn; split; auto; intros y [<-|[]]; apply before_refl|].
  destruct (IH ltac:(discriminate) H) as (I & M). change (last (x :: y :: l) EmptyString) with (last (y :: l) EmptyString).
  split; [right; auto|]. intros z [<-|Z]; auto.
Qed.
Lemma find_latest_spec : forall h files f, find_latest h files = Some f ->
  In f files /\ matches h f = true /\ forall g, In g files -> matches h g = true -> before g f.
Proof.
  intros h files f. unfold find_latest. destruct (sorted_names (filter (matches h) files)) as [|x l] eqn:E; [discriminate|].
  intros F. assert (F' : last (x :: l) EmptyString = f) by congruence. clear F.
  destruct (last_of_sorted (x :: l)) as (I & M); [discriminate|rewrite <- E; apply sorted_sorted|].
  rewrite F' in *. rewrite <- E, in_sorted, filter_In in I. destruct I as (I & I'). split; auto. split; auto.
  intros g G1 G2. apply M. rewrite <- E, in_sorted, filter_In. auto.
Qed.
Lemma find_latest_none : forall h files, find_latest h files = None <-> forall g, In g files -> matches h g = false.
Proof.
  intros h files. unfold find_latest. destruct (sorted_names (filter (matches h) files)) as [|x l] eqn:E.
  - split; auto. intros _ g G. destruct (matches h g) eqn:M; auto. exfalso.
    assert (I : In g (sorted_names (filter (matches h) files))) by (apply in_sorted, filter_In; auto). rewrite E in I. auto.
  - split; [discriminate|]. intros H. assert (I : In x (sorted_names (filter (matches h) files))) by (rewrite E; cbn; auto).
    rewrite in_sorted, filter_In in I. destruct I as (I & M). rewrite H in M by auto. discriminate.
Qed.

(** ** The pattern *)
Lemma ends_with_spec : forall tail s, ends_with tail s = true <-> exists r, s = r ++ tail.
Proof.
  intros tail. induction s as [|x s IH]; cbn [ends_with].
  - destruct (String.eqb_spec "" tail) as [<-|N]; split; auto.
    + intros _. exists "". reflexivity.
    + discriminate.
    + intros (r & E). destruct r; [cbn in E; congruence|discriminate].
  - destruct (String.eqb_spec (String x s) tail) as [<-|N]; split; auto.
    + intros _. exists "". reflexivity.
    + rewrite IH. intros (r & ->). exists (String x r). reflexivity.
    + intros (r & E). destruct r as [|y r]; [cbn in E; congruence|]. cbn in E. injection E as <- ->. apply IH. eauto.
Qed.
Lemma behind_spec : forall head s rest, behind head s = Some rest <-> s = head ++ rest.
Proof.
  induction head as [|x head IH]; intros s rest; cbn [behind append]; [split; congruence|].
  destruct s as [|y s]; [split; discriminate|]. destruct (Ascii.eqb_spec x y) as [<-|N].
  - rewrite IH. split; [intros ->; auto|congruence].
  - split; [discriminate|congruence].
Qed.
Lemma append_assoc : forall a b c : string, (a ++ b) ++ c = a ++ b ++ c.
Proof. induction a; intros; cbn; [auto|]. f_equal. auto. Qed.
Lemma matches_spec : forall h f, matches h f = true <-> fits_pattern h f.
Proof.
  intros h f. unfold matches, fits_pattern. split.
  - destruct (behind (h ++ "-filled") f) as [rest|] eqn:B; [|discriminate]. apply behind_spec in B.
    rewrite ends_with_spec. intros (r & ->). exists r. rewrite B, append_assoc. auto.
  - intros (r & E). assert (B : behind (h ++ "-filled") f = Some (r ++ ".h5")) by (apply behind_spec; rewrite E, append_assoc; auto).
    rewrite B. apply ends_with_spec. eauto.
Qed.
Lemma measurement_fits : forall h s, fits_pattern h (measurement h s).
Proof.
  intros h s. exists ("-" ++ stamp_text s ++ "-deflectometry"). unfold measurement. rewrite !append_assoc. reflexivity.
Qed.

(** ** Numbers with leading zeros *)
Lemma digit_value : forall d, d < 10 -> nat_of_ascii (digit d) = 48 + d.
Proof. intros d H. unfold digit. apply nat_ascii_embedding. lia. Qed.
Lemma compare_padded : forall w n m a b, n < 10 ^ w -> m < 10 ^ w ->
  String.compare (padded w n ++ a) (padded w m ++ b) = match Nat.compare n m with Eq => String.compare a b | c => c end.
Proof.
  induction w as [|w IH]; intros n m a b N M; cbn [padded append].
  - cbn in N, M. replace n with 0 by lia. replace m with 0 by lia. reflexivity.
  - assert (P : 10 ^ w <> 0) by (apply Nat.pow_nonzero; lia). cbn [Nat.pow] in N, M. set (k := 10 ^ w) in *.
    rewrite compare_cons.
    assert (Dn : n / k < 10) by (apply Nat.div_lt_upper_bound; lia). assert (Dm : m / k < 10) by (apply Nat.div_lt_upper_bound; lia).
    rewrite !digit_value by auto. rewrite IH by (apply Nat.mod_upper_bound; auto).
    pose proof (Nat.div_mod n k P) as En. pose proof (Nat.div_mod m k P) as Em.
    pose proof (Nat.mod_upper_bound n k P). pose proof (Nat.mod_upper_bound m k P).
    set (qn := n / k) in *. set (qm := m / k) in *. set (rn := n mod k) in *. set (rm := m mod k) in *. clearbody qn qm rn rm k. clear IH.
    destruct (Nat.compare_spec (48 + qn) (48 + qm)); destruct (Nat.compare_spec n m); destruct (Nat.compare_spec rn rm); auto; exfalso; try nia.
Qed.
Lemma compare_stamps : forall s s' a b, valid_stamp s -> valid_stamp s' ->
  String.compare (stamp_text s ++ a) (stamp_text s' ++ b) <> Gt -> not_later s s'.
Proof.
  intros s s' a b (Y & M & D & H & I & C) (Y' & M' & D' & H' & I' & C'). unfold stamp_text, not_later, components.
  rewrite !append_assoc. cbn [not_larger].
  rewrite compare_padded by assumption. destruct (Nat.compare_spec (year s) (year s')) as [E|E|E]; [|auto|congruence].
  rewrite compare_app, compare_padded by assumption. destruct (Nat.compare_spec (month s) (month s')); [|auto|congruence].
  rewrite compare_app, compare_padded by assumption. destruct (Nat.compare_spec (day s) (day s')); [|auto 6|congruence].
  rewrite compare_app, compare_padded by assumption. destruct (Nat.compare_spec (hour s) (hour s')); [|auto 8|congruence].
  rewrite compare_app, compare_padded by assumption. destruct (Nat.compare_spec (minute s) (minute s')); [|auto 10|congruence].
  rewrite compare_app, compare_padded by assumption. destruct (Nat.compare_spec (second s) (second s')); [|auto 12|congruence].
  intros _. repeat (right; split; auto).
Qed.

(** * Results *)
Theorem latest_measurement : forall h files f, only_measurements h files -> find_latest h files = Some f ->
  exists s, valid_stamp s /\ f = measurement h s /\ In f files
    /\ forall s', valid_stamp s' -> In (measurement h s') files -> not_later s' s.
Proof.
  intros h files f ON F. destruct (find_latest_spec h files f F) as (I & M & MAX).
  destruct (ON f I) as (s & V & E); [apply matches_spec; auto|]. exists s. split; auto. split; auto. split; auto.
  intros s' V' I'. specialize (MAX _ I'). rewrite matches_spec in MAX. specialize (MAX (measurement_fits h s')).
  unfold before in MAX. rewrite E in MAX. unfold measurement in MAX. rewrite !compare_app in MAX. apply (compare_stamps s' s _ _ V' V MAX).
Qed.
Theorem no_measurement : forall h files, find_latest h files = None <-> forall f, In f files -> ~ fits_pattern h f.
Proof.
  intros h files. rewrite find_latest_none. split; intros H f I.
  - rewrite <- matches_spec. rewrite H by auto. discriminate.
  - destruct (matches h f) eqn:M; auto. apply matches_spec in M. destruct (H f I M).
Qed.

Theorem fitted_spec : forall directory names,
  map fst (fitted_heliostats directory names) = filter (fun n => match find_latest n (directory n) with Some _ => true | None => false end) names
  /\ forall n f, In (n, f) (fitted_heliostats directory names) -> find_latest n (directory n) = Some f.
Proof.
  intros directory. induction names as [|n names (IH1 & IH2)]; cbn [fitted_heliostats filter]; [split; [auto|intros ? ? []]|].
  destruct (find_latest n (directory n)) as [f|] eqn:F; [|split; auto]. split; [cbn; f_equal; auto|].
  intros n' f' [[= <- <-]|I]; auto.
Qed.
Theorem all_spec : forall directory names,
  match all_heliostats directory names with
  | Some l => map fst l = names /\ forall n f, In (n, f) l -> find_latest n (directory n) = Some f
  | None => exists n, In n names /\ find_latest n (directory n) = None
  end.
Proof.
  intros directory. induction names as [|n names IH]; cbn [all_heliostats]; [split; [auto|intros ? ? []]|].
  destruct (find_latest n (directory n)) as [f|] eqn:F.
  - destruct (all_heliostats directory names) as [l|].
    + destruct IH as (IH1 & IH2). split; [cbn; f_equal; auto|]. intros n' f' [[= <- <-]|I]; auto.
    + destruct IH as (m & I & E). exists m. split; [right; auto|auto].
  - exists n. split; [left; auto|auto].
Qed.

(** A file whose name goes on with a character behind "-" hides every measurement. *)
Theorem shadowed : forall h files x rest f, nat_of_ascii x > nat_of_ascii "-" ->
  In (h ++ "-filled" ++ String x (rest ++ ".h5")) files -> find_latest h files = Some f ->
  forall s, f <> measurement h s.
Proof.
  intros h files x rest f X I F s ->. destruct (find_latest_spec h files _ F) as (_ & _ & MAX).
  specialize (MAX _ I). rewrite matches_spec in MAX. unfold before in MAX.
  assert (FP : fits_pattern h (h ++ "-filled" ++ String x (rest ++ ".h5"))) by (exists (String x rest); reflexivity).
  specialize (MAX FP). unfold measurement in MAX. rewrite compare_app in MAX. change "-filled-" with ("-filled" ++ "-") in MAX. rewrite !append_assoc, compare_app in MAX.
  cbn [append] in MAX. rewrite compare_cons in MAX. destruct (Nat.compare_spec (nat_of_ascii x) (nat_of_ascii "-")); try lia. congruence.
Qed.

Lemma some_measurement : forall h files, (exists f, find_latest h files = Some f) <-> exists f, In f files /\ fits_pattern h f.
Proof.
  intros h files. split.
  - intros (f & F). destruct (find_latest_spec h files f F) as (I & M & _). exists f. split; auto. apply matches_spec. auto.
  - intros (f & I & P). destruct (find_latest h files) as [g|] eqn:F; eauto. rewrite no_measurement in F. destruct (F f I P).
Qed.
Theorem field_study : forall directory names keep,
  (forall n, keep n = true <-> exists f, In f (directory n) /\ fits_pattern n f) ->
  map fst (fitted_heliostats directory names) = filter keep names
  /\ forall n f, In (n, f) (fitted_heliostats directory names) -> only_measurements n (directory n) -> latest n (directory n) f.
Proof.
  intros directory names keep K. destruct (fitted_spec directory names) as (A & B). split.
  - rewrite A. apply filter_ext. intros n. specialize (K n). rewrite <- some_measurement in K.
    destruct (find_latest n (directory n)) as [f|]; destruct (keep n); auto.
    + destruct K as (_ & K). symmetry. apply K. eauto.
    + destruct K as (K & _). destruct (K eq_refl) as (f & F). discriminate.
  - intros n f I O'. apply latest_measurement; auto.
Qed.
Theorem flux_study : forall directory names,
  match all_heliostats directory names with
  | Some l => map fst l = names /\ forall n f, In (n, f) l -> only_measurements n (directory n) -> latest n (directory n) f
  | None => exists n, In n names /\ forall f, In f (directory n) -> ~ fits_pattern n f
  end.
Proof.
  intros directory names. pose proof (all_spec directory names) as A. destruct (all_heliostats directory names) as [l|].
  - destruct A as (A & B). split; auto. intros n f I O'. apply latest_measurement; auto.
  - destruct A as (n & I & F). exists n. split; auto. apply no_measurement. auto.
Qed.
