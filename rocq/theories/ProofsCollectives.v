From Coq Require Import List Arith Reals Bool Lia Lra.
From Verif Require Import RealSums ModelField ModelDistributed ProofsDistributed ModelLBVH ModelCollectives SpecCollectives.
Import ListNotations.
Local Open Scope nat_scope.

Lemma filter_mod_block : forall w r a, r < w -> filter (fun i => i mod w =? r) (seq (a * w) w) = [a * w + r].
Proof.
  intros w r a R. replace w with (r + S (w - r - 1)) at 2 by lia. rewrite seq_app, filter_app.
  assert (N : forall n b, (forall i, b <= i < b + n -> i mod w <> r) -> filter (fun i => i mod w =? r) (seq b n) = []).
  { clear. induction n as [|n IH]; intros b H; auto. cbn [seq filter]. destruct (Nat.eqb_spec (b mod w) r) as [E|E].
    - exfalso. apply (H b); auto; lia.
    - apply IH. intros i I. apply H. lia. }
  assert (M : forall j, j < w -> (a * w + j) mod w = j).
  { intros j J. rewrite Nat.add_comm, Nat.mod_add by lia. apply Nat.mod_small. auto. }
  rewrite N.
  2: { intros i I. replace i with (a * w + (i - a * w)) by lia. rewrite M by lia. lia. }
  cbn [app seq filter]. rewrite M by lia. rewrite Nat.eqb_refl. f_equal. apply N.
  intros i I. replace i with (a * w + (i - a * w)) by lia. rewrite M by lia. lia.
Qed.

Lemma filter_mod_blocks : forall w r m, r < w -> filter (fun i => i mod w =? r) (seq 0 (m * w)) = map (fun k => k * w + r) (seq 0 m).
Proof.
  intros w r m R. induction m as [|m IH]; auto.
  replace (S m * w) with (m * w + w) by lia. rewrite seq_app, filter_app, IH, seq_S, map_app. cbn [map Nat.add]. f_equal. apply filter_mod_block. auto.
Qed.

Lemma own_groups : forall world groups rank, 1 <= groups -> rank < world ->
  filter (fun g => existsb (Nat.eqb g) (groups_of_rank world groups rank)) (seq 0 groups)
  = if groups <? world then [rank mod groups] else filter (fun i => i mod world =? rank) (seq 0 groups).
Proof.
  intros world groups rank G R. rewrite groups_of_rank_spec by auto.
  destruct (Nat.ltb_spec groups world) as [L|L].
  - pose proof (Nat.mod_upper_bound rank groups ltac:(lia)) as UB. cbn [existsb].
    set (x := rank mod groups) in *. replace groups with (x + S (groups - x - 1)) by lia.
    rewrite seq_app, filter_app. cbn [Nat.add seq filter].
    assert (N : forall n b, (x < b \/ b + n <= x) -> filter (fun g => (g =? x) || false) (seq b n) = []).
    { clear. induction n as [|n IH]; intros b H; auto. cbn [seq filter]. destruct (Nat.eqb_spec b x); [lia|]. cbn [orb]. apply IH. lia. }
    rewrite N by lia. rewrite Nat.eqb_refl. cbn. f_equal. apply N. lia.
  - apply filter_ext_in. intros g I. apply in_seq in I. destruct (Nat.eqb_spec (g mod world) rank) as [E|E].
    + apply existsb_exists. exists g. split; [|apply Nat.eqb_refl]. apply filter_In. split; [apply in_seq; lia|]. apply Nat.eqb_eq; auto.
    + destruct (existsb _ _) eqn:X; auto. apply existsb_exists in X. destruct X as (g' & I' & Q). apply Nat.eqb_eq in Q. subst g'.
      apply filter_In in I'. destruct I' as [_ I']. apply Nat.eqb_eq in I'. contradiction.
Qed.

Lemma own_gradients_divided : forall world m gradient rank, 1 <= m -> rank < world ->
  own_gradients world (m * world) gradient rank = map (fun k => (k * world + rank, gradient rank (k * world + rank))) (seq 0 m).
Proof.
  intros world m gradient rank M R. unfold own_gradients. rewrite own_groups by nia.
  destruct (Nat.ltb_spec (m * world) world); [nia|]. rewrite filter_mod_blocks by auto. rewrite map_map. reflexivity.
Qed.
Lemma own_gradients_nested : forall world groups gradient rank, 1 <= groups < world -> rank < world ->
  own_gradients world groups gradient rank = [(rank mod groups, gradient rank (rank mod groups))].
Proof.
  intros world groups gradient rank G R. unfold own_gradients. rewrite own_groups by lia. destruct (Nat.ltb_spec groups world); [reflexivity|lia].
Qed.

Lemma sum_tensors_ok : forall world size tensor, 1 <= world -> (forall r, r < world -> length (tensor r) = size) ->
  bind (sum_tensors (map tensor (seq 0 world))) (fun total => Ok (map (fun x => (x / INR world)%R) total)) = Ok (mean_tensor world size tensor).
Proof.
  intros world size tensor W L. destruct world as [|n]; [lia|]. cbn [seq map sum_tensors].
  assert (F : forallb (fun u => length u =? length (tensor 0)) (tensor 0 :: map tensor (seq 1 n)) = true).
  { apply forallb_forall. intros u [U|U]; [subst; apply Nat.eqb_refl|]. apply in_map_iff in U. destruct U as (r & <- & I). apply in_seq in I.
    rewrite !L by lia. apply Nat.eqb_refl. }
  rewrite F. cbn [bind]. rewrite L by lia. f_equal. unfold mean_tensor. rewrite map_map. apply map_ext. intros j. f_equal. cbn [seq map]. rewrite map_map. reflexivity.
Qed.
Lemma sum_tensors_fails : forall world tensor r1 r2, r1 < world -> r2 < world -> length (tensor r1) <> length (tensor r2) ->
  sum_tensors (map tensor (seq 0 world)) = Err RuntimeError.
Proof.
  intros world tensor r1 r2 A B N. destruct world as [|n]; [lia|]. unfold sum_tensors. cbn [seq map].
  destruct (forallb _ _) eqn:F; auto. exfalso. rewrite forallb_forall in F.
  change (tensor 0 :: map tensor (seq 1 n)) with (map tensor (seq 0 (S n))) in F.
  assert (Q : forall r, r < S n -> length (tensor r) = length (tensor 0)).
  { intros r I. apply Nat.eqb_eq. apply F. apply in_map. apply in_seq. lia. }
  apply N. rewrite (Q r1 A), (Q r2 B). reflexivity.
Qed.

Lemma map_res_map : forall {A B} (f : A -> res B) (g : A -> B) l, (forall x, In x l -> f x = Ok (g x)) -> map_res f l = Ok (map g l).
Proof.
  induction l as [|x l IH]; intros H; auto. cbn [map_res map]. rewrite H by (left; auto). rewrite IH; auto. intros y Y. apply H. right. auto.
Qed.
Lemma combine_seq_map : forall {A} (f : nat -> A) n, combine (seq 0 n) (map f (seq 0 n)) = map (fun k => (k, f k)) (seq 0 n).
Proof. intros A f n. generalize 0. induction n; intros a; cbn; auto. f_equal. auto. Qed.
Lemma nth_map_seq0 : forall {A} (f : nat -> A) n k d, k < n -> nth k (map f (seq 0 n)) d = f k.
Proof. intros. rewrite (nth_indep _ d (f 0)) by (rewrite map_length, seq_length; auto). rewrite map_nth, seq_nth; auto. Qed.

Lemma synchronized_divided : forall world m gradient size rank, 2 <= world -> 1 <= m -> rank < world ->
  (forall r k, r < world -> k < m -> length (gradient r (k * world + r)) = size k) ->
  synchronize_gradients world (m * world) gradient rank
  = Ok (map (fun k => (k * world + rank, mean_tensor world (size k) (fun r => gradient r (k * world + r)))) (seq 0 m)).
Proof.
  intros world m gradient size rank W M R L. unfold synchronize_gradients. destruct (Nat.eqb_spec world 1); [lia|]. cbv zeta.
  assert (C : forallb (fun c => length c =? length (own_gradients world (m * world) gradient rank)) (map (own_gradients world (m * world) gradient) (seq 0 world)) = true).
  { apply forallb_forall. intros c I. apply in_map_iff in I. destruct I as (r & <- & I). apply in_seq in I.
    rewrite !own_gradients_divided by lia. rewrite !map_length. apply Nat.eqb_refl. }
  rewrite C. rewrite (own_gradients_divided world m gradient rank) by lia. rewrite map_length, seq_length, combine_seq_map.
  rewrite (map_res_map _ (fun e => (fst (snd e), mean_tensor world (size (fst e)) (fun r => gradient r (fst e * world + r))))).
  - rewrite map_map. reflexivity.
  - intros (k & (g & t)) I. apply in_map_iff in I. destruct I as (k' & E & I). injection E as <- <- <-. apply in_seq in I. cbn [fst snd].
    assert (TE : map (fun c => snd (nth k' c (0, []))) (map (own_gradients world (m * world) gradient) (seq 0 world)) = map (fun r => gradient r (k' * world + r)) (seq 0 world)).
    { rewrite map_map. apply map_ext_in. intros r J. apply in_seq in J. rewrite own_gradients_divided by lia. rewrite nth_map_seq0 by lia. reflexivity. }
    rewrite TE. pose proof (sum_tensors_ok world (size k') (fun r => gradient r (k' * world + r)) ltac:(lia)) as SO.
    destruct (sum_tensors _) as [total|e]; cbn [bind] in *.
    + f_equal. f_equal. specialize (SO ltac:(intros; apply L; lia)). congruence.
    + specialize (SO ltac:(intros; apply L; lia)). discriminate.
Qed.

Lemma map_res_err : forall {A B} (f : A -> res B) l x e, In x l -> f x = Err e -> exists e', map_res f l = Err e'.
Proof.
  induction l as [|y l IH]; intros x e I E; [destruct I|]. cbn [map_res]. destruct I as [->|I].
  - rewrite E. cbn [bind]. eauto.
  - destruct (f y); cbn [bind]; eauto. destruct (IH x e I E) as (e' & Q). rewrite Q. cbn [bind]. eauto.
Qed.
Lemma synchronized_sizes : forall world m gradient rank, 2 <= world -> 1 <= m -> rank < world ->
  (exists k r1 r2, k < m /\ r1 < world /\ r2 < world /\ length (gradient r1 (k * world + r1)) <> length (gradient r2 (k * world + r2))) ->
  exists e, synchronize_gradients world (m * world) gradient rank = Err e.
Proof.
  intros world m gradient rank W M R (k & r1 & r2 & K & R1 & R2 & N). unfold synchronize_gradients. destruct (Nat.eqb_spec world 1); [lia|]. cbv zeta.
  destruct (forallb _ _); eauto. rewrite (own_gradients_divided world m gradient rank) by lia. rewrite map_length, seq_length, combine_seq_map.
  apply (map_res_err _ _ (k, (k * world + rank, gradient rank (k * world + rank))) RuntimeError).
  - apply in_map_iff. exists k. split; auto. apply in_seq. lia.
  - assert (TE : map (fun c => snd (nth k c (0, []))) (map (own_gradients world (m * world) gradient) (seq 0 world)) = map (fun r => gradient r (k * world + r)) (seq 0 world)).
    { rewrite map_map. apply map_ext_in. intros r J. apply in_seq in J. rewrite own_gradients_divided by lia. rewrite nth_map_seq0 by lia. reflexivity. }
    rewrite TE. rewrite (sum_tensors_fails world _ r1 r2); auto.
Qed.
Lemma synchronized_uneven : forall world groups gradient rank, 2 <= world <= groups -> rank < world -> groups mod world <> 0 ->
  synchronize_gradients world groups gradient rank = Err RuntimeError.
Proof.
  intros world groups gradient rank W R D. unfold synchronize_gradients. destruct (Nat.eqb_spec world 1); [lia|]. cbv zeta.
  destruct (forallb _ _) eqn:F; auto. exfalso. rewrite forallb_forall in F.
  assert (LE : forall r, r < world -> length (own_gradients world groups gradient r) = groups / world + (if r <? groups mod world then 1 else 0)).
  { intros r I. unfold own_gradients. rewrite own_groups by lia. rewrite map_length. destruct (Nat.ltb_spec groups world); [lia|]. apply count_mod. auto. }
  assert (Q : forall r, r < world -> length (own_gradients world groups gradient r) = length (own_gradients world groups gradient rank)).
  { intros r I. apply Nat.eqb_eq. apply F. apply in_map. apply in_seq. lia. }
  pose proof (Nat.mod_upper_bound groups world ltac:(lia)) as UB.
  pose proof (Q 0 ltac:(lia)) as Q0. pose proof (Q (world - 1) ltac:(lia)) as Q1. rewrite <- Q0 in Q1. rewrite !LE in Q1 by lia.
  destruct (Nat.ltb_spec 0 (groups mod world)); [|lia]. destruct (Nat.ltb_spec (world - 1) (groups mod world)); lia.
Qed.
Lemma synchronized_nested : forall world groups gradient size rank, 1 <= groups < world -> rank < world ->
  (forall r, r < world -> length (gradient r (r mod groups)) = size) ->
  synchronize_gradients world groups gradient rank = Ok [(rank mod groups, mean_tensor world size (fun r => gradient r (r mod groups)))].
Proof.
  intros world groups gradient size rank W R L. unfold synchronize_gradients. destruct (Nat.eqb_spec world 1) as [->|N]; [lia|].
  cbv zeta. assert (O : forall r, r < world -> own_gradients world groups gradient r = [(r mod groups, gradient r (r mod groups))]).
  { intros r I. apply own_gradients_nested; lia. }
  assert (C : forallb (fun c => length c =? length (own_gradients world groups gradient rank)) (map (own_gradients world groups gradient) (seq 0 world)) = true).
  { apply forallb_forall. intros c I. apply in_map_iff in I. destruct I as (r & <- & I). apply in_seq in I. rewrite !O by lia. reflexivity. }
  rewrite C, O by auto. cbn [length seq combine map_res].
  assert (TE : map (fun c => snd (nth 0 c (0, []))) (map (own_gradients world groups gradient) (seq 0 world)) = map (fun r => gradient r (r mod groups)) (seq 0 world)).
  { rewrite map_map. apply map_ext_in. intros r J. apply in_seq in J. rewrite O by lia. reflexivity. }
  rewrite TE. pose proof (sum_tensors_ok world size (fun r => gradient r (r mod groups)) ltac:(lia) L) as SO.
  destruct (sum_tensors _) as [total|e]; cbn [bind] in *; [|discriminate]. do 2 f_equal. congruence.
Qed.
Lemma synchronized_one_group : forall world gradient size rank, 1 <= world -> rank < world -> (forall r, r < world -> length (gradient r 0) = size) ->
  synchronize_gradients world 1 gradient rank = Ok [(0, mean_tensor world size (fun r => gradient r 0))].
Proof.
  intros world gradient size rank W R L. unfold synchronize_gradients. destruct (Nat.eqb_spec world 1) as [->|N].
  - assert (rank = 0) by lia. subst. rewrite <- (L 0) by lia. unfold own_gradients, mean_tensor. cbn. f_equal. f_equal. f_equal.
    apply (nth_ext _ _ 0%R 0%R); [rewrite map_length, seq_length; reflexivity|]. intros n H. rewrite (nth_map_seq0 (fun j => ((nth j (gradient 0%nat 0%nat) 0 + 0) / 1)%R)) by auto. field.
  - cbv zeta. assert (O : forall r, r < world -> own_gradients world 1 gradient r = [(0, gradient r 0)]).
    { intros r I. rewrite own_gradients_nested by lia. rewrite Nat.mod_1_r. reflexivity. }
    assert (C : forallb (fun c => length c =? length (own_gradients world 1 gradient rank)) (map (own_gradients world 1 gradient) (seq 0 world)) = true).
    { apply forallb_forall. intros c I. apply in_map_iff in I. destruct I as (r & <- & I). apply in_seq in I. rewrite !O by lia. reflexivity. }
    rewrite C, O by auto. cbn [length seq combine map_res].
    assert (TE : map (fun c => snd (nth 0 c (0, []))) (map (own_gradients world 1 gradient) (seq 0 world)) = map (fun r => gradient r 0) (seq 0 world)).
    { rewrite map_map. apply map_ext_in. intros r J. apply in_seq in J. rewrite O by lia. reflexivity. }
    rewrite TE. pose proof (sum_tensors_ok world size (fun r => gradient r 0) ltac:(lia) L) as SO.
    destruct (sum_tensors _) as [total|e]; cbn [bind] in *; [|discriminate]. do 2 f_equal. congruence.
Qed.
Lemma synchronized_one_rank : forall groups gradient, 1 <= groups ->
  synchronize_gradients 1 groups gradient 0 = Ok (map (fun g => (g, gradient 0 g)) (seq 0 groups)).
Proof.
  intros groups gradient G. unfold synchronize_gradients. cbn [Nat.eqb]. f_equal.
  replace groups with (groups * 1) at 1 by lia. rewrite own_gradients_divided by lia. apply map_ext. intros k. replace (k * 1 + 0) with k by lia. reflexivity.
Qed.

Lemma mirrors_single : forall A groups (initial current : nat -> list A), 1 <= groups -> blocking_mirrors 1 groups 0 initial current = flat_map current (seq 0 groups).
Proof.
  intros A groups initial current G. unfold blocking_mirrors. rewrite !flat_map_concat_map. f_equal. apply map_ext_in. intros g I. apply in_seq in I.
  rewrite groups_of_rank_spec by lia. destruct (Nat.ltb_spec groups 1); [lia|].
  assert (X : existsb (Nat.eqb g) (filter (fun i => i mod 1 =? 0) (seq 0 groups)) = true).
  { apply existsb_exists. exists g. split; [|apply Nat.eqb_refl]. apply filter_In. split; [apply in_seq; lia|]. rewrite Nat.mod_1_r. reflexivity. }
  rewrite X. reflexivity.
Qed.
Lemma mirrors_unchanged : forall A world groups rank (initial current : nat -> list A),
  (forall g, g < groups -> ~ In g (groups_of_rank world groups rank) -> current g = initial g) ->
  blocking_mirrors world groups rank initial current = flat_map current (seq 0 groups).
Proof.
  intros A world groups rank initial current H. unfold blocking_mirrors. rewrite !flat_map_concat_map. f_equal. apply map_ext_in. intros g I. apply in_seq in I.
  destruct (existsb (Nat.eqb g) (groups_of_rank world groups rank)) eqn:X; auto. symmetry. apply H; [lia|]. intros C.
  assert (existsb (Nat.eqb g) (groups_of_rank world groups rank) = true) by (apply existsb_exists; exists g; rewrite Nat.eqb_refl; auto). congruence.
Qed.
Lemma foreign_group : forall world groups rank, 2 <= world -> 2 <= groups -> rank < world -> exists g, g < groups /\ ~ In g (groups_of_rank world groups rank).
Proof.
  intros world groups rank W G R. rewrite groups_of_rank_spec by lia. destruct (Nat.ltb_spec groups world) as [L|L].
  - pose proof (Nat.mod_upper_bound rank groups ltac:(lia)). exists (if rank mod groups =? 0 then 1 else 0).
    destruct (Nat.eqb_spec (rank mod groups) 0); (split; [lia|]); intros [Q|[]]; lia.
  - exists (if rank =? 0 then 1 else 0). destruct (Nat.eqb_spec rank 0) as [->|NE]; (split; [lia|]); intros Q; apply filter_In in Q; destruct Q as [_ Q]; apply Nat.eqb_eq in Q.
    + rewrite Nat.mod_small in Q by lia. lia.
    + rewrite Nat.mod_0_l in Q by lia. lia.
Qed.
Lemma stale_mirrors : forall A world groups rank, 2 <= world -> 2 <= groups -> rank < world ->
  exists g, g < groups /\ forall initial current current' : nat -> list A, (forall g', g' <> g -> current g' = current' g') ->
    blocking_mirrors world groups rank initial current = blocking_mirrors world groups rank initial current'
    /\ (forall x, In x (initial g) -> In x (blocking_mirrors world groups rank initial current)).
Proof.
  intros A world groups rank W G R. destruct (foreign_group world groups rank W G R) as (g & L & N). exists g. split; auto. intros initial current current' E.
  assert (X : existsb (Nat.eqb g) (groups_of_rank world groups rank) = false).
  { destruct (existsb _ _) eqn:X; auto. apply existsb_exists in X. destruct X as (g' & I & Q). apply Nat.eqb_eq in Q. subst. contradiction. }
  split.
  - unfold blocking_mirrors. rewrite !flat_map_concat_map. f_equal. apply map_ext. intros g'. destruct (Nat.eq_dec g' g) as [->|NE]; [rewrite X; auto|]. rewrite E by auto. reflexivity.
  - intros x I. unfold blocking_mirrors. apply in_flat_map. exists g. split; [apply in_seq; lia|]. rewrite X. auto.
Qed.

Lemma mixed_gradients : forall world m rank k, 2 <= world -> rank < world -> k < m ->
  exists (gradient gradient' : nat -> nat -> list R) t t' l l',
  (forall r g, length (gradient r g) = 1 /\ length (gradient' r g) = 1)
  /\ (forall r, gradient r (k * world + rank) = gradient' r (k * world + rank))
  /\ synchronize_gradients world (m * world) gradient rank = Ok l /\ In (k * world + rank, t) l
  /\ synchronize_gradients world (m * world) gradient' rank = Ok l' /\ In (k * world + rank, t') l' /\ t <> t'.
Proof.
  intros world m rank k W R K. set (g0 := k * world + rank).
  set (ga := fun _ _ : nat => [0%R]). set (gb := fun _ g : nat => [if g =? g0 then 0%R else 1%R]).
  exists ga, gb. eexists. eexists. eexists. eexists.
  split; [intros; split; reflexivity|]. split; [intros r; unfold ga, gb; rewrite Nat.eqb_refl; reflexivity|].
  split; [apply (synchronized_divided world m ga (fun _ => 1) rank); auto; lia|].
  split; [apply in_map_iff; exists k; split; [reflexivity|apply in_seq; lia]|].
  split; [apply (synchronized_divided world m gb (fun _ => 1) rank); auto; lia|].
  split; [apply in_map_iff; exists k; split; [reflexivity|apply in_seq; lia]|].
  unfold mean_tensor, ga, gb. cbn [seq map nth]. intros Q. injection Q as Q.
  assert (WR : (0 < INR world)%R) by (apply lt_0_INR; lia).
  set (other := if rank =? 0 then 1 else 0).
  assert (OT : other < world /\ other <> rank) by (unfold other; destruct (Nat.eqb_spec rank 0); lia).
  assert (Z : Rsum (map (fun _ : nat => 0%R) (seq 0 world)) = 0%R).
  { assert (ZA : forall w a, Rsum (map (fun _ : nat => 0%R) (seq a w)) = 0%R).
    { induction w as [|w IH]; intros a; auto. cbn [seq map]; rewrite ?Rsum_cons, ?Rsum_nil. rewrite IH. lra. }
    apply ZA. }
  rewrite Z in Q.
  assert (PO : forall n a, (a <= other < a + n) -> (1 <= Rsum (map (fun r => if (k * world + r) =? g0 then 0 else 1) (seq a n)))%R).
  { assert (NN : forall n a, (0 <= Rsum (map (fun r => if (k * world + r) =? g0 then 0 else 1) (seq a n)))%R).
    { induction n as [|n IH]; intros a; cbn [seq map]; rewrite ?Rsum_cons, ?Rsum_nil; [lra|]. specialize (IH (S a)). destruct (k * world + a =? g0); lra. }
    induction n as [|n IH]; intros a L; [lia|]. cbn [seq map]; rewrite ?Rsum_cons, ?Rsum_nil. destruct (Nat.eq_dec a other) as [->|NE].
    - destruct (Nat.eqb_spec (k * world + other) g0) as [E|E]; [unfold g0 in E; lia|]. specialize (NN n (S other)). lra.
    - specialize (IH (S a) ltac:(lia)). destruct (k * world + a =? g0); lra. }
  specialize (PO world 0 ltac:(lia)).
  assert (F : (Rsum (map (fun r => if (k * world + r) =? g0 then 0 else 1) (seq 0 world)) / INR world > 0)%R).
  { apply Rdiv_lt_0_compat; lra. }
  assert (F2 : (0 / INR world = 0)%R) by (unfold Rdiv; ring). lra.
Qed.
