(** Proofs about the reconstruction of surfaces in batches. *)
From Coq Require Import List Arith Reals Bool String Lia.
From Verif Require Import ModelField ModelOptimization ModelSurfaceBatches ProofsHeliostatTraining.
Import ListNotations.

Lemma skipn_plus : forall {A} a b (l : list A), skipn (a + b) l = skipn b (skipn a l).
Proof. induction a as [|a IH]; intros b l; [reflexivity|]. destruct l as [|x l]; cbn; [now rewrite skipn_nil|apply IH]. Qed.
Lemma slices_concat : forall {A} size n (l : list A), List.length l <= n * size ->
  List.concat (map (fun k => firstn size (skipn (k * size) l)) (seq 0 n)) = l.
Proof.
  intros A size. induction n as [|n IH]; intros l H; [destruct l; [reflexivity|cbn in H; lia]|].
  cbn [seq map List.concat]. rewrite <- seq_shift, map_map. transitivity (firstn size l ++ skipn size l); [|apply firstn_skipn]. cbn [Nat.mul skipn]. f_equal.
  transitivity (List.concat (map (fun k => firstn size (skipn (k * size) (skipn size l))) (seq 0 n))); [|apply IH; rewrite skipn_length; cbn in H; lia].
  f_equal. apply map_ext. intros k. cbn [Nat.mul]. now rewrite skipn_plus.
Qed.
Theorem batches_cover : forall {A} size (data : list A) batches, outer_batches size data = Ok batches -> List.concat batches = data.
Proof.
  intros A size data batches H. unfold outer_batches in H. destruct (Nat.eqb_spec size 0) as [|D]; [discriminate|]. inversion H; subst batches.
  unfold arange_step. rewrite map_map. apply slices_concat.
  pose proof (Nat.div_mod (List.length data + size - 1) size D). pose proof (Nat.mod_upper_bound (List.length data + size - 1) size D). nia.
Qed.
Theorem batches_sizes : forall {A} size (data : list A) batches, outer_batches size data = Ok batches -> Forall (fun b => 1 <= List.length b <= size) batches.
Proof.
  intros A size data batches H. unfold outer_batches in H. destruct (Nat.eqb_spec size 0) as [|D]; [discriminate|]. inversion H; subst batches.
  apply Forall_forall. intros b I. unfold arange_step in I. rewrite map_map in I. apply in_map_iff in I as (k & <- & I). apply in_seq in I as [_ I]. cbn [Nat.add] in I.
  rewrite firstn_length, skipn_length.
  pose proof (Nat.div_mod (List.length data + size - 1) size D) as E. pose proof (Nat.mod_upper_bound (List.length data + size - 1) size D).
  assert (k * size < List.length data) by nia. lia.
Qed.

Section Batches.
Context {F : Type}.
Variables (height width : nat) (name_of : nat -> string) (epochs : list (string * F) -> gradients -> list (R * R * list gradients)).
Notation train := (train_batch height width name_of epochs).
Lemma unlisted_unchanged : forall cp batch h f i j c, listed name_of batch h = false -> train cp batch h f i j c = cp h f i j c.
Proof.
  intros cp batch h f i j c U. unfold train_batch. apply untrained_surface. intros lr beta members g I J.
  apply in_map_iff in I as (((lr', beta'), ms) & E & I). inversion E; subst. apply in_map_iff in J as (g' & <- & J). unfold active_gradients. now rewrite U.
Qed.
Lemma unlisted_in_all : forall batches cp h f i j c, (forall b, In b batches -> listed name_of b h = false) -> fold_left train batches cp h f i j c = cp h f i j c.
Proof.
  induction batches as [|b batches IH]; intros cp h f i j c U; [reflexivity|]. cbn [fold_left]. rewrite IH by (intros b' I; apply U; now right).
  apply unlisted_unchanged. apply U. now left.
Qed.
Lemma listed_iff : forall (batch : list (string * F)) h, listed name_of batch h = true <-> In (name_of h) (map fst batch).
Proof.
  intros batch h. unfold listed. rewrite existsb_exists, in_map_iff. split.
  - intros ((n, x) & I & E). apply String.eqb_eq in E. now exists (n, x).
  - intros ((n, x) & E & I). exists (n, x). split; [assumption|]. now apply String.eqb_eq.
Qed.
Lemma split_once : forall (batches : list (list (string * F))) name, NoDup (map fst (List.concat batches)) -> In name (map fst (List.concat batches)) ->
  exists before batch after, batches = before ++ batch :: after /\ In name (map fst batch) /\ (forall b, In b (before ++ after) -> ~ In name (map fst b)).
Proof.
  induction batches as [|b batches IH]; intros name N I; [contradiction|]. cbn [List.concat] in N, I. rewrite map_app in N, I.
  assert (NP : NoDup (map fst (List.concat batches)) /\ forall x, In x (map fst b) -> ~ In x (map fst (List.concat batches))).
  { clear -N. induction (map fst b) as [|y l IHl]; cbn in N; [split; [assumption|contradiction]|]. inversion N as [|? ? NI N']; subst.
    destruct (IHl N') as [A B]. split; [assumption|]. intros x [->|J]; [intros K; apply NI, in_or_app; now right|now apply B]. }
  destruct NP as [N2 N3]. apply in_app_or in I as [I|I].
  - exists [], b, batches. split; [reflexivity|]. split; [assumption|]. cbn. intros b' J K. apply (N3 name I). rewrite concat_map. apply in_concat.
    exists (map fst b'). split; [now apply in_map|assumption].
  - destruct (IH name N2 I) as (before & batch & after & -> & J & U). exists (b :: before), batch, after. split; [reflexivity|]. split; [assumption|].
    intros b' [<-|K]; [intros L; now apply (N3 name L)|now apply U].
Qed.

Theorem trained_once : forall size (data : list (string * F)) cp result, 1 <= size -> NoDup (map fst data) -> reconstruct_in_batches height width name_of epochs size data cp = Ok result ->
  exists batches, List.concat batches = data /\ Forall (fun b => 1 <= List.length b <= size) batches
  /\ (forall h, In (name_of h) (map fst data) -> exists before batch after, batches = before ++ batch :: after /\ In (name_of h) (map fst batch)
      /\ (forall b, In b (before ++ after) -> ~ In (name_of h) (map fst b))
      /\ exists cp', (forall f i j c, cp' h f i j c = cp h f i j c) /\ (forall f i j c, result h f i j c = train cp' batch h f i j c)
                     /\ cp' = fold_left train before cp)
  /\ (forall h, ~ In (name_of h) (map fst data) -> forall f i j c, result h f i j c = cp h f i j c).
Proof.
  intros size data cp result HS N E. unfold reconstruct_in_batches in E. destruct (outer_batches size data) as [batches|] eqn:B; [|discriminate]. cbn [bind] in E. inversion E; subst result.
  exists batches. split; [now apply batches_cover in B|]. split; [now apply batches_sizes in B|]. apply batches_cover in B. subst data. split.
  - intros h I. destruct (split_once batches (name_of h) N I) as (before & batch & after & -> & J & U). exists before, batch, after. split; [reflexivity|]. split; [assumption|]. split; [assumption|].
    assert (V : forall b, In b (before ++ after) -> listed name_of b h = false).
    { intros b K. destruct (listed name_of b h) eqn:L; [|reflexivity]. apply listed_iff in L. exfalso. now apply (U b). }
    exists (fold_left train before cp). split; [|split; [|reflexivity]].
    + intros. apply unlisted_in_all. intros b K. apply V, in_or_app. now left.
    + intros. rewrite fold_left_app. cbn [fold_left]. apply unlisted_in_all. intros b K. apply V, in_or_app. now right.
  - intros h U f i j c. apply unlisted_in_all. intros b K. destruct (listed name_of b h) eqn:L; [|reflexivity]. apply listed_iff in L. exfalso. apply U.
    rewrite concat_map. apply in_concat. exists (map fst b). split; [now apply in_map|assumption].
Qed.
End Batches.
