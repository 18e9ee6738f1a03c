(** Proofs about gradients that are not finite. *)
From Coq Require Import List Arith Reals Lra Lia.
From Verif Require Import RealSums ModelGradients.
Import ListNotations.
Local Open Scope R_scope.

Lemma total_finite : forall xs, total (map Some xs) = Some (Rsum xs).
Proof. intros xs. induction xs as [|x xs IH]; auto. cbn [map total fold_right]. fold (total (map Some xs)). rewrite IH. auto. Qed.
Lemma total_none : forall l, In None l -> total l = None.
Proof.
  intros l. induction l as [|a l IH]; intros I; [destruct I|]. cbn [total fold_right]. fold (total l). destruct I as [->|I]; auto. rewrite IH by auto. destruct a; auto.
Qed.
Theorem finite_gradient : forall rate heliostats st xs,
  alignment_epoch rate heliostats st (map Some xs) = adam rate st (Some (Rsum xs / INR (length xs) / INR heliostats)).
Proof.
  intros. unfold alignment_epoch, loss_gradient, of_mean. rewrite map_length, !map_map. cbn [lift].
  change (fun x : R => Some (/ INR (length xs) * x)) with (fun x : R => @Some R ((fun x => / INR (length xs) * x) x)). rewrite <- map_map, total_finite, (Rsum_map_scal _ (fun x => x)), map_id. cbn. do 2 f_equal. unfold Rdiv. ring.
Qed.
Theorem cleaned_gradient : forall rate heliostats st samples, In None samples -> alignment_epoch rate heliostats st samples = adam rate st (Some 0).
Proof.
  intros. unfold alignment_epoch, loss_gradient. rewrite total_none; auto. unfold of_mean. rewrite map_map. apply in_map_iff. exists None. auto.
Qed.
Lemma median_total : forall m xs n, (n <= m < n + length xs)%nat ->
  total (map (fun '(w, d) => lift (Rmult w) d) (map (fun '(k, d) => (if (k =? m)%nat then 1 else 0, d)) (combine (seq n (length xs)) (map Some xs)))) = Some (nth (m - n) xs 0).
Proof.
  intros m xs. assert (Z : forall xs n, (m < n)%nat -> total (map (fun '(w, d) => lift (Rmult w) d) (map (fun '(k, d) => (if (k =? m)%nat then 1 else 0, d)) (combine (seq n (length xs)) (map Some xs)))) = Some 0).
  { clear. induction xs as [|x xs IH]; intros n L; auto. cbn [length seq map combine total fold_right]. fold (total (map (fun '(w, d) => lift (Rmult w) d) (map (fun '(k, d) => (if (k =? m)%nat then 1 else 0, d)) (combine (seq (S n) (length xs)) (map Some xs))))).
    rewrite IH by lia. destruct (Nat.eqb_spec n m); [lia|]. cbn. f_equal. ring. }
  induction xs as [|x xs IH]; intros n L; [cbn in L; lia|]. cbn [length] in L. cbn [length seq map combine total fold_right].
  fold (total (map (fun '(w, d) => lift (Rmult w) d) (map (fun '(k, d) => (if (k =? m)%nat then 1 else 0, d)) (combine (seq (S n) (length xs)) (map Some xs))))).
  destruct (Nat.eqb_spec n m) as [->|E].
  - rewrite Z by lia. rewrite Nat.sub_diag. cbn. f_equal. ring.
  - rewrite IH by lia. replace (m - n)%nat with (S (m - S n)) by lia. cbn. f_equal. ring.
Qed.
Lemma flux_finite : forall rate st ranks, (forall h m xs, In (h, m, xs) ranks -> (m < length xs)%nat) ->
  flux_epoch rate st (map (fun '(h, m, xs) => (h, m, map Some xs)) ranks)
  = adam rate st (Some (Rsum (map (fun '(h, m, xs) => nth m xs 0 / INR h) ranks) / INR (length ranks))).
Proof.
  intros rate st ranks L. unfold flux_epoch. rewrite map_map, map_length.
  match goal with |- context[total ?l] => replace l with (@map R number Some (map (fun '(h, m, xs) => nth m xs 0 / INR h) ranks)) end.
  - rewrite total_finite. auto.
  - rewrite map_map. apply map_ext_in. intros ((h & m) & xs) I. unfold loss_gradient, of_median. rewrite map_length, median_total; [|specialize (L _ _ _ I); lia]. rewrite Nat.sub_0_r. auto.
Qed.
Lemma adam_lost : forall rate st g, value st = None -> value (adam rate st g) = None.
Proof. intros rate st g E. unfold adam. cbn [value]. rewrite E. auto. Qed.
Lemma adam_none : forall rate st, value (adam rate st None) = None.
Proof. intros rate st. unfold adam. cbn [value]. destruct (first st), (value st); auto. Qed.
Lemma flux_none : forall rate st ranks, (exists h m samples, In (h, m, samples) ranks /\ In None samples) -> value (flux_epoch rate st ranks) = None.
Proof.
  intros rate st ranks (h & m & samples & I & N). unfold flux_epoch. rewrite total_none; [apply adam_none|]. apply in_map_iff. exists (h, m, samples). split; auto.
  unfold loss_gradient. rewrite total_none; auto. unfold of_median. rewrite map_map. clear I. apply in_map_iff. apply (In_nth _ _ None) in N. destruct N as (k & K & E).
  exists (k, None). split; auto. rewrite <- E. replace (k, nth k samples None) with (nth k (combine (seq 0 (length samples)) samples) (0%nat, None)).
  - apply nth_In. rewrite combine_length, seq_length, Nat.min_id. auto.
  - rewrite combine_nth by apply seq_length. rewrite seq_nth; auto.
Qed.
Theorem never_recovers : forall rate history st, (exists ranks h m samples, In ranks history /\ In (h, m, samples) ranks /\ In None samples) ->
  value (flux_epochs rate st history) = None.
Proof.
  intros rate history st (ranks & h & m & samples & I & J & N). unfold flux_epochs. generalize 0%nat as n. revert st.
  assert (K : forall l n st, value st = None -> value (fold_left (fun st '(e, ranks) => flux_epoch (rate e) st ranks) (combine (seq n (length l)) l) st) = None).
  { clear. induction l as [|r l IH]; intros n st E; auto. cbn [length seq combine fold_left]. apply IH. unfold flux_epoch. apply adam_lost. auto. }
  induction history as [|r history IH]; intros st n; [destruct I|]. cbn [length seq combine fold_left]. destruct I as [->|I]; [|apply IH; auto].
  apply K. apply flux_none. eauto 6.
Qed.
