(** Finite sums of real numbers over lists, shared by models, specifications and proofs. *)
From Coq Require Import List Arith Reals Lra Lia Permutation.
Import ListNotations.
Local Open Scope R_scope.

(** Sum of a list. *)
Definition Rsum (l : list R) : R := fold_right Rplus 0 l.

Lemma Rsum_nil : Rsum [] = 0. Proof. reflexivity. Qed.
Lemma Rsum_cons : forall x l, Rsum (x :: l) = x + Rsum l. Proof. reflexivity. Qed.

Lemma Rsum_app : forall a b, Rsum (a ++ b) = Rsum a + Rsum b.
Proof. induction a; intros; simpl; [lra|]. rewrite IHa. lra. Qed.

Lemma Rsum_perm : forall a b, Permutation a b -> Rsum a = Rsum b.
Proof. induction 1; simpl; lra. Qed.

Lemma Rsum_rev : forall a, Rsum (rev a) = Rsum a.
Proof. intros. apply Rsum_perm. apply Permutation_sym, Permutation_rev. Qed.

Lemma Rsum_map_ext : forall {A} (f g : A -> R) l, (forall x, In x l -> f x = g x) ->
  Rsum (map f l) = Rsum (map g l).
Proof.
  induction l; simpl; intros H; auto. rewrite (H a) by auto. rewrite IHl; auto.
Qed.

Lemma Rsum_map_plus : forall {A} (f g : A -> R) l,
  Rsum (map (fun x => f x + g x) l) = Rsum (map f l) + Rsum (map g l).
Proof. induction l; simpl; [lra|]. rewrite IHl. lra. Qed.

Lemma Rsum_map_minus : forall {A} (f g : A -> R) l,
  Rsum (map (fun x => f x - g x) l) = Rsum (map f l) - Rsum (map g l).
Proof. induction l; simpl; [lra|]. rewrite IHl. lra. Qed.

Lemma Rsum_map_scal : forall {A} c (f : A -> R) l,
  Rsum (map (fun x => c * f x) l) = c * Rsum (map f l).
Proof. induction l; simpl; [lra|]. rewrite IHl. lra. Qed.

Lemma Rsum_map_scal_r : forall {A} c (f : A -> R) l,
  Rsum (map (fun x => f x * c) l) = Rsum (map f l) * c.
Proof. induction l; simpl; [lra|]. rewrite IHl. lra. Qed.

Lemma Rsum_map_div : forall {A} c (f : A -> R) l,
  Rsum (map (fun x => f x / c) l) = Rsum (map f l) / c.
Proof. intros. unfold Rdiv. apply Rsum_map_scal_r. Qed.

Lemma Rsum_map_zero : forall {A} (f : A -> R) l, (forall x, In x l -> f x = 0) -> Rsum (map f l) = 0.
Proof.
  induction l; simpl; intros H; auto. rewrite (H a) by auto. rewrite IHl; auto. lra.
Qed.

Lemma Rsum_map_const : forall {A} c (l : list A), Rsum (map (fun _ => c) l) = INR (length l) * c.
Proof.
  induction l; [simpl; lra|]. cbn [map Rsum fold_right length]. fold (Rsum (map (fun _ => c) l)).
  rewrite IHl, S_INR. lra.
Qed.

Lemma Rsum_repeat : forall c n, Rsum (repeat c n) = INR n * c.
Proof.
  induction n; [simpl; lra|]. cbn [repeat Rsum fold_right]. fold (Rsum (repeat c n)).
  rewrite IHn, S_INR. lra.
Qed.

Lemma Rsum_nonneg : forall l, (forall x, In x l -> 0 <= x) -> 0 <= Rsum l.
Proof.
  induction l; simpl; intros H; [lra|]. assert (0 <= a) by (apply H; auto).
  assert (0 <= Rsum l) by (apply IHl; auto). lra.
Qed.

Lemma Rsum_map_nonneg : forall {A} (f : A -> R) l, (forall x, In x l -> 0 <= f x) -> 0 <= Rsum (map f l).
Proof.
  intros. apply Rsum_nonneg. intros x Hx. apply in_map_iff in Hx. destruct Hx as (y & <- & Hy). auto.
Qed.

Lemma Rsum_map_le : forall {A} (f g : A -> R) l, (forall x, In x l -> f x <= g x) ->
  Rsum (map f l) <= Rsum (map g l).
Proof.
  induction l; simpl; intros H; [lra|]. assert (f a <= g a) by (apply H; auto).
  assert (Rsum (map f l) <= Rsum (map g l)) by (apply IHl; auto). lra.
Qed.

Lemma Rsum_zero_nonneg : forall l, (forall x, In x l -> 0 <= x) -> Rsum l = 0 -> forall x, In x l -> x = 0.
Proof.
  induction l; simpl; intros H E x Hx; [contradiction|].
  assert (0 <= a) by (apply H; auto).
  assert (0 <= Rsum l) by (apply Rsum_nonneg; auto).
  destruct Hx as [->|Hx]; [lra|]. apply IHl; auto. lra.
Qed.

Lemma Rsum_in_le : forall l x, (forall y, In y l -> 0 <= y) -> In x l -> x <= Rsum l.
Proof.
  induction l; simpl; intros x H Hx; [contradiction|].
  assert (0 <= a) by (apply H; auto).
  assert (0 <= Rsum l) by (apply Rsum_nonneg; auto).
  destruct Hx as [->|Hx]; [lra|]. specialize (IHl x (fun y Hy => H y (or_intror Hy)) Hx). lra.
Qed.

Lemma Rsum_flat_map : forall {A} (f : A -> list R) l,
  Rsum (flat_map f l) = Rsum (map (fun x => Rsum (f x)) l).
Proof. induction l; simpl; auto. rewrite Rsum_app, IHl. auto. Qed.

Lemma Rsum_concat : forall l, Rsum (concat l) = Rsum (map Rsum l).
Proof. induction l; simpl; auto. rewrite Rsum_app, IHl. auto. Qed.

Lemma Rsum_swap : forall {A B} (f : A -> B -> R) l m,
  Rsum (map (fun x => Rsum (map (f x) m)) l) = Rsum (map (fun y => Rsum (map (fun x => f x y) l)) m).
Proof.
  induction l; simpl; intros.
  - symmetry. apply Rsum_map_zero. auto.
  - rewrite IHl, <- Rsum_map_plus. auto.
Qed.

(** Sums over index ranges. *)
Definition Rsum_n (n : nat) (f : nat -> R) : R := Rsum (map f (seq 0 n)).

Lemma Rsum_n_S : forall n f, Rsum_n (S n) f = Rsum_n n f + f n.
Proof. intros. unfold Rsum_n. rewrite seq_S, map_app, Rsum_app. simpl. lra. Qed.

Lemma Rsum_n_ext : forall n f g, (forall i, (i < n)%nat -> f i = g i) -> Rsum_n n f = Rsum_n n g.
Proof. intros. apply Rsum_map_ext. intros x Hx. apply in_seq in Hx. apply H. lia. Qed.

Lemma Rsum_n_shift : forall n f, Rsum_n (S n) f = f 0%nat + Rsum_n n (fun i => f (S i)).
Proof. intros. unfold Rsum_n. simpl. rewrite <- seq_shift, map_map. auto. Qed.

Lemma Rsum_n_zero : forall n f, (forall i, (i < n)%nat -> f i = 0) -> Rsum_n n f = 0.
Proof. intros. apply Rsum_map_zero. intros x Hx. apply in_seq in Hx. apply H. lia. Qed.

Lemma Rsum_n_plus : forall n f g, Rsum_n n (fun i => f i + g i) = Rsum_n n f + Rsum_n n g.
Proof. intros. apply Rsum_map_plus. Qed.

Lemma Rsum_n_scal : forall n c f, Rsum_n n (fun i => c * f i) = c * Rsum_n n f.
Proof. intros. apply Rsum_map_scal. Qed.

Lemma Rsum_n_scal_r : forall n c f, Rsum_n n (fun i => f i * c) = Rsum_n n f * c.
Proof. intros. apply Rsum_map_scal_r. Qed.

Lemma Rsum_n_nonneg : forall n f, (forall i, (i < n)%nat -> 0 <= f i) -> 0 <= Rsum_n n f.
Proof. intros. apply Rsum_map_nonneg. intros x Hx. apply in_seq in Hx. apply H. lia. Qed.

Lemma Rsum_n_le : forall n f g, (forall i, (i < n)%nat -> f i <= g i) -> Rsum_n n f <= Rsum_n n g.
Proof. intros. apply Rsum_map_le. intros x Hx. apply in_seq in Hx. apply H. lia. Qed.

(** Only one index contributes. *)
Lemma Rsum_n_single : forall n f k, (k < n)%nat -> (forall i, (i < n)%nat -> i <> k -> f i = 0) ->
  Rsum_n n f = f k.
Proof.
  induction n; intros f k Hk H; [lia|]. rewrite Rsum_n_S.
  destruct (Nat.eq_dec k n) as [->|N].
  - rewrite Rsum_n_zero; [lra|]. intros i Hi. apply H; lia.
  - rewrite (IHn f k); [|lia|intros; apply H; lia]. rewrite (H n); [lra|lia|lia].
Qed.

Lemma Rsum_n_swap : forall n m (f : nat -> nat -> R),
  Rsum_n n (fun i => Rsum_n m (f i)) = Rsum_n m (fun j => Rsum_n n (fun i => f i j)).
Proof. intros. apply Rsum_swap. Qed.

Lemma Rsum_n_add : forall n m f, Rsum_n (n + m) f = Rsum_n n f + Rsum_n m (fun i => f (n + i)%nat).
Proof.
  induction m; intros; [rewrite Nat.add_0_r; unfold Rsum_n at 3; simpl; lra|].
  rewrite Nat.add_succ_r, !Rsum_n_S, IHm. lra.
Qed.

(** Row-major double sums. *)
Lemma Rsum_n_rows : forall h w f,
  Rsum_n h (fun r => Rsum_n w (fun c => f (r * w + c)%nat)) = Rsum_n (h * w) f.
Proof.
  induction h; intros; [reflexivity|].
  rewrite Rsum_n_S, IHh. simpl. rewrite Nat.add_comm, Rsum_n_add. reflexivity.
Qed.

Lemma Rsum_nth : forall l, Rsum l = Rsum_n (length l) (fun i => nth i l 0).
Proof.
  induction l using rev_ind; [reflexivity|].
  rewrite Rsum_app, app_length. simpl. rewrite Nat.add_1_r, Rsum_n_S.
  rewrite app_nth2, Nat.sub_diag by lia. simpl. rewrite IHl.
  rewrite (Rsum_n_ext _ (fun i => nth i l 0) (fun i => nth i (l ++ [x]) 0)); [lra|].
  intros. rewrite app_nth1; auto.
Qed.
