(** Proofs about started processes. *)
From Coq Require Import List Arith Bool Lia Permutation.
From Verif Require Import ModelField ModelDistributed ModelEnvironment SpecDistributed SpecEnvironment ProofsDistributed.
Import ListNotations.

Lemma joined_start : forall e requested rank world, joined e rank world -> 1 <= device_count e ->
  exists d, initialize_ddp_environment e requested = Ok (d, true, rank, world).
Proof.
  intros e requested rank world J C. unfold initialize_ddp_environment. cbv zeta. rewrite J.
  destruct (get_device e requested) as [|i|]; eauto. destruct (Nat.eqb_spec (device_count e) 0); [lia|]. eauto.
Qed.
Lemma isolated_start : forall e requested, isolated e -> exists d, initialize_ddp_environment e requested = Ok (d, false, 0, 1) /\ d = get_device e requested.
Proof. intros e requested I. unfold initialize_ddp_environment. cbv zeta. rewrite I. destruct (get_device e requested); eauto. Qed.

Theorem joined_work : forall (processes : nat -> environment) requested world groups, 1 <= world <= groups ->
  (forall r, r < world -> joined (processes r) r world /\ 1 <= device_count (processes r)) ->
  exists work, (forall r, r < world -> groups_of_process (processes r) requested groups = Ok (work r)) /\ exact_partition work world groups.
Proof.
  intros processes requested world groups W J. exists (groups_of_rank world groups). split; [|apply groups_partition; auto].
  intros r R. destruct (J r R) as (A & B). unfold groups_of_process. destruct (joined_start _ requested _ _ A B) as (d & ->). auto.
Qed.

Theorem isolated_work : forall e requested groups, isolated e -> 1 <= groups -> groups_of_process e requested groups = Ok (seq 0 groups).
Proof.
  intros e requested groups I G. unfold groups_of_process. destruct (isolated_start e requested I) as (d & -> & _). cbn [bind]. f_equal.
  rewrite groups_of_rank_spec by lia. destruct (Nat.ltb_spec groups 1); [lia|]. rewrite (filter_ext _ (fun _ => true)); [|intros a; rewrite Nat.mod_1_r; auto].
  clear. generalize 0. induction groups as [|g IH]; intros a; auto. cbn. f_equal. auto.
Qed.

Lemma joined_cuda : forall e requested rank world, joined e rank world -> (exists i, get_device e requested = Cuda i) -> 1 <= device_count e ->
  initialize_ddp_environment e requested = Ok (Cuda (Some (rank mod device_count e)), true, rank, world).
Proof.
  intros e requested rank world J (i & D) C. unfold initialize_ddp_environment. cbv zeta. rewrite D, J. destruct (Nat.eqb_spec (device_count e) 0); [lia|auto].
Qed.

Lemma mod_block : forall d a i j, i < j < d -> (a + i) mod d <> (a + j) mod d.
Proof.
  intros d a i j L E. assert (D : d <> 0) by lia. pose proof (Nat.div_mod (a + i) d D) as P. pose proof (Nat.div_mod (a + j) d D) as Q. rewrite E in P.
  assert ((a + j) / d = (a + i) / d \/ (a + j) / d >= S ((a + i) / d)) as [H|H]; [|rewrite H in Q; lia|].
  - pose proof (Nat.div_le_mono (a + i) (a + j) d D ltac:(lia)). lia.
  - assert (d * ((a + j) / d) >= d * S ((a + i) / d)) by (apply Nat.mul_le_mono_l; lia). rewrite Nat.mul_succ_r in *. lia.
Qed.
Lemma nodup_map_inj : forall {A B} (f : A -> B) l, (forall x y, In x l -> In y l -> f x = f y -> x = y) -> NoDup l -> NoDup (map f l).
Proof.
  intros A B f l. induction l as [|a l IH]; intros I N; cbn; constructor; inversion N; subst.
  - intros C. apply in_map_iff in C. destruct C as (y & E & Y). apply H1. rewrite <- (I y a); auto; [right; auto|left; auto].
  - apply IH; auto. intros x y X Y. apply I; right; auto.
Qed.
Theorem block_devices : forall per_node node count, per_node <= count -> NoDup (map (fun rank => rank mod count) (block_ranks per_node node)).
Proof.
  intros per_node node count L. unfold block_ranks. rewrite map_map. apply nodup_map_inj; [|apply seq_NoDup].
  intros i j I J E. apply in_seq in I, J. destruct (Nat.lt_trichotomy i j) as [H|[H|H]]; auto; exfalso.
  - apply (mod_block count (node * per_node) i j); auto. lia.
  - apply (mod_block count (node * per_node) j i); auto. lia.
Qed.
Theorem cyclic_devices : forall k per_node node count, 1 <= count -> forall rank, In rank (cyclic_ranks (k * count) per_node node) -> rank mod count = node mod count.
Proof.
  intros k per_node node count C rank I. unfold cyclic_ranks in I. apply in_map_iff in I. destruct I as (i & <- & _).
  rewrite Nat.mul_assoc, Nat.add_comm. apply Nat.mod_add. lia.
Qed.
Lemma wanted_device : forall e requested, wants_cuda e requested -> exists i, get_device e requested = Cuda i.
Proof. intros e requested [(i & ->)|(-> & S & C)]; cbn; [eauto|]. rewrite C. destruct S as [-> | ->]; eauto. Qed.
