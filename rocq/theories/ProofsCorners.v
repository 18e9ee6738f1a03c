(** Proofs about the corner selection (C73). *)
From Coq Require Import List Arith ZArith Reals Bool Lra Lia Psatz.
From Verif Require Import ModelVectors ModelLBVH ProofsMorton ModelBlocking SpecBlocking.
Import ListNotations.
Local Open Scope R_scope.

Lemma argmin_from_spec : forall l best bv i, 
  let r := argmin_from best bv i l in
  (r = best /\ (forall x, In x l -> bv <= x)) \/
  (exists k, r = (i + k)%nat /\ (k < List.length l)%nat /\ nth k l 0 < bv /\ forall x, In x l -> nth k l 0 <= x).
Proof.
  induction l as [|x l IH]; intros best bv i; cbn [argmin_from].
  - left. split; auto. intros x [].
  - destruct (Rlt_dec x bv) as [H|H].
    + destruct (IH i x (S i)) as [(E & B)|(k & E & L & B & M)]; rewrite E.
      * right. exists 0%nat. cbn [nth List.length]. split; [lia|]. split; [lia|]. split; auto. intros y [<-|I]; [lra|auto].
      * right. exists (S k). cbn [nth List.length]. split; [lia|]. split; [lia|]. split; [lra|]. intros y [<-|I]; [lra|auto].
    + destruct (IH best bv (S i)) as [(E & B)|(k & E & L & B & M)]; rewrite E.
      * left. split; auto. intros y [<-|I]; [lra|auto].
      * right. exists (S k). cbn [nth List.length]. split; [lia|]. split; [lia|]. split; auto. intros y [<-|I]; [lra|auto].
Qed.
Lemma argmin_unique : forall l c, (c < List.length l)%nat ->
  (forall i, (i < List.length l)%nat -> i <> c -> nth c l 0 < nth i l 0) -> argmin l = c.
Proof.
  intros [|x l] c L U; [cbn in L; lia|]. unfold argmin.
  destruct (argmin_from_spec l 0 x 1) as [(E & B)|(k & E & LK & B & M)]; rewrite E.
  - destruct (Nat.eq_dec c 0); auto. exfalso. specialize (U 0%nat). cbn [List.length nth] in *.
    destruct c as [|c]; [lia|]. cbn [nth] in U. assert (nth c l 0 < x) by (apply U; lia).
    assert (x <= nth c l 0) by (apply B, nth_In; lia). lra.
  - destruct (Nat.eq_dec (1 + k) c); auto. exfalso. 
    assert (Q : nth c (x :: l) 0 < nth (S k) (x :: l) 0) by (apply U; cbn [List.length]; lia).
    cbn [nth] in Q. destruct c as [|c]; [lra|]. assert (nth k l 0 <= nth c l 0) by (apply M, nth_In; cbn in L; lia). lra.
Qed.

Lemma Rmin_list_eq : forall l m, In m l -> (forall x, In x l -> m <= x) -> Rmin_list l = m.
Proof. intros l m I B. apply Rle_antisym; [apply Rmin_list_le; auto|]. apply B, Rmin_list_in. intros ->. destruct I. Qed.
Lemma Rmax_list_eq : forall l m, In m l -> (forall x, In x l -> x <= m) -> Rmax_list l = m.
Proof. intros l m I B. apply Rle_antisym; [|apply Rmax_list_ge; auto]. apply B, Rmax_list_in. intros ->. destruct I. Qed.

Lemma facet_length : forall side c r, List.length (facet_points side c r) = (side * side)%nat.
Proof.
  intros. unfold facet_points.
  assert (G : forall l, List.length (flat_map (fun i => map (fun j => {| pe := c i; pn := r j; pu := 0 |}) (seq 0 side)) l) = (List.length l * side)%nat).
  { induction l; auto. cbn [flat_map List.length]. rewrite app_length, map_length, seq_length, IHl. lia. }
  rewrite G, seq_length. auto.
Qed.
Lemma facet_nth : forall side c r i j, (i < side)%nat -> (j < side)%nat ->
  nth_error (facet_points side c r) (i * side + j) = Some {| pe := c i; pn := r j; pu := 0 |}.
Proof.
  intros side c r i j Hi Hj. unfold facet_points.
  assert (G : forall n s k, (k < n)%nat -> nth_error (flat_map (fun i => map (fun j => {| pe := c i; pn := r j; pu := 0 |}) (seq 0 side)) (seq s n)) (k * side + j)
              = Some {| pe := c (s + k)%nat; pn := r j; pu := 0 |}).
  { induction n; intros s k Hk; [lia|]. cbn [seq flat_map]. destruct k as [|k].
    - rewrite nth_error_app1 by (rewrite map_length, seq_length; cbn; lia).
      erewrite map_nth_error; [rewrite Nat.add_0_r; reflexivity|].
      rewrite nth_error_nth' with (d := 0%nat) by (rewrite seq_length; cbn; lia). rewrite seq_nth by (cbn; lia). reflexivity.
    - rewrite nth_error_app2 by (rewrite map_length, seq_length; nia). rewrite map_length, seq_length.
      replace (S k * side + j - side)%nat with (k * side + j)%nat by nia. rewrite IHn by lia. do 3 f_equal. lia. }
  rewrite G by auto. auto.
Qed.

Section Four.
Variables (side : nat) (west east south north : nat -> R).
Definition point_at (f i j : nat) : point :=
  {| pe := if Nat.odd f then east i else west i; pn := if (f <? 2)%nat then north j else south j; pu := 0 |}.
Lemma four_length : List.length (four_facets side west east south north) = (4 * (side * side))%nat.
Proof. unfold four_facets. rewrite !app_length, !facet_length. lia. Qed.
Lemma four_nth : forall f i j, (f < 4)%nat -> (i < side)%nat -> (j < side)%nat ->
  nth_error (four_facets side west east south north) (f * (side * side) + (i * side + j)) = Some (point_at f i j).
Proof.
  intros f i j F I J. unfold four_facets.
  assert (K : (i * side + j < side * side)%nat) by nia.
  destruct f as [|[|[|[|f]]]]; [| | | |lia].
  - rewrite nth_error_app1 by (rewrite facet_length; lia). rewrite Nat.mul_0_l, Nat.add_0_l. apply facet_nth; auto.
  - rewrite nth_error_app2 by (rewrite facet_length; lia). rewrite nth_error_app1 by (rewrite !facet_length; lia). rewrite facet_length.
    replace (1 * (side * side) + (i * side + j) - side * side)%nat with (i * side + j)%nat by lia. apply facet_nth; auto.
  - rewrite !nth_error_app2 by (rewrite !facet_length; lia). rewrite nth_error_app1 by (rewrite !facet_length; lia). rewrite !facet_length.
    replace (2 * (side * side) + (i * side + j) - side * side - side * side)%nat with (i * side + j)%nat by lia. apply facet_nth; auto.
  - rewrite !nth_error_app2 by (rewrite !facet_length; lia). rewrite !facet_length.
    replace (3 * (side * side) + (i * side + j) - side * side - side * side - side * side)%nat with (i * side + j)%nat by lia. apply facet_nth; auto.
Qed.
Lemma decompose : forall k, (k < 4 * (side * side))%nat ->
  exists f i j, (f < 4)%nat /\ (i < side)%nat /\ (j < side)%nat /\ k = (f * (side * side) + (i * side + j))%nat.
Proof.
  intros k K. assert (S0 : side <> 0%nat) by (intros ->; lia). assert (S1 : (side * side <> 0)%nat) by nia.
  exists (k / (side * side))%nat, ((k mod (side * side)) / side)%nat, ((k mod (side * side)) mod side)%nat.
  pose proof (Nat.mod_upper_bound k _ S1). pose proof (Nat.mod_upper_bound (k mod (side * side)) _ S0).
  pose proof (Nat.div_mod k _ S1). pose proof (Nat.div_mod (k mod (side * side)) _ S0).
  split; [apply Nat.div_lt_upper_bound; lia|]. split; [apply Nat.div_lt_upper_bound; lia|]. split; auto. lia.
Qed.
Lemma four_in : forall p, In p (four_facets side west east south north) <->
  exists f i j, (f < 4)%nat /\ (i < side)%nat /\ (j < side)%nat /\ p = point_at f i j.
Proof.
  intros p; split.
  - intros I. apply In_nth_error in I. destruct I as (k & K).
    assert (B : (k < 4 * (side * side))%nat). { rewrite <- four_length. apply nth_error_Some. congruence. }
    destruct (decompose k B) as (f & i & j & F & I & J & E). subst k. rewrite four_nth in K by auto. injection K as <-. eauto 10.
  - intros (f & i & j & F & I & J & ->). eapply nth_error_In. apply four_nth; eauto.
Qed.

Hypothesis S0 : (0 < side)%nat.
Hypothesis W : increasing side west.
Hypothesis E : increasing side east.
Hypothesis So : increasing side south.
Hypothesis No : increasing side north.
Hypothesis WE : west (side - 1) < east 0.
Hypothesis SN : south (side - 1) < north 0.

Lemma inc_le : forall f i j, increasing side f -> (i <= j)%nat -> (j < side)%nat -> f i <= f j.
Proof. intros f i j I L J. destruct (Nat.eq_dec i j) as [->|]; [lra|]. left. apply I. lia. Qed.
Lemma inc_inj : forall f i j, increasing side f -> (i < side)%nat -> (j < side)%nat -> f i = f j -> i = j.
Proof.
  intros f i j I A B Q. destruct (Nat.lt_trichotomy i j) as [H|[H|H]]; auto; exfalso.
  - pose proof (I i j ltac:(lia)). lra.
  - pose proof (I j i ltac:(lia)). lra.
Qed.
Lemma e_bounds : forall f i, (i < side)%nat -> west 0 <= (if Nat.odd f then east i else west i) <= east (side - 1).
Proof.
  intros f i I. pose proof (inc_le west 0 i W ltac:(lia) I). pose proof (inc_le east i (side - 1) E ltac:(lia) ltac:(lia)).
  pose proof (inc_le west i (side - 1) W ltac:(lia) ltac:(lia)). pose proof (inc_le east 0 i E ltac:(lia) I).
  destruct (Nat.odd f); lra.
Qed.
Lemma n_bounds : forall f j, (j < side)%nat -> south 0 <= (if (f <? 2)%nat then north j else south j) <= north (side - 1).
Proof.
  intros f i I. pose proof (inc_le south 0 i So ltac:(lia) I). pose proof (inc_le north i (side - 1) No ltac:(lia) ltac:(lia)).
  pose proof (inc_le south i (side - 1) So ltac:(lia) ltac:(lia)). pose proof (inc_le north 0 i No ltac:(lia) I).
  destruct (f <? 2)%nat; lra.
Qed.
Let surface := four_facets side west east south north.
Lemma min_e_eq : Rmin_list (map pe surface) = west 0.
Proof.
  apply Rmin_list_eq.
  - apply in_map_iff. exists (point_at 0 0 0). split; auto. apply four_in. exists 0%nat, 0%nat, 0%nat. repeat split; auto; lia.
  - intros x I. apply in_map_iff in I. destruct I as (p & <- & I). apply four_in in I. destruct I as (f & i & j & F & A & B & ->). apply (e_bounds f i A).
Qed.
Lemma max_e_eq : Rmax_list (map pe surface) = east (side - 1).
Proof.
  apply Rmax_list_eq.
  - apply in_map_iff. exists (point_at 1 (side - 1) 0). split; auto. apply four_in. exists 1%nat, (side - 1)%nat, 0%nat. repeat split; auto; lia.
  - intros x I. apply in_map_iff in I. destruct I as (p & <- & I). apply four_in in I. destruct I as (f & i & j & F & A & B & ->). apply (e_bounds f i A).
Qed.
Lemma min_n_eq : Rmin_list (map pn surface) = south 0.
Proof.
  apply Rmin_list_eq.
  - apply in_map_iff. exists (point_at 2 0 0). split; auto. apply four_in. exists 2%nat, 0%nat, 0%nat. repeat split; auto; lia.
  - intros x I. apply in_map_iff in I. destruct I as (p & <- & I). apply four_in in I. destruct I as (f & i & j & F & A & B & ->). apply (n_bounds f j B).
Qed.
Lemma max_n_eq : Rmax_list (map pn surface) = north (side - 1).
Proof.
  apply Rmax_list_eq.
  - apply in_map_iff. exists (point_at 1 0 (side - 1)). split; auto. apply four_in. exists 1%nat, 0%nat, (side - 1)%nat. repeat split; auto; lia.
  - intros x I. apply in_map_iff in I. destruct I as (p & <- & I). apply four_in in I. destruct I as (f & i & j & F & A & B & ->). apply (n_bounds f j B).
Qed.

Lemma closest : forall f i j, (f < 4)%nat -> (i < side)%nat -> (j < side)%nat ->
  (forall f' i' j', (f' < 4)%nat -> (i' < side)%nat -> (j' < side)%nat ->
     pe (point_at f' i' j') = pe (point_at f i j) -> pn (point_at f' i' j') = pn (point_at f i j) -> f' = f /\ i' = i /\ j' = j) ->
  argmin (map (fun p => sqrt ((pe p - pe (point_at f i j)) ^ 2 + (pn p - pn (point_at f i j)) ^ 2)) surface)
  = (f * (side * side) + (i * side + j))%nat.
Proof.
  intros f i j F I J U. set (g := fun p => sqrt ((pe p - pe (point_at f i j)) ^ 2 + (pn p - pn (point_at f i j)) ^ 2)).
  assert (C : (f * (side * side) + (i * side + j) < 4 * (side * side))%nat) by nia.
  assert (ND : forall f' i' j', (f' < 4)%nat -> (i' < side)%nat -> (j' < side)%nat ->
     nth (f' * (side * side) + (i' * side + j')) (map g surface) 0 = g (point_at f' i' j')).
  { intros. apply nth_error_nth. apply map_nth_error, four_nth; auto. }
  apply argmin_unique; rewrite map_length; unfold surface; rewrite four_length; auto.
  intros k K N. destruct (decompose k K) as (f' & i' & j' & F' & I' & J' & ->). fold surface.
  rewrite !ND by auto. unfold g at 1. rewrite !Rminus_diag_eq by auto.
  replace (0 ^ 2 + 0 ^ 2) with 0 by ring. rewrite sqrt_0. apply sqrt_lt_R0.
  destruct (Req_dec (pe (point_at f' i' j')) (pe (point_at f i j))) as [A|A].
  - destruct (Req_dec (pn (point_at f' i' j')) (pn (point_at f i j))) as [B|B].
    + exfalso. apply N. destruct (U f' i' j' F' I' J' A B) as (-> & -> & ->). auto.
    + assert (0 < (pn (point_at f' i' j') - pn (point_at f i j)) ^ 2) by (rewrite <- Rsqr_pow2; apply Rsqr_pos_lt; lra).
      pose proof (pow2_ge_0 (pe (point_at f' i' j') - pe (point_at f i j))). lra.
  - assert (0 < (pe (point_at f' i' j') - pe (point_at f i j)) ^ 2) by (rewrite <- Rsqr_pow2; apply Rsqr_pos_lt; lra).
    pose proof (pow2_ge_0 (pn (point_at f' i' j') - pn (point_at f i j))). lra.
Qed.

Lemma column_inj : forall f i f' i', (f < 4)%nat -> (f' < 4)%nat -> (i < side)%nat -> (i' < side)%nat ->
  (if Nat.odd f' then east i' else west i') = (if Nat.odd f then east i else west i) -> Nat.odd f' = Nat.odd f /\ i' = i.
Proof.
  intros f i f' i' F F' I I' Q.
  pose proof (inc_le west i (side - 1) W ltac:(lia) ltac:(lia)). pose proof (inc_le east 0 i E ltac:(lia) I).
  pose proof (inc_le west i' (side - 1) W ltac:(lia) ltac:(lia)). pose proof (inc_le east 0 i' E ltac:(lia) I').
  destruct (Nat.odd f'), (Nat.odd f); try lra; split; auto; [apply (inc_inj east)|apply (inc_inj west)]; auto.
Qed.
Lemma row_inj : forall f j f' j', (f < 4)%nat -> (f' < 4)%nat -> (j < side)%nat -> (j' < side)%nat ->
  (if (f' <? 2)%nat then north j' else south j') = (if (f <? 2)%nat then north j else south j) -> (f' <? 2)%nat = (f <? 2)%nat /\ j' = j.
Proof.
  intros f i f' i' F F' I I' Q.
  pose proof (inc_le south i (side - 1) So ltac:(lia) ltac:(lia)). pose proof (inc_le north 0 i No ltac:(lia) I).
  pose proof (inc_le south i' (side - 1) So ltac:(lia) ltac:(lia)). pose proof (inc_le north 0 i' No ltac:(lia) I').
  destruct (f' <? 2)%nat, (f <? 2)%nat; try lra; split; auto; [apply (inc_inj north)|apply (inc_inj south)]; auto.
Qed.
Lemma unique_at : forall f i j f' i' j', (f < 4)%nat -> (i < side)%nat -> (j < side)%nat ->
  (f' < 4)%nat -> (i' < side)%nat -> (j' < side)%nat ->
  pe (point_at f' i' j') = pe (point_at f i j) -> pn (point_at f' i' j') = pn (point_at f i j) -> f' = f /\ i' = i /\ j' = j.
Proof.
  intros f i j f' i' j' F I J F' I' J' A B. apply column_inj in A; auto. apply row_inj in B; auto.
  destruct A as (A & ->), B as (B & ->). split; auto.
  destruct f as [|[|[|[|f]]]], f' as [|[|[|[|f']]]]; try lia; auto; cbn in A, B; try discriminate.
Qed.

Theorem corners_agree : corner_indices_by_distance surface = corner_indices_by_index (List.length surface)
  /\ map (nth_error surface) (corner_indices_by_index (List.length surface))
     = [Some {| pe := west 0; pn := south 0; pu := 0 |}; Some {| pe := west 0; pn := north (side - 1); pu := 0 |};
        Some {| pe := east (side - 1); pn := north (side - 1); pu := 0 |}; Some {| pe := east (side - 1); pn := south 0; pu := 0 |}].
Proof.
  assert (IX : corner_indices_by_index (List.length surface)
               = [(2 * (side * side) + (0 * side + 0)); (0 * (side * side) + (0 * side + (side - 1)));
                  (1 * (side * side) + ((side - 1) * side + (side - 1))); (3 * (side * side) + ((side - 1) * side + 0))]%nat).
  { unfold corner_indices_by_index, surface. rewrite four_length.
    assert (A : (4 * (side * side) / 4 = side * side)%nat) by (rewrite Nat.mul_comm; apply Nat.div_mul; lia).
    assert (B : (4 * (side * side) / 2 = 2 * (side * side))%nat).
    { replace (4 * (side * side))%nat with (2 * (side * side) * 2)%nat by lia. apply Nat.div_mul; lia. }
    rewrite A, B, Nat.sqrt_square.
    assert (SQ : ((side - 1) * side + side = side * side)%nat) by (destruct side; cbn; lia).
    set (q := (side * side)%nat) in *. set (q' := ((side - 1) * side)%nat) in *. do 4 (apply (f_equal2 cons); [lia|]). reflexivity. }
  split.
  - unfold corner_indices_by_distance. rewrite min_e_eq, max_e_eq, min_n_eq, max_n_eq, IX. cbn [map].
    apply (f_equal2 cons); [|apply (f_equal2 cons); [|apply (f_equal2 cons); [|apply (f_equal2 cons); [|reflexivity]]]].
    + apply (closest 2 0 0); try lia. intros f' i' j' ? ? ?. apply unique_at; auto.
    + apply (closest 0 0 (side - 1)); try lia. intros f' i' j' ? ? ?. apply unique_at; auto; lia.
    + apply (closest 1 (side - 1) (side - 1)); try lia. intros f' i' j' ? ? ?. apply unique_at; auto; lia.
    + apply (closest 3 (side - 1) 0); try lia. intros f' i' j' ? ? ?. apply unique_at; auto; lia.
  - rewrite IX. cbn [map]. unfold surface. rewrite !four_nth by lia. reflexivity.
Qed.
End Four.

From Verif Require Import ProofsVectors.
Theorem rectangle_of_corners : forall c0 c1 c2 c3, vadd c0 c2 = vadd c1 c3 ->
  let p := primitive_of_corners [c0; c1; c2; c3] in
  (forall x, (exists a b, (0 <= a <= 1)%R /\ (0 <= b <= 1)%R /\ x = vadd (corner0 p) (vadd (smul a (span_u p)) (smul b (span_v p))))
     <-> (exists w0 w1 w2 w3, (0 <= w0 /\ 0 <= w1 /\ 0 <= w2 /\ 0 <= w3 /\ w0 + w1 + w2 + w3 = 1)%R
          /\ x = vadd (vadd (smul w0 c0) (smul w1 c1)) (vadd (smul w2 c2) (smul w3 c3))))
  /\ ((/ 10 ^ 12 <= norm (cross (vsub c1 c0) (vsub c3 c0)))%R ->
      dot (prim_normal p) (prim_normal p) = 1%R /\ dot (prim_normal p) (vsub c1 c0) = 0%R /\ dot (prim_normal p) (vsub c3 c0) = 0%R).
Proof.
  intros c0 c1 c2 c3 P p. assert (C2 : c2 = vsub (vadd c1 c3) c0) by (rewrite <- P; vring).
  unfold p, primitive_of_corners, primitive_of. cbn [nth corner0 span_u span_v prim_normal]. split.
  - intros x. split.
    + intros (a & b & A & B & ->). exists ((1 - a) * (1 - b))%R, (a * (1 - b))%R, (a * b)%R, ((1 - a) * b)%R. split.
      * repeat split; try (apply Rmult_le_pos; lra). ring.
      * subst c2. vring.
    + intros (w0 & w1 & w2 & w3 & (W0 & W1 & W2 & W3 & W) & ->). exists (w1 + w2)%R, (w3 + w2)%R. split; [lra|]. split; [lra|].
      subst c2. replace w0 with (1 - w1 - w2 - w3)%R by lra. vring.
  - intros L. unfold normalize. rewrite normalize_eps_long by auto. set (u := vsub c1 c0) in *. set (v := vsub c3 c0) in *.
    set (l := norm (cross u v)) in *. assert (0 < l)%R by lra.
    assert (Q : (l * l)%R = dot (cross u v) (cross u v)) by apply norm_sq. split; [|split].
    + rewrite dot_smul_l, dot_smul_r, <- Q. field. lra.
    + rewrite dot_smul_l. replace (dot (cross u v) u) with 0%R by (vunfold; ring). ring.
    + rewrite dot_smul_l. replace (dot (cross u v) v) with 0%R by (vunfold; ring). ring.
Qed.
