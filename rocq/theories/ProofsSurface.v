(** Proofs about surface points and normals (C45-C47). *)
From Coq Require Import List Arith ZArith Reals Bool Lra Lia Psatz.
From Verif Require Import RealSums ModelField ModelVectors ProofsVectors ModelTransforms ModelActuators ModelNurbs SpecIntersections SpecTransforms SpecNurbs
  ProofsTransforms ProofsBasis ProofsKnots.
Import ListNotations.
Local Open Scope R_scope.

(** ** Sums over the whole net and over the span *)
Lemma seq_shifted : forall k a, map (fun r => (k + r)%nat) (seq 0 a) = seq k a.
Proof.
  assert (G : forall k a b, map (fun r => (k + r)%nat) (seq b a) = seq (k + b) a).
  { intros k. induction a as [|a IH]; intros b; auto. cbn [seq map]. f_equal. rewrite IH. f_equal. lia. }
  intros k a. rewrite G. f_equal. lia.
Qed.
Lemma Rsum_window : forall (f g : nat -> R) p i n, (p <= i < n)%nat -> (forall a, (a < i - p \/ i < a)%nat -> f a = 0) ->
  Rsum (map (fun a => f a * g a) (seq 0 n)) = Rsum (map (fun r => f (i - p + r)%nat * g (i - p + r)%nat) (seq 0 (S p))).
Proof.
  intros f g p i n H Z. replace n with ((i - p) + (S p + (n - S i)))%nat by lia. rewrite seq_app, seq_app, !map_app, !Rsum_app. cbn [Nat.add].
  rewrite (Rsum_map_zero _ (seq 0 (i - p))). 2: { intros a A. apply in_seq in A. rewrite Z by lia. lra. }
  rewrite (Rsum_map_zero _ (seq (i - p + S p) (n - S i))). 2: { intros a A. apply in_seq in A. rewrite Z by lia. lra. }
  replace (seq (i - p) (S p)) with (map (fun r => (i - p + r)%nat) (seq 0 (S p))).
  - rewrite map_map. lra.
  - apply seq_shifted.
Qed.
Lemma hsum_components : forall A (f : A -> hvec) l, hsum (map f l)
  = hv (Rsum (map (fun a => he (f a)) l)) (Rsum (map (fun a => hn (f a)) l)) (Rsum (map (fun a => hu (f a)) l)) (Rsum (map (fun a => hw (f a)) l)).
Proof. induction l as [|a l IH]; auto. cbn [map hsum fold_right]. fold (hsum (map f l)). rewrite IH. reflexivity. Qed.
Lemma wrapped_in : forall size i, (i < size)%nat -> wrapped size (Z.of_nat i) = Some i.
Proof.
  intros. unfold wrapped. destruct (Z.leb_spec 0 (Z.of_nat i)); [|lia]. destruct (Z.ltb_spec (Z.of_nat i) (Z.of_nat size)); [|lia].
  cbn [andb]. rewrite Nat2Z.id. auto.
Qed.
(** Both the values and the derivatives are zero outside the span. *)
Definition windowed (f : nat -> R) (p i : nat) : Prop := forall a, (a < i - p \/ i < a)%nat -> f a = 0.
Definition grid_sum (n m : nat) (f g : nat -> R) (h : nat -> nat -> R) : R :=
  Rsum (map (fun a => Rsum (map (fun b => f a * g b * h a b) (seq 0 m))) (seq 0 n)).
Lemma Rsum_scaled_swap : forall (n m : nat) (F : nat -> nat -> R), Rsum (map (fun a => Rsum (map (fun b => F a b) (seq 0 m))) (seq 0 n))
  = Rsum (map (fun b => Rsum (map (fun a => F a b) (seq 0 n))) (seq 0 m)).
Proof.
  intros n m F. induction n as [|n IH].
  - cbn [seq map Rsum fold_right]. symmetry. apply Rsum_map_zero. auto.
  - rewrite Rsum_snoc, IH, <- Rsum_map_plus. apply Rsum_map_ext. intros b _. rewrite Rsum_snoc. auto.
Qed.
Lemma grid_window : forall n m f g h p q i j, (p <= i < n)%nat -> (q <= j < m)%nat -> windowed f p i -> windowed g q j ->
  grid_sum n m f g h = Rsum (map (fun s => g (j - q + s)%nat * Rsum (map (fun r => f (i - p + r)%nat * h (i - p + r)%nat (j - q + s)%nat) (seq 0 (S p)))) (seq 0 (S q))).
Proof.
  intros n m f g h p q i j I J F G. unfold grid_sum. rewrite Rsum_scaled_swap.
  rewrite <- (Rsum_window g (fun b => Rsum (map (fun r => f (i - p + r)%nat * h (i - p + r)%nat b) (seq 0 (S p)))) q j m J G).
  apply Rsum_map_ext. intros b _. rewrite <- (Rsum_window f (fun a => h a b) p i n I F), <- Rsum_map_scal.
  apply Rsum_map_ext. intros a _. ring.
Qed.
Lemma combination_sum : forall c p q i j f g, (p <= i < n_u c)%nat -> (q <= j < n_v c)%nat -> windowed f p i -> windowed g q j ->
  combination c p q (Z.of_nat i) (Z.of_nat j) (map (fun r => f (i - p + r)%nat) (seq 0 (S p))) (map (fun s => g (j - q + s)%nat) (seq 0 (S q)))
  = Some (hv (grid_sum (n_u c) (n_v c) f g (fun a b => pe (control c a b))) (grid_sum (n_u c) (n_v c) f g (fun a b => pn (control c a b)))
             (grid_sum (n_u c) (n_v c) f g (fun a b => pu (control c a b))) (grid_sum (n_u c) (n_v c) f g (fun a b => 1))).
Proof.
  intros c p q i j f g I J F G. unfold combination.
  rewrite (collect_map _ _ _ (fun s => hscale (g (j - q + s)%nat) (hsum (map (fun r => hscale (f (i - p + r)%nat)
    (hv (pe (control c (i - p + r) (j - q + s))) (pn (control c (i - p + r) (j - q + s))) (pu (control c (i - p + r) (j - q + s))) 1)) (seq 0 (S p)))))).
  2: { intros s S0. apply in_seq in S0. rewrite nth_map_seq by lia.
    rewrite (collect_map _ _ _ (fun r => hscale (f (i - p + r)%nat)
      (hv (pe (control c (i - p + r) (j - q + s))) (pn (control c (i - p + r) (j - q + s))) (pu (control c (i - p + r) (j - q + s))) 1))); [reflexivity|].
    intros r R0. apply in_seq in R0. rewrite nth_map_seq by lia. unfold gather.
    replace (Z.of_nat i - Z.of_nat p + Z.of_nat r)%Z with (Z.of_nat (i - p + r)) by lia.
    replace (Z.of_nat j - Z.of_nat q + Z.of_nat s)%Z with (Z.of_nat (j - q + s)) by lia.
    rewrite !wrapped_in by lia. reflexivity. }
  cbn [obind]. f_equal. rewrite hsum_components. rewrite !(grid_window (n_u c) (n_v c) f g _ p q i j I J F G).
  f_equal; apply Rsum_map_ext; intros s _; cbn [hscale he hn hu hw hv]; rewrite hsum_components; cbn [he hn hu hw hv hscale]; reflexivity.
Qed.

Lemma windowed_pol : forall U p i x, windowed (fun a => pol U i p a x) p i.
Proof. intros U p i x a H. apply pol_zero. lia. Qed.
Lemma windowed_pol' : forall U p i x, (p <= i)%nat -> windowed (fun a => pol' U i p a x) p i.
Proof.
  intros U [|q] i x P a H; cbn [pol']; auto. rewrite !pol_zero by lia. lra.
Qed.
Lemma windowed_sum : forall f p i n, (p <= i < n)%nat -> windowed f p i -> Rsum (map f (seq 0 n)) = Rsum (map (fun r => f (i - p + r)%nat) (seq 0 (S p))).
Proof.
  intros f p i n I W. pose proof (Rsum_window f (fun _ => 1) p i n I W) as E.
  rewrite <- (Rsum_map_ext (fun a => f a * 1) f) by (intros; lra). rewrite E. apply Rsum_map_ext. intros; lra.
Qed.

(** ** The surface as polynomials on one patch *)
Definition patch_point (c : net) (f g : nat -> R) : point := tensor (n_u c) (n_v c) f g (control c).
Lemma mono_knots : forall n p, (1 <= p < n)%nat -> mono (knot_of (knot_vector n p)) (n + p).
Proof. intros n p P a b AB. apply knots_non_decreasing; auto. rewrite knots_length. lia. Qed.
Lemma pol_sum : forall n p i x, (1 <= p < n)%nat -> (p <= i < n)%nat -> knot_of (knot_vector n p) i <= x < knot_of (knot_vector n p) (S i) ->
  Rsum (map (fun a => pol (knot_of (knot_vector n p)) i p a x) (seq 0 n)) = 1.
Proof.
  intros n p i x P I X. rewrite (windowed_sum (fun a => pol (knot_of (knot_vector n p)) i p a x) p i n I) by apply windowed_pol.
  apply (column_sum (knot_of (knot_vector n p)) i (n + p) x (mono_knots n p P) ltac:(lia) X p); lia.
Qed.
Lemma grid_sum_one : forall n m f g, grid_sum n m f g (fun _ _ => 1) = Rsum (map f (seq 0 n)) * Rsum (map g (seq 0 m)).
Proof.
  intros. unfold grid_sum. rewrite <- Rsum_map_scal_r. apply Rsum_map_ext. intros a _. rewrite <- Rsum_map_scal. apply Rsum_map_ext. intros; ring.
Qed.
Lemma evaluate_patch : forall c p q i j x y, fits c p q -> (p <= i < n_u c)%nat -> (q <= j < n_v c)%nat ->
  let U := knot_of (knot_vector (n_u c) p) in let V := knot_of (knot_vector (n_v c) q) in
  U i <= x < U (S i) -> V j <= y < V (S j) ->
  evaluate c p q x y = Some
    (as_point (patch_point c (fun a => pol U i p a x) (fun b => pol V j q b y)),
     as_direction (normalize (cross (patch_point c (fun a => pol' U i p a x) (fun b => pol V j q b y))
                                    (patch_point c (fun a => pol U i p a x) (fun b => pol' V j q b y))))).
Proof.
  intros c p q i j x y (FU & FV) I J U V X Y. unfold evaluate.
  assert (RU : 0 <= x < 1).
  { assert (0 <= U i) by (apply knots_bounds; lia). assert (U (S i) <= 1) by (apply knots_bounds; lia). lra. }
  assert (RV : 0 <= y < 1).
  { assert (0 <= V j) by (apply knots_bounds; lia). assert (V (S j) <= 1) by (apply knots_bounds; lia). lra. }
  destruct (uniform_contains (n_u c) p x FU RU) as (i' & -> & I' & X').
  destruct (uniform_contains (n_v c) q y FV RV) as (j' & -> & J' & Y').
  assert (i' = i) as -> by (apply (span_unique (knot_vector (n_u c) p) i' i x); auto; try (rewrite knots_length; lia); apply knots_non_decreasing; auto).
  assert (j' = j) as -> by (apply (span_unique (knot_vector (n_v c) q) j' j y); auto; try (rewrite knots_length; lia); apply knots_non_decreasing; auto).
  rewrite (basis_polynomials (knot_vector (n_u c) p) p i x) by (auto using knots_non_decreasing; try rewrite knots_length; lia).
  rewrite (basis_polynomials (knot_vector (n_v c) q) q j y) by (auto using knots_non_decreasing; try rewrite knots_length; lia).
  cbn [obind]. fold U V.
  destruct (Nat.eqb_spec p 0); [lia|]. destruct (Nat.eqb_spec q 0); [lia|].
  rewrite (combination_sum c p q i j (fun a => pol U i p a x) (fun b => pol V j q b y)) by (auto using windowed_pol).
  rewrite (combination_sum c p q i j (fun a => pol' U i p a x) (fun b => pol V j q b y)) by (auto using windowed_pol; apply windowed_pol'; lia).
  rewrite (combination_sum c p q i j (fun a => pol U i p a x) (fun b => pol' V j q b y)) by (auto using windowed_pol; apply windowed_pol'; lia).
  cbn [obind hw hv he hn hu]. rewrite (grid_sum_one _ _ (fun a => pol U i p a x)).
  unfold U, V. rewrite !pol_sum by auto. fold U V. rewrite Rmult_1_l.
  unfold div_opt. destruct (Req_EM_T 1 0); [lra|]. cbn [obind]. f_equal. f_equal.
  unfold as_point, patch_point, tensor. cbn [pe pn pu vec]. unfold grid_sum. apply hvec_eq; cbn [he hn hu hw hv]; lra.
Qed.

(** ** In terms of the Cox-de Boor basis *)
Definition textbook_point (c : net) (p q : nat) (x y : R) : point :=
  tensor (n_u c) (n_v c) (fun a => cox_de_boor (knot_of (knot_vector (n_u c) p)) p a x) (fun b => cox_de_boor (knot_of (knot_vector (n_v c) q)) q b y) (control c).
Lemma tensor_ext : forall n m f f' g g' c, (forall a, (a < n)%nat -> f a = f' a) -> (forall b, (b < m)%nat -> g b = g' b) ->
  tensor n m f g c = tensor n m f' g' c.
Proof.
  intros n m f f' g g' c F G. unfold tensor. 
  assert (E : forall h, Rsum (map (fun a => Rsum (map (fun b => f a * g b * h (c a b)) (seq 0 m))) (seq 0 n))
    = Rsum (map (fun a => Rsum (map (fun b => f' a * g' b * h (c a b)) (seq 0 m))) (seq 0 n))).
  { intros h. apply Rsum_map_ext. intros a A. apply in_seq in A. apply Rsum_map_ext. intros b B0. apply in_seq in B0. rewrite F, G by lia. auto. }
  rewrite !E. auto.
Qed.
Lemma spans_of : forall n p x, (1 <= p < n)%nat -> 0 <= x < 1 -> exists i, (p <= i < n)%nat
  /\ knot_of (knot_vector n p) i <= x < knot_of (knot_vector n p) (S i)
  /\ (forall a, (a < n)%nat -> pol (knot_of (knot_vector n p)) i p a x = cox_de_boor (knot_of (knot_vector n p)) p a x)
  /\ (forall a, (a < n)%nat -> pol' (knot_of (knot_vector n p)) i p a x = cox_de_boor' (knot_of (knot_vector n p)) p a x).
Proof.
  intros n p x P X. destruct (uniform_contains n p x P X) as (i & _ & I & XI). exists i. split; auto. split; auto.
  pose proof (mono_knots n p P) as M. split; intros a A; symmetry; [apply (cox_pol _ _ (n + p))|apply (cox_pol' _ _ (n + p))]; auto; lia.
Qed.
Theorem evaluate_textbook : forall c p q x y, fits c p q -> 0 <= x < 1 -> 0 <= y < 1 ->
  let N a := cox_de_boor (knot_of (knot_vector (n_u c) p)) p a x in
  let N' a := cox_de_boor' (knot_of (knot_vector (n_u c) p)) p a x in
  let M b := cox_de_boor (knot_of (knot_vector (n_v c) q)) q b y in
  let M' b := cox_de_boor' (knot_of (knot_vector (n_v c) q)) q b y in
  evaluate c p q x y = Some (as_point (tensor (n_u c) (n_v c) N M (control c)),
    as_direction (normalize (cross (tensor (n_u c) (n_v c) N' M (control c)) (tensor (n_u c) (n_v c) N M' (control c))))).
Proof.
  intros c p q x y F X Y N N' M M'. destruct F as (FU & FV).
  destruct (spans_of _ _ _ FU X) as (i & I & XI & P1 & P1'). destruct (spans_of _ _ _ FV Y) as (j & J & YJ & P2 & P2').
  rewrite (evaluate_patch c p q i j x y (conj FU FV) I J XI YJ). unfold patch_point.
  rewrite (tensor_ext (n_u c) (n_v c) (fun a => pol (knot_of (knot_vector (n_u c) p)) i p a x) N (fun b => pol (knot_of (knot_vector (n_v c) q)) j q b y) M) by auto.
  rewrite (tensor_ext (n_u c) (n_v c) (fun a => pol' (knot_of (knot_vector (n_u c) p)) i p a x) N' (fun b => pol (knot_of (knot_vector (n_v c) q)) j q b y) M) by auto.
  rewrite (tensor_ext (n_u c) (n_v c) (fun a => pol (knot_of (knot_vector (n_u c) p)) i p a x) N (fun b => pol' (knot_of (knot_vector (n_v c) q)) j q b y) M') by auto.
  auto.
Qed.
(** The weights. *)
Theorem weights : forall n p x, (1 <= p < n)%nat -> 0 <= x < 1 ->
  (forall a, (a < n)%nat -> 0 <= cox_de_boor (knot_of (knot_vector n p)) p a x)
  /\ Rsum (map (fun a => cox_de_boor (knot_of (knot_vector n p)) p a x) (seq 0 n)) = 1
  /\ Rsum (map (fun a => cox_de_boor' (knot_of (knot_vector n p)) p a x) (seq 0 n)) = 0.
Proof.
  intros n p x P X. pose proof (mono_knots n p P) as M. destruct (spans_of n p x P X) as (i & I & XI & E & E').
  split; [|split].
  - intros a A. apply (cox_nonneg _ (n + p)); auto. lia.
  - rewrite <- (pol_sum n p i x P I XI). apply Rsum_map_ext. intros a A. apply in_seq in A. symmetry. apply E. lia.
  - rewrite <- (derivative_sum (knot_of (knot_vector n p)) i (n + p) x ltac:(lia) p) by lia.
    rewrite <- (windowed_sum (fun a => pol' (knot_of (knot_vector n p)) i p a x) p i n I) by (apply windowed_pol'; lia).
    apply Rsum_map_ext. intros a A. apply in_seq in A. symmetry. apply E'. lia.
Qed.

(** ** Consequences: hull, affine maps, flatness, corner *)
Lemma Rsum_le : forall A (f g : A -> R) l, (forall a, In a l -> f a <= g a) -> Rsum (map f l) <= Rsum (map g l).
Proof.
  induction l as [|a l IH]; intros H; cbn [map Rsum fold_right]; [lra|]. assert (f a <= g a) by (apply H; cbn; auto).
  assert (Rsum (map f l) <= Rsum (map g l)) by (apply IH; intros; apply H; cbn; auto). unfold Rsum in *. lra.
Qed.
Lemma tensor_linear : forall n m f g c a,
  dot a (tensor n m f g c) = grid_sum n m f g (fun i j => dot a (c i j)).
Proof.
  intros n m f g c a. unfold tensor, grid_sum, dot. cbn [pe pn pu vec]. rewrite <- !Rsum_map_scal, <- !Rsum_map_plus.
  apply Rsum_map_ext. intros i _. rewrite <- !Rsum_map_scal, <- !Rsum_map_plus. apply Rsum_map_ext. intros j _. ring.
Qed.
Lemma grid_sum_le : forall n m f g h k, (forall a, (a < n)%nat -> 0 <= f a) -> (forall b, (b < m)%nat -> 0 <= g b) ->
  (forall a b, (a < n)%nat -> (b < m)%nat -> h a b <= k a b) -> grid_sum n m f g h <= grid_sum n m f g k.
Proof.
  intros n m f g h k F G H. unfold grid_sum. apply Rsum_le. intros a A. apply in_seq in A. apply Rsum_le. intros b B0. apply in_seq in B0.
  apply Rmult_le_compat_l; [apply Rmult_le_pos; [apply F|apply G]; lia|apply H; lia].
Qed.
Lemma grid_sum_const : forall n m f g k, Rsum (map f (seq 0 n)) = 1 -> Rsum (map g (seq 0 m)) = 1 -> grid_sum n m f g (fun _ _ => k) = k.
Proof.
  intros n m f g k F G. transitivity (k * grid_sum n m f g (fun _ _ => 1)); [|rewrite grid_sum_one, F, G; lra].
  unfold grid_sum. rewrite <- Rsum_map_scal. apply Rsum_map_ext. intros a _. rewrite <- Rsum_map_scal. apply Rsum_map_ext. intros; ring.
Qed.
Theorem hull : forall c p q x y point normal a bound, fits c p q -> 0 <= x < 1 -> 0 <= y < 1 ->
  evaluate c p q x y = Some (point, normal) ->
  (forall i j, (i < n_u c)%nat -> (j < n_v c)%nat -> dot a (control c i j) <= bound) -> dot a (enu point) <= bound.
Proof.
  intros c p q x y pt nm a bound F X Y E H. rewrite evaluate_textbook in E by auto. injection E as <- _. destruct F as (FU & FV).
  destruct (weights _ _ _ FU X) as (N1 & S1 & _). destruct (weights _ _ _ FV Y) as (N2 & S2 & _).
  match goal with |- dot a (enu (as_point ?v)) <= _ => replace (enu (as_point v)) with v by (apply point_eq; reflexivity) end.
  rewrite tensor_linear. rewrite <- (grid_sum_const (n_u c) (n_v c) _ _ bound S1 S2) at 1. apply grid_sum_le; auto.
Qed.
Theorem affine_surface : forall c p q x y a b d t, fits c p q -> 0 <= x < 1 -> 0 <= y < 1 ->
  exists point normal normal', evaluate c p q x y = Some (as_point point, normal)
  /\ evaluate {| n_u := n_u c; n_v := n_v c; control := fun i j => affine a b d t (control c i j) |} p q x y = Some (as_point (affine a b d t point), normal').
Proof.
  intros c p q x y a b d t F X Y. do 3 eexists. split; [apply evaluate_textbook; auto|]. rewrite evaluate_textbook by auto. cbn [n_u n_v control].
  destruct F as (FU & FV). destruct (weights _ _ _ FU X) as (_ & S1 & _). destruct (weights _ _ _ FV Y) as (_ & S2 & _).
  apply f_equal. apply (f_equal2 pair); [|reflexivity]. apply f_equal.
  set (N := fun a => _) in S1. set (M := fun b => _) in S2. fold N M. clearbody N M.
  assert (K : forall h k, grid_sum (n_u c) (n_v c) N M (fun i j => dot h (control c i j) + k) = dot h (tensor (n_u c) (n_v c) N M (control c)) + k).
  { intros h k. rewrite tensor_linear.
    transitivity (grid_sum (n_u c) (n_v c) N M (fun i j => dot h (control c i j)) + grid_sum (n_u c) (n_v c) N M (fun _ _ => k)).
    2: { rewrite (grid_sum_const (n_u c) (n_v c) N M k S1 S2). auto. }
    unfold grid_sum.
    rewrite <- Rsum_map_plus. apply Rsum_map_ext. intros i _. rewrite <- Rsum_map_plus. apply Rsum_map_ext. intros; ring. }
  apply point_eq; unfold affine; cbn [pe pn pu vadd vec]; [rewrite <- K|rewrite <- K|rewrite <- K]; reflexivity.
Qed.
Theorem flat : forall c p q x y point normal h, fits c p q -> 0 <= x < 1 -> 0 <= y < 1 ->
  evaluate c p q x y = Some (point, normal) ->
  (forall i j, (i < n_u c)%nat -> (j < n_v c)%nat -> pu (control c i j) = h) -> hu point = h.
Proof.
  intros c p q x y pt nm h F X Y E H.
  assert (A : dot (vec 0 0 1) (enu pt) <= h). { apply (hull c p q x y pt nm _ h F X Y E). intros i j I J. rewrite <- (H i j I J). unfold dot. cbn [pe pn pu vec]. lra. }
  assert (B0 : dot (vec 0 0 (-1)) (enu pt) <= - h). { apply (hull c p q x y pt nm _ (- h) F X Y E). intros i j I J. rewrite <- (H i j I J). unfold dot. cbn [pe pn pu vec]. lra. }
  unfold dot, enu in *. cbn [pe pn pu vec] in *. lra.
Qed.
Lemma pol_start : forall U i p q k x, (q <= p <= i)%nat -> x = U i -> U i < U (S i) -> (forall a, (i - p <= a <= i)%nat -> U a = x) ->
  pol U i q k x = if (k =? i - q)%nat then 1 else 0.
Proof.
  intros U i p q k x Q X LT E. revert k. induction q as [|q IH]; intros k; cbn [pol]; [rewrite Nat.sub_0_r; auto|].
  rewrite !IH by lia.
  assert (T1 : (x - U k) * inverse_gap (U k) (U (k + S q)%nat) * (if (k =? i - q)%nat then 1 else 0) = 0).
  { destruct (Nat.eqb_spec k (i - q)) as [->|N]; [|lra]. rewrite (E (i - q)%nat) by lia. lra. }
  rewrite T1, Rplus_0_l. destruct (Nat.eqb_spec (S k) (i - q)) as [S1|S1], (Nat.eqb_spec k (i - S q)) as [S2|S2]; try lia; [|lra].
  rewrite S1. replace (i - q + S q)%nat with (S i) by lia. rewrite (E (i - q)%nat) by lia. rewrite gap_mul by lra. lra.
Qed.
Theorem corner : forall c p q, fits c p q -> exists normal, evaluate c p q 0 0 = Some (as_point (control c 0%nat 0%nat), normal).
Proof.
  intros c p q (FU & FV).
  assert (K : forall n k, (1 <= k < n)%nat -> knot_of (knot_vector n k) k <= 0 < knot_of (knot_vector n k) (S k)
    /\ forall a, pol (knot_of (knot_vector n k)) k k a 0 = if (a =? 0)%nat then 1 else 0).
  { intros n k P. assert (Z : knot_of (knot_vector n k) k = 0) by (apply knot_low; lia).
    assert (O : 0 < knot_of (knot_vector n k) (S k)).
    { rewrite knot_mid by lia. apply Rdiv_lt_0_compat; apply lt_0_INR; lia. }
    split; [lra|]. intros a. rewrite (pol_start _ k k) by (auto; try lia; try lra; intros; apply knot_low; lia). rewrite Nat.sub_diag. auto. }
  destruct (K _ _ FU) as (K1 & E1). destruct (K _ _ FV) as (K2 & E2).
  eexists. rewrite (evaluate_patch c p q p q 0 0 (conj FU FV) ltac:(lia) ltac:(lia) K1 K2).
  apply f_equal. apply (f_equal2 pair); [|reflexivity]. apply f_equal. unfold patch_point.
  rewrite (tensor_ext _ _ _ (fun a => if (a =? 0)%nat then 1 else 0) _ (fun a => if (a =? 0)%nat then 1 else 0)) by auto.
  unfold tensor.
  assert (G : forall h, Rsum (map (fun a => Rsum (map (fun b => (if (a =? 0)%nat then 1 else 0) * (if (b =? 0)%nat then 1 else 0) * h (control c a b)) (seq 0 (n_v c)))) (seq 0 (n_u c)))
    = h (control c 0%nat 0%nat)).
  { intros h. destruct (n_u c) as [|n]; [lia|]. destruct (n_v c) as [|m]; [lia|]. cbn [seq map Rsum fold_right].
    rewrite (Rsum_map_zero _ (seq 1 n)).
    2: { intros a A. apply in_seq in A. destruct (Nat.eqb_spec a 0); [lia|]. cbn [seq map Rsum fold_right].
         rewrite (Rsum_map_zero _ (seq 1 m)) by (intros; lra). lra. }
    cbn [Nat.eqb]. rewrite (Rsum_map_zero _ (seq 1 m)); [unfold Rsum; lra|]. intros b B0. apply in_seq in B0. destruct (Nat.eqb_spec b 0); [lia|]. lra. }
  rewrite !G. apply point_eq; reflexivity.
Qed.

(** ** Slopes *)
Lemma norm_le_sum : forall v, norm v <= Rabs (pe v) + Rabs (pn v) + Rabs (pu v).
Proof.
  intros [a b c]. unfold norm. cbn [pe pn pu]. pose proof (Rabs_pos a). pose proof (Rabs_pos b). pose proof (Rabs_pos c).
  rewrite <- (sqrt_square (Rabs a + Rabs b + Rabs c)) by lra. apply sqrt_le_1_alt. unfold dot. cbn [pe pn pu].
  assert (S : forall t, t * t = Rabs t * Rabs t) by (intros t; rewrite <- Rabs_mult; symmetry; apply Rabs_right, Rle_ge, Rle_0_sqr).
  rewrite (S a), (S b), (S c). assert (0 <= Rabs a * Rabs b) by (apply Rmult_le_pos; auto). assert (0 <= Rabs a * Rabs c) by (apply Rmult_le_pos; auto).
  assert (0 <= Rabs b * Rabs c) by (apply Rmult_le_pos; auto). lra.
Qed.
Lemma slope_of : forall (f : R -> option point) (fe fn fu : R -> R) (te tn tu lo hi x : R) (adm : R -> Prop),
  derivable_pt_lim fe x te -> derivable_pt_lim fn x tn -> derivable_pt_lim fu x tu ->
  lo <= x < hi -> (forall z, lo <= z < hi -> f z = Some (vec (fe z) (fn z) (fu z))) ->
  (lo < x \/ forall z, adm z -> x <= z) -> slope f adm x (vec te tn tu).
Proof.
  intros f fe fn fu te tn tu lo hi x adm DE DN DU X F A eps E.
  destruct (DE (eps / 3)) as (de & HE); [lra|]. destruct (DN (eps / 3)) as (dn & HN); [lra|]. destruct (DU (eps / 3)) as (du & HU); [lra|].
  set (room := if Rlt_dec lo x then x - lo else 1).
  assert (RP : 0 < room) by (unfold room; destruct (Rlt_dec lo x); lra).
  exists (Rmin (Rmin de (Rmin dn du)) (Rmin (hi - x) room)). split.
  { repeat apply Rmin_pos; try apply cond_pos; lra. }
  intros h H0 HH ADM.
  assert (B1 : Rabs h < de) by (eapply Rlt_le_trans; [exact HH|]; eapply Rle_trans; [apply Rmin_l|apply Rmin_l]).
  assert (B2 : Rabs h < dn) by (eapply Rlt_le_trans; [exact HH|]; eapply Rle_trans; [apply Rmin_l|]; eapply Rle_trans; [apply Rmin_r|apply Rmin_l]).
  assert (B3 : Rabs h < du) by (eapply Rlt_le_trans; [exact HH|]; eapply Rle_trans; [apply Rmin_l|]; eapply Rle_trans; [apply Rmin_r|apply Rmin_r]).
  assert (B4 : Rabs h < hi - x) by (eapply Rlt_le_trans; [exact HH|]; eapply Rle_trans; [apply Rmin_r|apply Rmin_l]).
  assert (B5 : Rabs h < room) by (eapply Rlt_le_trans; [exact HH|]; eapply Rle_trans; [apply Rmin_r|apply Rmin_r]).
  assert (IN : lo <= x + h < hi).
  { pose proof (Rle_abs h). pose proof (Rle_abs (- h)). rewrite Rabs_Ropp in H1. split; [|lra].
    destruct A as [A|A]; [unfold room in B5; destruct (Rlt_dec lo x); lra|]. specialize (A _ ADM). lra. }
  exists (vec (fe x) (fn x) (fu x)), (vec (fe (x + h)) (fn (x + h)) (fu (x + h))).
  split; [apply F; auto|]. split; [apply F; auto|].
  eapply Rle_trans; [apply norm_le_sum|]. cbn [pe pn pu vsub smul vec].
  specialize (HE h H0 B1). specialize (HN h H0 B2). specialize (HU h H0 B3). unfold Rdiv in HE, HN, HU.
  rewrite (Rmult_comm (/ h)), (Rmult_comm (/ h) (fn _ - _)), (Rmult_comm (/ h) (fu _ - _)). lra.
Qed.
Lemma enu_as_point : forall v, enu (as_point v) = v.
Proof. intros. apply point_eq; reflexivity. Qed.
Lemma enu_as_direction : forall v, enu (as_direction v) = v.
Proof. intros. apply point_eq; reflexivity. Qed.
Lemma grid_derivative_u : forall n m (f f' : nat -> R -> R) g h x, (forall a, (a < n)%nat -> derivable_pt_lim (f a) x (f' a x)) ->
  derivable_pt_lim (fun z => grid_sum n m (fun a => f a z) g h) x (grid_sum n m (fun a => f' a x) g h).
Proof.
  intros n m f f' g h x D. unfold grid_sum. 
  apply (derivable_Rsum nat (fun a z => Rsum (map (fun b => f a z * g b * h a b) (seq 0 m))) (fun a z => Rsum (map (fun b => f' a z * g b * h a b) (seq 0 m)))).
  intros a A. apply in_seq in A. apply (derivable_Rsum nat (fun b z => f a z * g b * h a b) (fun b z => f' a z * g b * h a b)). intros b _.
  apply (derivable_pt_lim_ext (fun z => (g b * h a b) * f a z)); [intros; ring|].
  replace (f' a x * g b * h a b) with ((g b * h a b) * f' a x) by ring. apply (derivable_pt_lim_scal (f a) (g b * h a b)). apply D. lia.
Qed.
Lemma grid_sum_swap : forall n m f g h, grid_sum n m f g h = grid_sum m n g f (fun b a => h a b).
Proof.
  intros. unfold grid_sum. rewrite Rsum_scaled_swap. apply Rsum_map_ext. intros b _. apply Rsum_map_ext. intros a _. ring.
Qed.
Lemma grid_derivative_v : forall n m f (g g' : nat -> R -> R) h y, (forall b, (b < m)%nat -> derivable_pt_lim (g b) y (g' b y)) ->
  derivable_pt_lim (fun z => grid_sum n m f (fun b => g b z) h) y (grid_sum n m f (fun b => g' b y) h).
Proof.
  intros n m f g g' h y D. rewrite grid_sum_swap.
  apply (derivable_pt_lim_ext (fun z => grid_sum m n (fun b => g b z) f (fun b a => h a b))); [intros; symmetry; apply grid_sum_swap|].
  apply grid_derivative_u. auto.
Qed.

(** The normal is perpendicular to the slopes of the surface in both directions. *)
Theorem normals : forall c p q x y, fits c p q -> 0 <= x < 1 -> 0 <= y < 1 ->
  exists point normal along_u along_v, evaluate c p q x y = Some (as_point point, as_direction normal)
  /\ slope (fun z => point_at (evaluate c p q z y)) (fun z => x <= z) x along_u
  /\ slope (fun z => point_at (evaluate c p q x z)) (fun z => y <= z) y along_v
  /\ (knot_free (n_u c) p x -> slope (fun z => point_at (evaluate c p q z y)) (fun _ => True) x along_u)
  /\ (knot_free (n_v c) q y -> slope (fun z => point_at (evaluate c p q x z)) (fun _ => True) y along_v)
  /\ dot normal along_u = 0 /\ dot normal along_v = 0
  /\ (/ 10 ^ 12 <= norm (cross along_u along_v) -> norm normal = 1 /\ 0 < dot normal (cross along_u along_v)).
Proof.
  intros c p q x y (FU & FV) X Y.
  destruct (spans_of _ _ _ FU X) as (i & I & XI & _). destruct (spans_of _ _ _ FV Y) as (j & J & YJ & _).
  set (U := knot_of (knot_vector (n_u c) p)) in *. set (V := knot_of (knot_vector (n_v c) q)) in *.
  set (su := patch_point c (fun a => pol' U i p a x) (fun b => pol V j q b y)).
  set (sv := patch_point c (fun a => pol U i p a x) (fun b => pol' V j q b y)).
  exists (patch_point c (fun a => pol U i p a x) (fun b => pol V j q b y)), (normalize (cross su sv)), su, sv.
  split; [apply (evaluate_patch c p q i j x y (conj FU FV) I J XI YJ)|].
  assert (SU : forall adm : R -> Prop, (U i < x \/ forall z, adm z -> x <= z) -> slope (fun z => point_at (evaluate c p q z y)) adm x su).
  { intros adm A.
    apply (slope_of _ (fun z => grid_sum (n_u c) (n_v c) (fun a => pol U i p a z) (fun b => pol V j q b y) (fun a b => pe (control c a b)))
                      (fun z => grid_sum (n_u c) (n_v c) (fun a => pol U i p a z) (fun b => pol V j q b y) (fun a b => pn (control c a b)))
                      (fun z => grid_sum (n_u c) (n_v c) (fun a => pol U i p a z) (fun b => pol V j q b y) (fun a b => pu (control c a b)))
                      _ _ _ (U i) (U (S i))); auto.
    1-3: apply (grid_derivative_u (n_u c) (n_v c) (fun a z => pol U i p a z) (fun a z => pol' U i p a z)); intros a L0;
         apply (pol_derivative U i (n_u c + p) p a x (mono_knots _ _ FU)); lia.
    intros z Z. rewrite (evaluate_patch c p q i j z y (conj FU FV) I J Z YJ). reflexivity. }
  assert (SV : forall adm : R -> Prop, (V j < y \/ forall z, adm z -> y <= z) -> slope (fun z => point_at (evaluate c p q x z)) adm y sv).
  { intros adm A.
    apply (slope_of _ (fun z => grid_sum (n_u c) (n_v c) (fun a => pol U i p a x) (fun b => pol V j q b z) (fun a b => pe (control c a b)))
                      (fun z => grid_sum (n_u c) (n_v c) (fun a => pol U i p a x) (fun b => pol V j q b z) (fun a b => pn (control c a b)))
                      (fun z => grid_sum (n_u c) (n_v c) (fun a => pol U i p a x) (fun b => pol V j q b z) (fun a b => pu (control c a b)))
                      _ _ _ (V j) (V (S j))); auto.
    1-3: apply (grid_derivative_v (n_u c) (n_v c) _ (fun b z => pol V j q b z) (fun b z => pol' V j q b z)); intros b L0;
         apply (pol_derivative V j (n_v c + q) q b y (mono_knots _ _ FV)); lia.
    intros z Z. rewrite (evaluate_patch c p q i j x z (conj FU FV) I J XI Z). reflexivity. }
  split; [apply SU; auto|]. split; [apply SV; auto|].
  split. { intros K. apply SU. left. assert (U i <> x) by (apply K; lia). lra. }
  split. { intros K. apply SV. left. assert (V j <> y) by (apply K; lia). lra. }
  clear SU SV. generalize su sv. clear. intros a b.
  assert (ND : forall v, dot (normalize (cross a b)) v = / Rmax (norm (cross a b)) (/ 10 ^ 12) * dot (cross a b) v).
  { intros v. unfold normalize, normalize_eps. unfold dot. cbn [smul vec pe pn pu]. ring. }
  split; [rewrite ND, dot_comm, cross_orth_l; lra|]. split; [rewrite ND, dot_comm, cross_orth_r; lra|].
  intros L0. split; [apply normalize_eps_unit; auto; lra|]. rewrite ND. 
  assert (N0 : 0 < norm (cross a b)) by lra. rewrite <- norm_sq. rewrite Rmax_left by lra.
  rewrite <- Rmult_assoc, Rinv_l by lra. lra.
Qed.

(** ** Placement and the whole surface *)
Lemma place_hw : forall c_e c_n t pt nm, let '(p, n) := place (Some (c_e, c_n, t)) (as_point pt, as_direction nm) in
  hw p = 1 + hw t /\ hw n = 0.
Proof. intros. cbn [place fst snd]. unfold perform_canting. split; unfold canting_matrix; cbn [hadd hw hv]; hunfold; unfold as_point, as_direction, hv; cbn [he hn hu hw]; ring. Qed.
Theorem placed : forall c p q c_e c_n t x y, fits c p q -> 0 <= x < 1 -> 0 <= y < 1 ->
  / 10 ^ 12 <= norm c_e -> / 10 ^ 8 * norm c_e <= norm (cross c_e c_n) -> hw t = 0 ->
  exists point normal, evaluate c p q x y = Some (as_point point, as_direction normal)
  /\ calculate c p q (Some (c_e, c_n, t)) x y
     = Some (as_point (vadd (enu (perform_canting false c_e c_n (as_point point))) (enu t)),
             as_direction (enu (perform_canting false c_e c_n (as_direction normal)))).
Proof.
  intros c p q c_e c_n t x y F X Y N1 N2 T. do 2 eexists. split; [apply evaluate_textbook; auto|].
  unfold calculate. rewrite evaluate_textbook by auto. cbn [obind place fst snd].
  destruct (canting_all c_e c_n N1 N2) as ((P1 & D1 & _) & _).
  apply f_equal. apply (f_equal2 pair).
  - apply hvec_eq; unfold as_point at 2; cbn [hadd he hn hu hw hv pe pn pu vadd vec enu]; auto. rewrite P1, T. lra.
  - apply hvec_eq; unfold as_direction at 2; cbn [he hn hu hw hv pe pn pu vec enu]; auto.
Qed.
Definition placement_action (c_e c_n : point) (t x : hvec) : hvec :=
  hadd (perform_canting false c_e c_n x) (hscale (hw x) t).
Theorem placement_rigid : forall c_e c_n t, / 10 ^ 12 <= norm c_e -> / 10 ^ 8 * norm c_e <= norm (cross c_e c_n) -> hw t = 0 ->
  rigid_action (placement_action c_e c_n t)
  /\ forall pt nm, place (Some (c_e, c_n, t)) (as_point pt, as_direction nm)
     = (placement_action c_e c_n t (as_point pt), placement_action c_e c_n t (as_direction nm)).
Proof.
  intros c_e c_n t N1 N2 T. destruct (canting_all c_e c_n N1 N2) as ((P1 & D1 & DI & DF & DO & CR) & _).
  assert (AP : forall v, enu (placement_action c_e c_n t (as_point v)) = vadd (enu (perform_canting false c_e c_n (as_point v))) (enu t)).
  { intros v. apply point_eq; unfold placement_action, as_point at 2; cbn [hadd hscale enu vadd vec pe pn pu he hn hu hw hv]; ring. }
  assert (AD : forall v, enu (placement_action c_e c_n t (as_direction v)) = enu (perform_canting false c_e c_n (as_direction v))).
  { intros v. apply point_eq; unfold placement_action, as_direction at 2; cbn [hadd hscale enu vadd vec pe pn pu he hn hu hw hv]; ring. }
  split.
  - repeat split.
    + intros v. unfold placement_action. cbn [hadd hscale hw hv]. rewrite P1, T. unfold as_point. cbn [hw hv]. ring.
    + intros v. unfold placement_action. cbn [hadd hscale hw hv]. rewrite D1, T. unfold as_direction. cbn [hw hv]. ring.
    + intros v w. rewrite !AP, <- (DI v w). f_equal. vring.
    + intros v w. rewrite AD, !AP, DF. vring.
    + intros v w. rewrite !AD. apply DO.
    + intros v w. rewrite !AD. apply CR.
  - intros pt nm. cbn [place fst snd]. unfold placement_action. apply (f_equal2 pair).
    + apply hvec_eq; unfold as_point at 3; cbn [hadd hscale he hn hu hw hv]; ring.
    + apply hvec_eq; unfold as_direction at 3; cbn [hadd hscale he hn hu hw hv]; ring.
Qed.

Lemma linspace_bounds : forall a b n i, a <= b -> (i < n)%nat -> a <= linspace a b n i <= b.
Proof.
  intros a b n i AB I. unfold linspace. destruct (Nat.leb_spec n 1); [lra|].
  assert (Q : 0 < INR (n - 1)) by (apply lt_0_INR; lia).
  assert (P : 0 <= INR i / INR (n - 1) <= 1).
  { split; [apply Rmult_le_pos; [apply pos_INR|left; apply Rinv_0_lt_compat; auto]|].
    replace 1 with (INR (n - 1) / INR (n - 1)) by (field; lra). apply ratio_le; lia. }
  unfold Rdiv. rewrite Rmult_assoc. fold (INR i / INR (n - 1)). nra.
Qed.
Lemma grid_in : forall eps n m x y, In (x, y) (evaluation_grid eps n m) -> 0 < eps < / 2 -> eps <= x <= 1 - eps /\ eps <= y <= 1 - eps.
Proof.
  intros eps n m x y H E. unfold evaluation_grid in H. apply in_flat_map in H. destruct H as (i & I & H).
  apply in_map_iff in H. destruct H as (j & EQ & J). injection EQ as <- <-. apply in_seq in I. apply in_seq in J.
  split; apply linspace_bounds; try lra; lia.
Qed.
Lemma grid_length : forall eps n m, length (evaluation_grid eps n m) = (n * m)%nat.
Proof.
  intros. unfold evaluation_grid. rewrite flat_map_concat_map.
  assert (G : forall l, length (concat (map (fun i : nat => map (fun j : nat => (linspace eps (1 - eps) n i, linspace eps (1 - eps) m j)) (seq 0 m)) l)) = (length l * m)%nat).
  { induction l as [|a l IH]; auto. cbn [map concat length]. rewrite app_length, map_length, seq_length, IH. lia. }
  rewrite G, seq_length. auto.
Qed.
(** Every facet yields all its points, none of them NaN. *)
Theorem surface_defined : forall p q facets n_e n_n, Forall (fun f => fits (fst f) p q) facets ->
  exists rows, surface_points_and_normals p q facets n_e n_n = Some rows /\ length rows = length facets
  /\ Forall (fun row => length row = (n_e * n_n)%nat) rows
  /\ forall i c c_e c_n t, nth_error facets i = Some (c, (c_e, c_n, t)) ->
     / 10 ^ 12 <= norm c_e -> / 10 ^ 8 * norm c_e <= norm (cross c_e c_n) -> hw t = 0 ->
     exists row, nth_error rows i = Some row /\ forall s, In s row -> hw (fst s) = 1 /\ hw (snd s) = 0.
Proof.
  intros p q facets n_e n_n FA. unfold surface_points_and_normals. set (cant := heights_zero (map fst facets)). clearbody cant.
  set (grid := evaluation_grid (/ 10 ^ 7) n_e n_n).
  assert (ONE : forall c placement, fits c p q -> exists row,
    collect (map (fun '(x, y) => calculate c p q (if cant then Some placement else None) x y) grid) = Some row /\ length row = (n_e * n_n)%nat
    /\ forall s, In s row -> exists pt nm, s = place (if cant then Some placement else None) (as_point pt, as_direction nm)).
  { intros c placement F.
    assert (ALL : forall x y, In (x, y) grid -> exists pt nm, calculate c p q (if cant then Some placement else None) x y
      = Some (place (if cant then Some placement else None) (as_point pt, as_direction nm))).
    { intros x y IN. apply grid_in in IN; [|lra]. unfold calculate. rewrite evaluate_textbook by (auto; lra). cbn [obind]. do 2 eexists. reflexivity. }
    rewrite <- (grid_length (/ 10 ^ 7) n_e n_n). fold grid. clear - ALL. induction grid as [|[x y] grid IH].
    - exists []. cbn. repeat split; auto. intros ? [].
    - destruct (ALL x y) as (pt & nm & E); [cbn; auto|]. destruct IH as (row & R1 & R2 & R3); [intros; apply ALL; cbn; auto|].
      exists (place (if cant then Some placement else None) (as_point pt, as_direction nm) :: row). cbn [map collect length].
      rewrite E, R1. cbn [obind]. repeat split; auto. intros s [<-|IN]; eauto. }
  induction FA as [|[c placement] facets F FA IH].
  - exists []. cbn. repeat split; auto. intros [|] ? ? ? ? H; discriminate.
  - destruct IH as (rows & R1 & R2 & R3 & R4). destruct (ONE c placement F) as (row & O1 & O2 & O3). exists (row :: rows).
    cbn [map collect]. rewrite O1. cbn [obind]. rewrite R1. cbn [obind]. split; auto. split; [cbn; auto|]. split; [constructor; auto|].
    intros [|i] c' c_e c_n t NT N1 N2 T.
    + injection NT as <- ->. exists row. split; auto. intros s IN. destruct (O3 s IN) as (pt & nm & ->). destruct cant.
      * pose proof (place_hw c_e c_n t pt nm) as H. destruct (place _ _) as [a b]. rewrite T in H. cbn [fst snd]. lra.
      * cbn [place fst snd]. unfold as_point, as_direction. cbn [hw hv]. auto.
    + apply (R4 i c' c_e c_n t); auto.
Qed.
(** At the end of the parameter range the surface cannot be evaluated. *)
Theorem end_undefined : forall c p q y, fits c p q -> evaluate c p q 1 y = None.
Proof.
  intros c p q y (FU & FV). unfold evaluate. rewrite uniform_at_one by auto.
  set (n := n_u c) in *.
  assert (B0 : basis_functions (knot_vector n p) p (Z.of_nat n) 1 = None); [|rewrite B0; reflexivity].
  unfold basis_functions. destruct (forallb _ _); auto. destruct p as [|k]; [lia|]. cbn [seq outer].
  assert (E1 : 1 - at_index (knot_vector n (S k)) (Z.of_nat n - Z.of_nat 1 + 1) = 0).
  { rewrite (at_knot _ _ n) by lia. rewrite knot_high by lia. lra. }
  assert (E2 : at_index (knot_vector n (S k)) (Z.of_nat n + Z.of_nat 1) - 1 = 0).
  { rewrite (at_knot _ _ (n + 1)) by lia. rewrite knot_high by lia. lra. }
  cbn [inner]. rewrite set_same. cbn [Nat.sub]. rewrite E1, E2. unfold div_opt. destruct (Req_EM_T (0 + 0) 0); [reflexivity|lra].
Qed.
(** The facets are placed exactly when all control points of all facets have height zero. *)
Lemma heights_zero_iff : forall facets, heights_zero facets = true
  <-> forall c i j, In c facets -> (i < n_u c)%nat -> (j < n_v c)%nat -> pu (control c i j) = 0.
Proof.
  intros. unfold heights_zero. rewrite forallb_forall. split.
  - intros H c i j C I J. specialize (H c C). rewrite forallb_forall in H. specialize (H i). rewrite forallb_forall in H.
    specialize (H ltac:(apply in_seq; lia) j ltac:(apply in_seq; lia)). destruct (Req_EM_T _ 0); [auto|discriminate].
  - intros H c C. rewrite forallb_forall. intros i I. rewrite forallb_forall. intros j J. apply in_seq in I. apply in_seq in J.
    destruct (Req_EM_T _ 0) as [|N]; auto. elim N. apply H; auto; lia.
Qed.
Lemma collect_ext : forall A B (f g : A -> option B) l, (forall a, In a l -> f a = g a) -> collect (map f l) = collect (map g l).
Proof. intros A B f g l H. f_equal. apply map_ext_in. auto. Qed.
Theorem placed_when_flat : forall p q facets n_e n_n,
  ((forall c i j, In c (map fst facets) -> (i < n_u c)%nat -> (j < n_v c)%nat -> pu (control c i j) = 0) ->
   surface_points_and_normals p q facets n_e n_n
   = collect (map (fun f => collect (map (fun xy => calculate (fst f) p q (Some (snd f)) (fst xy) (snd xy)) (evaluation_grid (/ 10 ^ 7) n_e n_n))) facets))
  /\ ((exists c i j, In c (map fst facets) /\ (i < n_u c)%nat /\ (j < n_v c)%nat /\ pu (control c i j) <> 0) ->
   surface_points_and_normals p q facets n_e n_n
   = collect (map (fun f => collect (map (fun xy => evaluate (fst f) p q (fst xy) (snd xy)) (evaluation_grid (/ 10 ^ 7) n_e n_n))) facets)).
Proof.
  intros. unfold surface_points_and_normals. split.
  - intros H. rewrite (proj2 (heights_zero_iff _) H). apply collect_ext. intros [c pl] _. apply collect_ext. intros [x y] _. auto.
  - intros (c & i & j & C & I & J & N). destruct (heights_zero (map fst facets)) eqn:E.
    + elim N. apply (proj1 (heights_zero_iff _) E c i j); auto.
    + apply collect_ext. intros [c' pl] _. apply collect_ext. intros [x y] _. unfold calculate. cbn [fst snd].
      destruct (evaluate c' p q x y) as [[]|]; auto.
Qed.
