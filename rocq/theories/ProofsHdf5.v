(** Proofs about flattening and writing (C59). *)
From Coq Require Import List Arith NArith Bool String Ascii Sorted FinFun Lia.
From Verif Require Import ModelField ModelHdf5 SpecHdf5.
Import ListNotations.
Local Open Scope string_scope.

(** ** Order of names *)
Lemma compare_refl : forall s, String.compare s s = Eq.
Proof. intros s. pose proof (String.compare_antisym s s) as A. destruct (String.compare s s); cbn in A; congruence. Qed.
Lemma compare_eq : forall a b, String.compare a b = Eq <-> a = b.
Proof. split; [apply String.compare_eq_iff|intros ->; apply compare_refl]. Qed.
Lemma ascii_lt : forall a b, Ascii.compare a b = Lt <-> (N_of_ascii a < N_of_ascii b)%N.
Proof. intros. unfold Ascii.compare. apply N.compare_lt_iff. Qed.
Lemma before_trans : forall a b c, before a b -> before b c -> before a c.
Proof.
  unfold before. induction a as [|x a IH]; intros [|y b] [|z c]; cbn; try congruence; auto.
  destruct (Ascii.compare x y) eqn:XY; try congruence.
  - apply Ascii.compare_eq_iff in XY. subst y. destruct (Ascii.compare x z) eqn:XZ; try congruence. apply IH.
  - intros _. destruct (Ascii.compare y z) eqn:YZ; try congruence.
    + apply Ascii.compare_eq_iff in YZ. subst z. rewrite XY. auto.
    + intros _. assert (Ascii.compare x z = Lt) as ->; auto. apply ascii_lt. rewrite ascii_lt in XY, YZ. eapply N.lt_trans; eauto.
Qed.
Lemma before_irrefl : forall a, ~ before a a.
Proof. intros a. unfold before. rewrite compare_refl. discriminate. Qed.
Lemma before_total : forall a b, before a b \/ a = b \/ before b a.
Proof.
  intros a b. unfold before. destruct (String.compare a b) eqn:C; auto.
  - right. left. apply compare_eq; auto.
  - right. right. rewrite String.compare_antisym, C. auto.
Qed.

(** ** Links *)
Lemma find_link_find : forall {A} k (l : list (string * A)), find (fun '(k', _) => String.eqb k k') l = option_map (fun h => (k, h)) (find_link k l).
Proof.
  induction l as [|[k' h] l IH]; cbn; auto. destruct (String.eqb k k') eqn:E; auto. apply String.eqb_eq in E. subst. auto.
Qed.
Lemma find_set : forall {A} k (h : A) k' l, find_link k' (set_link k h l) = if String.eqb k' k then Some h else find_link k' l.
Proof.
  induction l as [|[a ha] l IH]; cbn; [destruct (String.eqb k' k); auto|].
  destruct (String.compare k a) eqn:C; cbn.
  - apply compare_eq in C. subst a. destruct (String.eqb k' k) eqn:E; auto.
  - destruct (String.eqb k' k) eqn:E; auto.
  - rewrite IH. destruct (String.eqb k' a) eqn:E1; auto. destruct (String.eqb k' k) eqn:E2; auto.
    apply String.eqb_eq in E1, E2. subst. rewrite compare_refl in C. discriminate.
Qed.
Lemma find_in : forall {A} k (h : A) l, find_link k l = Some h -> In (k, h) l.
Proof.
  induction l as [|[a ha] l IH]; cbn; [discriminate|]. destruct (String.eqb k a) eqn:E; auto.
  intros Q. injection Q as ->. apply String.eqb_eq in E. subst. auto.
Qed.
Lemma find_not_in : forall {A} k (l : list (string * A)), find_link k l = None <-> ~ In k (map fst l).
Proof.
  induction l as [|[a ha] l IH]; cbn; [intuition|]. destruct (String.eqb k a) eqn:E.
  - apply String.eqb_eq in E. subst. split; [discriminate|intuition].
  - apply String.eqb_neq in E. rewrite IH. intuition.
Qed.
Lemma in_find : forall {A} k (h : A) l, NoDup (map fst l) -> In (k, h) l -> find_link k l = Some h.
Proof.
  induction l as [|[a ha] l IH]; cbn; [intuition|]. intros N [E|I].
  - injection E as -> ->. rewrite String.eqb_refl. auto.
  - inversion N as [|? ? N1 N2]; subst. destruct (String.eqb k a) eqn:E; [|apply IH; auto].
    apply String.eqb_eq in E. subst. exfalso. apply N1. apply in_map_iff. exists (a, h). auto.
Qed.
Lemma in_set : forall {A} k (h : A) l x, In x (set_link k h l) -> x = (k, h) \/ In x l.
Proof.
  induction l as [|[a ha] l IH]; cbn; intros x I; [intuition|]. destruct (String.compare k a); cbn in I; intuition. apply IH in H. intuition.
Qed.
Lemma set_in_names : forall {A} k (h : A) l x, In x (map fst (set_link k h l)) -> x = k \/ In x (map fst l).
Proof. intros A k h l x I. apply in_map_iff in I. destruct I as ((y & z) & <- & I). apply in_set in I. destruct I as [E|I]; [injection E as -> ->; auto|right; apply in_map_iff; exists (y, z); auto]. Qed.
Lemma set_sorted : forall {A} k (h : A) l, StronglySorted before (map fst l) -> StronglySorted before (map fst (set_link k h l)).
Proof.
  induction l as [|[a ha] l IH]; cbn; intros S; [repeat constructor|]. inversion S as [|? ? S1 S2]; subst.
  destruct (String.compare k a) eqn:C; cbn.
  - apply compare_eq in C. subst. auto.
  - constructor; auto. constructor; auto. rewrite Forall_forall in *. intros x I. eapply before_trans; [exact C|apply S2; auto].
  - constructor; [apply IH; auto|]. rewrite Forall_forall in *. intros x I. apply set_in_names in I. destruct I as [->|I]; auto.
    unfold before. rewrite String.compare_antisym, C. auto.
Qed.
Lemma sorted_nodup : forall l, StronglySorted before l -> NoDup l.
Proof.
  induction 1 as [|a l S IH F]; constructor; auto. intros I. rewrite Forall_forall in F. apply F in I. apply before_irrefl in I. auto.
Qed.

(** ** Reading *)
Lemma stored_cons : forall links k rest, stored_at (Group links) (k :: rest) = match find_link k links with Some h => stored_at h rest | None => None end.
Proof. intros. cbn. rewrite find_link_find. destruct find_link; auto. Qed.
Lemma parameter_cons : forall d k rest, parameter_at (Node d) (k :: rest) = match find_link k d with Some t => parameter_at t rest | None => None end.
Proof. intros. cbn. rewrite find_link_find. destruct find_link; auto. Qed.
Local Opaque stored_at parameter_at.
Lemma stored_nil : forall h, stored_at h [] = match h with Dataset v => Some v | Group _ => None end.
Proof. destruct h; auto. Qed.
Lemma stored_dataset : forall v k rest, stored_at (Dataset v) (k :: rest) = None.
Proof. auto. Qed.
Lemma parameter_nil : forall t, parameter_at t [] = match t with Leaf v => Some v | Node _ => None end.
Proof. destruct t; auto. Qed.
Lemma parameter_leaf : forall v k rest, parameter_at (Leaf v) (k :: rest) = None.
Proof. auto. Qed.

Definition path_eq_dec : forall p q : list string, {p = q} + {p <> q} := list_eq_dec string_dec.
Lemma put_reads : forall path links v links', put links path v = Ok links' ->
  forall q, stored_at (Group links') q = if path_eq_dec q path then Some v else stored_at (Group links) q.
Proof.
  induction path as [|k rest IH]; intros links v links' P q; [discriminate|]. cbn [put] in P.
  destruct q as [|a q]; [destruct path_eq_dec as [E|_]; [discriminate|rewrite !stored_nil; auto]|].
  destruct rest as [|k2 rest].
  - destruct (find_link k links) eqn:F; [discriminate|]. injection P as <-. rewrite !stored_cons, find_set.
    destruct (String.eqb a k) eqn:E.
    + apply String.eqb_eq in E. subst a. destruct q as [|b q].
      * destruct path_eq_dec as [_|N]; [apply stored_nil|congruence].
      * destruct path_eq_dec as [N|_]; [discriminate|]. rewrite F. apply stored_dataset.
    + apply String.eqb_neq in E. destruct path_eq_dec as [N|_]; [congruence|auto].
  - assert (Q : forall sub sub', put sub (k2 :: rest) v = Ok sub' -> links' = set_link k (Group sub') links ->
      (forall q, stored_at (Group sub) q = match find_link k links with Some h => stored_at h q | None => None end) ->
      stored_at (Group links') (a :: q) = if path_eq_dec (a :: q) (k :: k2 :: rest) then Some v else stored_at (Group links) (a :: q)).
    { intros sub sub' P' -> H. specialize (IH _ _ _ P' q). rewrite !stored_cons, find_set. destruct (String.eqb a k) eqn:E.
      - apply String.eqb_eq in E. subst a. rewrite IH, <- H. destruct (path_eq_dec q (k2 :: rest)) as [->|N]; destruct (path_eq_dec (k :: _) _); congruence.
      - apply String.eqb_neq in E. destruct (path_eq_dec (a :: q) (k :: k2 :: rest)) as [N|_]; [congruence|auto]. }
    destruct (find_link k links) as [[w|sub]|] eqn:F; [discriminate| |].
    + destruct (put sub (k2 :: rest) v) as [sub'|] eqn:P'; [|discriminate]. cbn [bind] in P. injection P as <-. eapply Q; eauto.
    + destruct (put [] (k2 :: rest) v) as [sub'|] eqn:P'; [|discriminate]. cbn [bind] in P. injection P as <-. eapply Q; eauto.
      intros [|b q']; [apply stored_nil|rewrite stored_cons; auto].
Qed.

(** ** Tidy files *)
Lemma tidy_group : forall links, tidy (Group links) <-> StronglySorted before (map fst links) /\ forall k h, In (k, h) links -> h <> Group [] /\ tidy h.
Proof.
  intros links. cbn. apply and_iff_compat_l. induction links as [|[k h] l IH]; [cbn; intuition|]. split.
  - intros (N & T & A) k' h' [E|I]; [injection E as <- <-; auto|]. apply IH with k'; auto.
  - intros A. split; [apply (A k h); left; auto|]. split; [apply (A k h); left; auto|]. apply IH. intros k' h' I. apply (A k' h'). right; auto.
Qed.
Local Opaque tidy.
Lemma set_not_nil : forall {A} k (h : A) l, set_link k h l <> [].
Proof. intros A k h [|[a b] l]; cbn; [discriminate|]. destruct String.compare; discriminate. Qed.
Lemma put_tidy : forall path links v links', put links path v = Ok links' -> tidy (Group links) -> tidy (Group links') /\ links' <> [].
Proof.
  induction path as [|k rest IH]; intros links v links' P T; [discriminate|]. cbn [put] in P.
  apply tidy_group in T. destruct T as (S & A).
  assert (Q : forall h, h <> Group [] -> tidy h -> tidy (Group (set_link k h links)) /\ set_link k h links <> []).
  { intros h N T. split; [|apply set_not_nil]. apply tidy_group. split; [apply set_sorted; auto|]. intros k' h' I. apply in_set in I.
    destruct I as [E|I]; [injection E as -> ->; auto|apply A with k'; auto]. }
  destruct rest as [|k2 rest].
  - destruct (find_link k links) eqn:F; [discriminate|]. injection P as <-. apply Q; [discriminate|]. exact I.
  - destruct (find_link k links) as [[w|sub]|] eqn:F; [discriminate| |].
    + destruct (put sub (k2 :: rest) v) as [sub'|] eqn:P'; [|discriminate]. cbn [bind] in P. injection P as <-.
      destruct (IH _ _ _ P') as (T' & N'); [apply (A k); apply find_in; auto|]. apply Q; auto. congruence.
    + destruct (put [] (k2 :: rest) v) as [sub'|] eqn:P'; [|discriminate]. cbn [bind] in P. injection P as <-.
      destruct (IH _ _ _ P') as (T' & N'); [apply tidy_group; split; [constructor|intros ? ? []]|]. apply Q; auto. congruence.
Qed.
(** A tidy group that is not the empty top has a dataset below it. *)
Fixpoint h5_size (h : h5) : nat :=
  match h with Dataset _ => 1 | Group links => S ((fix all (l : list (string * h5)) := match l with [] => 0 | (_, h') :: l' => h5_size h' + all l' end) links) end.
Lemma tidy_inhabited : forall h, tidy h -> h <> Group [] -> exists q v, stored_at h q = Some v.
Proof.
  assert (H : forall n h, h5_size h < n -> tidy h -> h <> Group [] -> exists q v, stored_at h q = Some v).
  { induction n as [|n IH]; intros h L T N; [lia|]. destruct h as [v|[|[k h] links]]; [exists [], v; auto|congruence|].
    apply tidy_group in T. destruct T as (_ & T). destruct (T k h) as (N' & T'); [left; auto|]. destruct (IH h) as (q & v & Q); auto.
    - cbn in L. fold h5_size in L. lia.
    - exists (k :: q), v. rewrite stored_cons. cbn [find_link]. rewrite String.eqb_refl. auto. }
  intros h. apply (H (S (h5_size h))). lia.
Qed.
Lemma keys_spec : forall links k, tidy (Group links) -> (In k (map fst links) <-> exists q v, stored_at (Group links) (k :: q) = Some v).
Proof.
  intros links k T. apply tidy_group in T. destruct T as (S & A). split.
  - intros I. apply in_map_iff in I. destruct I as ((k' & h) & <- & I). destruct (A _ _ I) as (N & T). destruct (tidy_inhabited h) as (q & v & Q); auto.
    exists q, v. rewrite stored_cons. cbn [fst]. rewrite (in_find k' h); auto. apply sorted_nodup; auto.
  - intros (q & v & Q). rewrite stored_cons in Q. destruct (find_link k links) eqn:F; [|discriminate]. apply find_in in F. apply in_map_iff. exists (k, h). auto.
Qed.
Lemma sorted_unique : forall l1 l2, StronglySorted before l1 -> StronglySorted before l2 -> (forall x, In x l1 <-> In x l2) -> l1 = l2.
Proof.
  induction l1 as [|a l1 IH]; intros [|b l2] S1 S2 E; auto.
  - exfalso. apply (E b). left; auto.
  - exfalso. apply (E a). left; auto.
  - inversion S1 as [|? ? S1' F1]; subst. inversion S2 as [|? ? S2' F2]; subst. rewrite Forall_forall in F1, F2.
    assert (a = b) as <-.
    { destruct (proj1 (E a)) as [Q|Q]; [left; auto|auto|]. destruct (proj2 (E b)) as [Q'|Q']; [left; auto|auto|].
      apply F2 in Q. apply F1 in Q'. exfalso. apply (before_irrefl a). eapply before_trans; eauto. }
    f_equal. apply IH; auto. intros x. split; intros I.
    + destruct (proj1 (E x)) as [Q|Q]; [right; auto| |auto]. subst. apply F1 in I. exfalso. apply (before_irrefl x); auto.
    + destruct (proj2 (E x)) as [Q|Q]; [right; auto| |auto]. subst. apply F2 in I. exfalso. apply (before_irrefl x); auto.
Qed.

(** ** When writing succeeds *)
Definition prefix_of (p q : list string) : Prop := exists r, q = (p ++ r)%list.
Lemma put_succeeds : forall path links v, path <> [] -> tidy (Group links) ->
  (forall q w, stored_at (Group links) q = Some w -> ~ prefix_of q path /\ ~ prefix_of path q) -> exists links', put links path v = Ok links'.
Proof.
  induction path as [|k rest IH]; intros links v N T H; [congruence|]. cbn [put]. pose proof T as T0. apply tidy_group in T. destruct T as (S & A).
  destruct rest as [|k2 rest].
  - destruct (find_link k links) as [h|] eqn:F; [|eauto]. exfalso. destruct (A k h) as (N' & T'); [apply find_in; auto|].
    destruct (tidy_inhabited h) as (q & w & Q); auto. destruct (H (k :: q) w) as (_ & P); [rewrite stored_cons, F; auto|]. apply P. exists q. auto.
  - destruct (find_link k links) as [[w|sub]|] eqn:F.
    + exfalso. destruct (H [k] w) as (P & _); [rewrite stored_cons, F; auto|]. apply P. exists (k2 :: rest). auto.
    + destruct (IH sub v) as (sub' & ->); [discriminate|apply (A k); apply find_in; auto| |cbn; eauto].
      intros q w Q. destruct (H (k :: q) w) as (P1 & P2); [rewrite stored_cons, F; auto|]. split; intros (r & E).
      * apply P1. exists r. cbn. rewrite <- E. auto.
      * apply P2. exists r. cbn. rewrite E. auto.
    + destruct (IH [] v) as (sub' & ->); [discriminate|apply tidy_group; split; [constructor|intros ? ? []]| |cbn; eauto].
      intros [|a q] w Q; [rewrite stored_nil in Q; discriminate|rewrite stored_cons in Q; discriminate].
Qed.

(** ** Paths as strings *)
Lemma append_assoc : forall a b c : string, (a ++ b) ++ c = a ++ (b ++ c).
Proof. induction a; cbn; intros; auto. rewrite IHa. auto. Qed.
Lemma append_empty : forall a : string, a ++ "" = a.
Proof. induction a; cbn; auto. rewrite IHa. auto. Qed.
Lemma components_name : forall k current, has_slash k = false -> current ++ k <> "" -> current ++ k <> "." -> components_from current k = [current ++ k].
Proof.
  induction k as [|c k IH]; intros current S N1 N2.
  - cbn. rewrite append_empty in *. destruct (String.eqb_spec current ""); [congruence|]. destruct (String.eqb_spec current "."); [congruence|]. auto.
  - cbn in S. apply orb_false_iff in S. destruct S as (S1 & S2). cbn. rewrite S1. replace (current ++ String c k) with ((current ++ String c "") ++ k) by (rewrite append_assoc; auto).
    apply IH; auto; rewrite append_assoc; auto.
Qed.
Lemma components_slash : forall k current rest, has_slash k = false -> current ++ k <> "" -> current ++ k <> "." ->
  components_from current (k ++ "/" ++ rest) = (current ++ k) :: components rest.
Proof.
  induction k as [|c k IH]; intros current rest S N1 N2.
  - cbn. rewrite append_empty in *. destruct (String.eqb_spec current ""); [congruence|]. destruct (String.eqb_spec current "."); [congruence|]. auto.
  - cbn in S. apply orb_false_iff in S. destruct S as (S1 & S2). cbn. rewrite S1. replace (current ++ String c k) with ((current ++ String c "") ++ k) by (rewrite append_assoc; auto).
    apply IH; auto; rewrite append_assoc; auto.
Qed.
Fixpoint joined (p : list string) : string := match p with [] => "" | [k] => k | k :: rest => k ++ "/" ++ joined rest end.
Lemma components_joined : forall p, Forall proper_name p -> components (joined p) = p.
Proof.
  induction 1 as [|k p (N1 & N2 & S) F IH]; auto. destruct p as [|k2 p].
  - cbn. apply components_name; auto.
  - change (joined (k :: k2 :: p)) with (k ++ "/" ++ joined (k2 :: p)). unfold components. rewrite components_slash by auto. f_equal. auto.
Qed.
Lemma joined_cons : forall k p, p <> [] -> joined (k :: p) = k ++ "/" ++ joined p.
Proof. intros k [|]; [congruence|auto]. Qed.
Lemma joined_app : forall p k, p <> [] -> joined (p ++ [k]) = joined p ++ "/" ++ k.
Proof.
  induction p as [|a p IH]; intros k N; [congruence|]. destruct p as [|b p]; [auto|].
  change ((a :: b :: p) ++ [k])%list with (a :: ((b :: p) ++ [k]))%list. rewrite joined_cons by (destruct p; discriminate).
  rewrite IH by discriminate. rewrite (joined_cons a (b :: p)) by discriminate. rewrite !append_assoc. auto.
Qed.
Lemma joined_not_empty : forall p, p <> [] -> Forall proper_name p -> joined p <> "".
Proof.
  intros p N F. destruct F as [|k p (N1 & _) F]; [congruence|]. destruct p; [auto|]. rewrite joined_cons by discriminate. destruct k; [congruence|]. discriminate.
Qed.

(** ** Flattening *)
Fixpoint tree_size (t : tree) : nat :=
  match t with Leaf _ => 1 | Node d => S ((fix all (d : list (string * tree)) := match d with [] => 0 | (_, t') :: d' => tree_size t' + all d' end) d) end.
Lemma proper_node : forall d, proper (Node d) <-> NoDup (map fst d) /\ forall k t, In (k, t) d -> proper_name k /\ proper t.
Proof.
  intros d. cbn. apply and_iff_compat_l. induction d as [|[k t] d IH]; [cbn; intuition|]. split.
  - intros (N & T & A) k' t' [E|I]; [injection E as <- <-; auto|]. apply IH; auto.
  - intros A. split; [apply (A k t); left; auto|]. split; [apply (A k t); left; auto|]. apply IH. intros k' t' I. apply A. right; auto.
Qed.
Lemma complete_node : forall d, complete (Node d) <-> forall k t, In (k, t) d -> complete t.
Proof.
  intros d. cbn. induction d as [|[k t] d IH]; [cbn; intuition|]. split.
  - intros (T & A) k' t' [E|I]; [injection E as <- <-; auto|]. revert I. apply IH; auto.
  - intros A. split; [apply (A k t); left; auto|]. apply IH. intros k' t' I. apply (A k'). right; auto.
Qed.
(** The parameters with their paths, in order. *)
Fixpoint leaves (t : tree) : list (list string * value) :=
  match t with
  | Leaf v => [([], v)]
  | Node d => (fix all (d : list (string * tree)) := match d with [] => [] | (k, t') :: d' => (map (fun '(p, v) => (k :: p, v)) (leaves t') ++ all d')%list end) d
  end.
Lemma leaves_node : forall d, leaves (Node d) = flat_map (fun '(k, t) => map (fun '(p, v) => (k :: p, v)) (leaves t)) d.
Proof. induction d as [|[k t] d IH]; auto. cbn [flat_map]. rewrite <- IH. auto. Qed.
Lemma flatten_node : forall parent d, flatten_gen parent (Node d) = flat_map (fun '(k, t) =>
  let new_key := if String.eqb parent "" then k else parent ++ "/" ++ k in match t with Leaf v => [(new_key, v)] | Node _ => flatten_gen new_key t end) d.
Proof.
  intros parent. induction d as [|[k t] d IH]; auto.
  change (flatten_gen parent (Node ((k, t) :: d))) with ((let new_key := if String.eqb parent "" then k else (parent ++ "/" ++ k)%string in
    match t with Leaf v => [(new_key, v)] | Node _ => flatten_gen new_key t end) ++ flatten_gen parent (Node d))%list.
  rewrite IH. reflexivity.
Qed.
Lemma tree_size_in : forall d k t, In (k, t) d -> tree_size t < tree_size (Node d).
Proof.
  intros d k t. cbn. fold tree_size. induction d as [|[a b] d IH]; cbn; [intuition|]. intros [E|I]; [injection E as -> ->; lia|]. apply IH in I. lia.
Qed.
Local Opaque proper complete leaves flatten_gen tree_size.
Lemma flatten_leaves : forall t pre, proper t -> Forall proper_name pre ->
  match t with Leaf _ => True | Node _ => flatten_gen (joined pre) t = map (fun '(p, v) => (joined (pre ++ p), v)) (leaves t) end.
Proof.
  assert (H : forall n t, tree_size t < n -> forall pre, proper t -> Forall proper_name pre ->
    match t with Leaf _ => True | Node _ => flatten_gen (joined pre) t = map (fun '(p, v) => (joined (pre ++ p), v)) (leaves t) end).
  { induction n as [|n IH]; intros t L pre P F; [lia|]. destruct t as [|d]; auto. rewrite flatten_node, leaves_node. apply proper_node in P. destruct P as (_ & P).
    assert (Q : forall k t, In (k, t) d -> tree_size t < n) by (intros k t I; pose proof (tree_size_in d k t I); lia). clear L.
    induction d as [|[k t] d IHd]; auto. cbn [flat_map]. rewrite map_app. f_equal.
    - assert (K : (if String.eqb (joined pre) "" then k else joined pre ++ "/" ++ k) = joined (pre ++ [k])).
      { destruct pre as [|a pre]; [auto|]. destruct (String.eqb_spec (joined (a :: pre)) ""); [exfalso; apply (joined_not_empty (a :: pre)); auto; discriminate|].
        rewrite joined_app; auto. discriminate. }
      cbn zeta. rewrite K. destruct (P k t) as (PK & PT); [left; auto|]. destruct t as [v|d']; [auto|].
      rewrite (IH (Node d') (Q k _ (or_introl eq_refl)) (pre ++ [k])%list PT) by (apply Forall_app; auto). rewrite map_map. apply map_ext. intros (p & v). rewrite <- app_assoc. auto.
    - apply IHd; intros k' t' I; [apply P|apply (Q k')]; right; auto. }
  intros t. apply (H (S (tree_size t))). lia.
Qed.
Lemma leaves_spec : forall t p v, proper t -> (In (p, v) (leaves t) <-> parameter_at t p = Some v).
Proof.
  assert (H : forall n t, tree_size t < n -> forall p v, proper t -> (In (p, v) (leaves t) <-> parameter_at t p = Some v)).
  { induction n as [|n IH]; intros t L p v P; [lia|]. destruct t as [w|d].
    - change (leaves (Leaf w)) with [(@nil string, w)]. cbn [In]. destruct p; [rewrite parameter_nil|rewrite parameter_leaf]; intuition congruence.
    - rewrite leaves_node, in_flat_map. apply proper_node in P. destruct P as (N & P). split.
      + intros ((k & t) & I & J). apply in_map_iff in J. destruct J as ((q & w) & E & J). injection E as <- <-. rewrite parameter_cons, (in_find k t) by auto.
        apply IH; auto; [pose proof (tree_size_in d k t I); lia|apply (P k); auto].
      + intros E. destruct p as [|k q]; [rewrite parameter_nil in E; discriminate|]. rewrite parameter_cons in E. destruct (find_link k d) as [t|] eqn:F; [|discriminate].
        apply find_in in F. exists (k, t). split; auto. apply in_map_iff. exists (q, v). split; auto. apply IH; auto; [pose proof (tree_size_in d k t F); lia|apply (P k); auto]. }
  intros t. apply (H (S (tree_size t))). lia.
Qed.
Lemma parameter_path : forall t p v, proper t -> parameter_at t p = Some v -> Forall proper_name p.
Proof.
  intros t p. revert t. induction p as [|k p IH]; intros t v P E; auto. destruct t as [|d]; [rewrite parameter_leaf in E; discriminate|].
  rewrite parameter_cons in E. destruct (find_link k d) as [t|] eqn:F; [|discriminate]. apply find_in in F. apply proper_node in P. destruct P as (_ & P).
  destruct (P _ _ F). constructor; eauto.
Qed.
Lemma parameter_complete : forall t p v, complete t -> parameter_at t p = Some v -> v <> NoValue.
Proof.
  intros t p. revert t. induction p as [|k p IH]; intros t v C E.
  - rewrite parameter_nil in E. destruct t; [|discriminate]. injection E as <-. exact C.
  - destruct t as [|d]; [rewrite parameter_leaf in E; discriminate|]. rewrite parameter_cons in E. destruct (find_link k d) as [t|] eqn:F; [|discriminate]. apply find_in in F.
    apply IH with t; auto. revert F. apply complete_node; auto.
Qed.
Lemma parameter_prefix : forall t p r v w, parameter_at t p = Some v -> parameter_at t (p ++ r) = Some w -> r = [].
Proof.
  intros t p. revert t. induction p as [|k p IH]; intros t r v w E1 E2.
  - rewrite parameter_nil in E1. destruct t; [|discriminate]. destruct r; auto. cbn [app] in E2. rewrite parameter_leaf in E2. discriminate.
  - destruct t as [|d]; [rewrite parameter_leaf in E1; discriminate|]. cbn [app] in E2. rewrite parameter_cons in E1, E2. destruct (find_link k d) as [t|]; [|discriminate]. eapply IH; eauto.
Qed.
Lemma nodup_app : forall {A} (l1 l2 : list A), NoDup l1 -> NoDup l2 -> (forall x, In x l1 -> ~ In x l2) -> NoDup (l1 ++ l2).
Proof. induction 1; cbn; intros; auto. constructor; [rewrite in_app_iff; intros [?|?]; [auto|eapply H2; cbn; eauto]|apply IHNoDup; auto; intros; apply H2; cbn; auto]. Qed.
Lemma leaves_nodup : forall t, proper t -> NoDup (map fst (leaves t)).
Proof.
  assert (H : forall n t, tree_size t < n -> proper t -> NoDup (map fst (leaves t))).
  { induction n as [|n IH]; intros t L P; [lia|]. destruct t as [w|d]; [repeat constructor; intros []|]. rewrite leaves_node. apply proper_node in P. destruct P as (N & P).
    assert (Q : forall k t, In (k, t) d -> tree_size t < n) by (intros k t I; pose proof (tree_size_in d k t I); lia). clear L.
    induction d as [|[k t] d IHd]; [constructor|]. cbn [flat_map]. rewrite map_app. cbn [map fst] in N. inversion N as [|? ? N1 N2]; subst. apply nodup_app.
    - rewrite map_map. replace (map _ (leaves t)) with (map (cons k) (map fst (leaves t))) by (rewrite map_map; apply map_ext; intros (p & v); auto).
      apply Injective_map_NoDup; [intros a b E; congruence|]. apply IH; [apply (Q k); left; auto|apply (P k); left; auto].
    - apply IHd; auto; intros k' t' I; [apply P|apply (Q k')]; right; auto.
    - intros x I1 I2. apply in_map_iff in I1. destruct I1 as ((p1 & v1) & <- & I1). apply in_map_iff in I1. destruct I1 as ((q1 & w1) & E1 & I1). injection E1 as <- <-.
      apply in_map_iff in I2. destruct I2 as ((p2 & v2) & E2 & I2). apply in_flat_map in I2. destruct I2 as ((k2 & t2) & I2 & I3). apply in_map_iff in I3.
      destruct I3 as ((q2 & w2) & E3 & I3). injection E3 as <- <-. cbn [fst] in E2. injection E2 as -> _. apply N1. apply in_map_iff. exists (k, t2). auto. }
  intros t. apply (H (S (tree_size t))). lia.
Qed.
(** Dictionaries of different keys. *)
Lemma dict_set_new : forall {A} k (v : A) d, ~ In k (map fst d) -> dict_set k v d = (d ++ [(k, v)])%list.
Proof. induction d as [|[a b] d IH]; cbn; auto. intros N. destruct (String.eqb_spec k a); [subst; exfalso; auto|]. f_equal. apply IH. auto. Qed.
Lemma dict_of_nodup : forall {A} (l : list (string * A)), NoDup (map fst l) -> dict_of l = l.
Proof.
  intros A l. unfold dict_of. enough (H : forall d, NoDup (map fst (d ++ l)) -> fold_left (fun d '(k, v) => dict_set k v d) l d = (d ++ l)%list) by (intros; apply (H []); auto).
  induction l as [|[k v] l IH]; intros d N; cbn; [rewrite app_nil_r; auto|]. rewrite dict_set_new.
  - rewrite IH; rewrite <- app_assoc; auto.
  - rewrite map_app in N. cbn in N. apply NoDup_remove_2 in N. rewrite in_app_iff in N. auto.
Qed.
Lemma joined_injective : forall p q, Forall proper_name p -> Forall proper_name q -> joined p = joined q -> p = q.
Proof. intros p q P Q E. rewrite <- (components_joined p), <- (components_joined q) by auto. congruence. Qed.
Lemma flatten_value : forall d, proper (Node d) -> flatten d = map (fun '(p, v) => (joined p, v)) (leaves (Node d)).
Proof.
  intros d P. unfold flatten. pose proof (flatten_leaves (Node d) [] P (Forall_nil _)) as F. cbn [joined app] in F. rewrite F. apply dict_of_nodup.
  rewrite map_map. pose proof (leaves_nodup _ P) as N. assert (Q : forall p v, In (p, v) (leaves (Node d)) -> Forall proper_name p) by (intros p v I; apply leaves_spec in I; auto; eapply parameter_path; eauto).
  clear F. induction (leaves (Node d)) as [|[p v] l IH]; cbn in *; [constructor|]. inversion N; subst. constructor; [|apply IH; eauto].
  intros I. apply in_map_iff in I. destruct I as ((q & w) & E & I). cbn in E. apply joined_injective in E; [|eauto|eauto]. subst. apply H1. apply in_map_iff. exists (p, w). auto.
Qed.

(** ** Writing everything *)
Lemma include_leaves : forall prefix l file, proper_name prefix -> tidy (Group file) ->
  NoDup (map fst l) -> (forall p v, In (p, v) l -> Forall proper_name p /\ p <> [] /\ v <> NoValue) ->
  (forall p v q w, In (p, v) l -> In (q, w) l -> prefix_of p q -> p = q) ->
  (forall p v q w, In (p, v) l -> stored_at (Group file) q = Some w -> ~ prefix_of q (prefix :: p) /\ ~ prefix_of (prefix :: p) q) ->
  exists file', include_parameters file prefix (map (fun '(p, v) => (joined p, v)) l) = Ok file' /\ tidy (Group file')
  /\ forall q, stored_at (Group file') q = match q with
       | k :: r => match (if String.eqb k prefix then find (fun '(p, _) => if path_eq_dec p r then true else false) l else None) with
                   | Some (_, v) => Some v | None => stored_at (Group file) q end
       | [] => None end.
Proof.
  intros prefix l. induction l as [|[p v] l IH]; intros file PN T N A B C.
  - exists file. split; auto. split; auto. intros [|k r]; [apply stored_nil|]. destruct String.eqb; auto.
  - destruct (A p v) as (FP & NP & NV); [left; auto|].
    assert (J : components (prefix ++ "/" ++ joined p) = prefix :: p).
    { rewrite <- joined_cons by auto. apply components_joined. constructor; auto. }
    destruct (put_succeeds (prefix :: p) file v) as (file1 & P); [discriminate|auto|intros q w Q; apply (C p v q w); auto; left; auto|].
    destruct (put_tidy _ _ _ _ P T) as (T1 & _). pose proof (put_reads _ _ _ _ P) as R.
    cbn [map fst] in N. inversion N as [|? ? N1 N2]; subst.
    destruct (IH file1) as (file2 & E & T2 & S); auto.
    + intros p' v' I. apply A. right; auto.
    + intros p' v' q w I1 I2. apply (B p' v' q w); right; auto.
    + intros p' v' q w I Q. rewrite R in Q. destruct (path_eq_dec q (prefix :: p)) as [->|NE].
      * assert (X : p' <> p) by (intros ->; apply N1; apply in_map_iff; exists (p, v'); auto). split; intros (r & E); injection E as E.
        -- apply X. symmetry. apply (B p v p' v'); [left; auto|right; auto|exists r; auto].
        -- apply X. apply (B p' v' p v); [right; auto|left; auto|exists r; auto].
      * apply (C p' v' q w); auto. right; auto.
    + exists file2. split; [|split; auto].
      * cbn [map include_parameters]. destruct v; try congruence; rewrite J, P; auto.
      * intros q. rewrite S. destruct q as [|k r]; auto. rewrite R. cbn [find].
        destruct (String.eqb_spec k prefix) as [->|NE].
        -- destruct (path_eq_dec p r) as [->|NE].
           ++ destruct (find _ l) as [[p' v']|] eqn:F.
              ** exfalso. apply find_some in F. destruct F as (I & F). destruct (path_eq_dec p' r); [|discriminate]. subst. apply N1. apply in_map_iff. exists (r, v'). auto.
              ** destruct path_eq_dec; congruence.
           ++ destruct (find _ l) as [[p' v']|]; auto. destruct path_eq_dec; congruence.
        -- destruct path_eq_dec; congruence.
Qed.

Theorem include_all : forall file prefix d, proper_name prefix -> proper (Node d) -> complete (Node d) -> tidy (Group file) -> ~ In prefix (map fst file) ->
  exists file', include_parameters file prefix (flatten d) = Ok file' /\ tidy (Group file')
  /\ (forall path, stored_at (Group file') (prefix :: path) = parameter_at (Node d) path)
  /\ (forall k path, k <> prefix -> stored_at (Group file') (k :: path) = stored_at (Group file) (k :: path)).
Proof.
  intros file prefix d PN P C T N. rewrite flatten_value by auto.
  assert (NF : forall path, stored_at (Group file) (prefix :: path) = None) by (intros; rewrite stored_cons; apply find_not_in in N; rewrite N; auto).
  destruct (include_leaves prefix (leaves (Node d)) file) as (file' & E & T' & S); auto.
  - apply leaves_nodup; auto.
  - intros p v I. apply leaves_spec in I; auto. split; [eapply parameter_path; eauto|]. split; [intros ->; rewrite parameter_nil in I; discriminate|eapply parameter_complete; eauto].
  - intros p v q w I1 I2 (r & ->). apply leaves_spec in I1, I2; auto. rewrite (parameter_prefix _ _ _ _ _ I1 I2), app_nil_r. auto.
  - intros p v q w I Q. destruct q as [|k q]; [rewrite stored_nil in Q; discriminate|].
    assert (k <> prefix) by (intros ->; rewrite NF in Q; discriminate). split; intros (r & E); injection E; congruence.
  - exists file'. split; auto. split; auto. split.
    + intros path. rewrite S, String.eqb_refl, NF. destruct (find _ (leaves (Node d))) as [[p v]|] eqn:F.
      * apply find_some in F. destruct F as (I & F). destruct (path_eq_dec p path); [|discriminate]. subst. symmetry. apply leaves_spec; auto.
      * destruct (parameter_at (Node d) path) as [v|] eqn:Q; auto. exfalso. apply leaves_spec in Q; auto. apply find_none with (x := (path, v)) in F; auto.
        cbn in F. destruct path_eq_dec; congruence.
    + intros k path NE. rewrite S. destruct (String.eqb_spec k prefix); [congruence|]. auto.
Qed.
