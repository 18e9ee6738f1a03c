(** Proofs about the files of a study. *)
From Coq Require Import List Arith String Ascii Bool Lia Decimal DecimalString DecimalNat.
From Verif Require Import ModelResults SpecResults.
Import ListNotations.
Local Open Scope string_scope.
Local Open Scope nat_scope.

(** ** Names *)
Lemma after_iff : forall p s t, after p s = Some t <-> s = p ++ t.
Proof.
  induction p as [|a p IH]; intros s t; cbn [after append]; [split; congruence|]. destruct s as [|b s]; [split; discriminate|].
  destruct (Ascii.eqb_spec a b) as [->|N]; [rewrite IH; split; congruence|]. split; [discriminate|]. intros E. injection E as -> _. contradiction.
Qed.
Definition push (v : nat) (u : uint) : uint :=
  match v with 0 => D0 u | 1 => D1 u | 2 => D2 u | 3 => D3 u | 4 => D4 u | 5 => D5 u | 6 => D6 u | 7 => D7 u | 8 => D8 u | _ => D9 u end.
Lemma digit_push : forall c v, digit_value c = Some v -> v <= 9 /\ forall u, NilEmpty.string_of_uint (push v u) = String c (NilEmpty.string_of_uint u).
Proof. intros c v H. destruct c as [[] [] [] [] [] [] [] []]; vm_compute in H; try discriminate; injection H as <-; (split; [lia|reflexivity]). Qed.
Lemma of_uint_push : forall v u acc, v <= 9 -> Nat.of_uint_acc (push v u) acc = Nat.of_uint_acc u (10 * acc + v).
Proof.
  intros v u acc H. do 10 (destruct v as [|v]; [cbn [push Nat.of_uint_acc]; f_equal; rewrite Nat.tail_mul_spec; lia|]). lia.
Qed.
Lemma digits_then_iff : forall s v n, digits_then ".pt" s v = Some n <-> exists u, s = NilEmpty.string_of_uint u ++ ".pt" /\ Nat.of_uint_acc u v = n.
Proof.
  induction s as [|c s IH]; intros v n; cbn [digits_then].
  - cbn. split; [discriminate|]. intros (u & E & _). destruct u; discriminate.
  - destruct (String.eqb_spec (String c s) ".pt") as [E|N].
    + injection E as -> ->. split.
      * intros H. injection H as <-. exists Nil. auto.
      * intros (u & E & <-). destruct u; try discriminate. reflexivity.
    + destruct (digit_value c) as [d|] eqn:D.
      * destruct (digit_push _ _ D) as (L & P). rewrite IH. split; intros (u & E & A).
        -- exists (push d u). rewrite P, of_uint_push by auto. cbn. now rewrite <- E.
        -- assert (X : exists u', u = push d u').
           { destruct u; cbn in E; [exfalso; apply N; exact E|..]; injection E as -> E; vm_compute in D; injection D as <-; eexists; reflexivity. }
           destruct X as (u' & ->). rewrite P in E. cbn in E. injection E as ->. rewrite of_uint_push in A by auto. eauto.
      * split; [discriminate|]. intros (u & E & _). exfalso. destruct u; cbn in E; [apply N; exact E|..]; injection E as -> E; vm_compute in D; discriminate.
Qed.
Lemma file_number_iff : forall name n, file_number "results" ".pt" name = Some n <-> stands_for name n.
Proof.
  intros name n. unfold file_number, stands_for. destruct (after "results" name) as [t|] eqn:A.
  - apply after_iff in A. subst name. destruct (String.eqb_spec t ".pt") as [->|N].
    + split; [intros H; injection H as <-; left; auto|]. intros [(_ & ->)|(u & _ & E & _)]; [auto|discriminate].
    + destruct (after "_" t) as [t'|] eqn:B.
      * apply after_iff in B. subst t. destruct t' as [|c t'].
        -- split; [discriminate|]. intros [(E & _)|(u & _ & E & _)]; [discriminate|]. cbn in E. injection E as E. destruct u; discriminate.
        -- destruct (digit_value c) as [v|] eqn:D.
           ++ destruct (digit_push _ _ D) as (L & P). rewrite digits_then_iff. split.
              ** intros (u & -> & H). right. exists (push v u). split; [destruct v as [|[|[|[|[|[|[|[|[|v]]]]]]]]]; discriminate|]. rewrite P. split; [reflexivity|].
                 unfold Nat.of_uint. rewrite of_uint_push by auto. cbn [Nat.mul Nat.add] in *. exact H.
              ** intros [(E & _)|(u & NN & E & H)]; [discriminate|]. cbn in E. injection E as E.
                 assert (X : exists u', u = push v u').
                 { destruct u; cbn in E; [contradiction|..]; injection E as -> E; vm_compute in D; injection D as <-; eexists; reflexivity. }
                 destruct X as (u' & ->). rewrite P in E. cbn in E. injection E as ->. exists u'. split; [auto|]. unfold Nat.of_uint in H. rewrite of_uint_push in H by auto. exact H.
           ++ split; [discriminate|]. intros [(E & _)|(u & NN & E & H)]; [discriminate|]. cbn in E. injection E as E.
              exfalso. destruct u; cbn in E; [contradiction|..]; injection E as -> E; vm_compute in D; discriminate.
      * split; [discriminate|]. intros [(E & _)|(u & NN & E & H)]; [exfalso; apply N; cbn in E; now injection E|].
        exfalso. cbn in E. injection E as E. assert (X : after "_" t = Some (NilEmpty.string_of_uint u ++ ".pt")) by (apply after_iff; exact E). congruence.
  - split; [discriminate|]. intros [(-> & _)|(u & _ & E & _)]; exfalso; [discriminate|]. assert (X : after "results" name = Some ("_" ++ NilEmpty.string_of_uint u ++ ".pt")) by (apply after_iff; exact E). congruence.
Qed.
Lemma results_stands : forall n, stands_for (snd (results_file n)) n.
Proof.
  intros n. right. exists (Nat.to_uint n). split.
  - intros E. pose proof (Unsigned.of_to n) as H. rewrite E in H. cbn in H. subst n. vm_compute in E. discriminate.
  - split; [reflexivity|apply Unsigned.of_to].
Qed.
Lemma decimal_inj : forall n m, decimal n ++ ".pt" = decimal m ++ ".pt" -> n = m.
Proof.
  intros n m E. assert (A : digits_then ".pt" (decimal n ++ ".pt") 0 = Some n) by (apply digits_then_iff; exists (Nat.to_uint n); split; [auto|apply Unsigned.of_to]).
  assert (B : digits_then ".pt" (decimal m ++ ".pt") 0 = Some m) by (apply digits_then_iff; exists (Nat.to_uint m); split; [auto|apply Unsigned.of_to]). congruence.
Qed.
Lemma next_number_free : forall existing fuel c, c + fuel = List.length existing -> (forall k, k < c -> In k existing) ->
  ~ In (next_number fuel c existing) existing /\ forall k, k < next_number fuel c existing -> In k existing.
Proof.
  intros existing. induction fuel as [|fuel IH]; intros c L B; cbn [next_number].
  - split; [|auto]. intros I. assert (X : incl (seq 0 (S c)) existing).
    { intros k K. apply in_seq in K. destruct (Nat.eq_dec k c); [congruence|]. apply B. lia. }
    pose proof (NoDup_incl_length (seq_NoDup (S c) 0) X) as Y. rewrite seq_length in Y. lia.
  - destruct (existsb (Nat.eqb c) existing) eqn:E.
    + apply existsb_exists in E as (x & I & E). apply Nat.eqb_eq in E. subst x. apply IH; [lia|]. intros k K. destruct (Nat.eq_dec k c); [congruence|]. apply B. lia.
    + split; [|auto]. intros I. assert (existsb (Nat.eqb c) existing = true) by (apply existsb_exists; exists c; split; [auto|apply Nat.eqb_refl]). congruence.
Qed.

Section Files.
Context {V : Type}.
Implicit Types (fs gs g : files V) (p q : study V).

Lemma file_eqb_iff : forall f h, file_eqb f h = true <-> f = h.
Proof. intros [[] a] [[] b]; cbn; rewrite ?String.eqb_eq; split; intros H; try discriminate; congruence. Qed.
Lemma file_eqb_spec : forall f h, reflect (f = h) (file_eqb f h).
Proof. intros. apply iff_reflect. symmetry. apply file_eqb_iff. Qed.
Lemma read_filter : forall fs f (g : file), g <> f -> read (filter (fun x => negb (file_eqb (fst x) f)) fs) g = read fs g.
Proof.
  intros fs f g N. unfold read. f_equal. induction fs as [|x fs IH]; cbn; [auto|]. destruct (file_eqb_spec (fst x) f) as [E|E]; cbn [negb].
  - destruct (file_eqb_spec (fst x) g); [congruence|auto].
  - cbn [find]. destruct (file_eqb (fst x) g); auto.
Qed.
Lemma read_write : forall fs f c (g : file), read (write fs f c) g = if file_eqb f g then Some c else read fs g.
Proof.
  intros fs f c g. destruct (file_eqb_spec f g) as [->|N]; unfold write.
  - unfold read. cbn. destruct (file_eqb_spec g g); [reflexivity|contradiction].
  - rewrite <- (read_filter fs f g) by auto. unfold read. cbn. destruct (file_eqb_spec f g); [contradiction|reflexivity].
Qed.
Lemma read_remove : forall fs f (g : file), read (remove fs f) g = if file_eqb f g then None else read fs g.
Proof.
  intros fs f g. destruct (file_eqb_spec f g) as [->|N]; unfold remove; [|apply read_filter; auto].
  unfold read. induction fs as [|x fs IH]; cbn; [auto|]. destruct (file_eqb (fst x) g) eqn:E; cbn; [auto|]. now rewrite E.
Qed.
Lemma names_iff : forall fs name, In name (results_names fs) <-> exists_file fs (ResultsDirectory, name).
Proof.
  intros fs name. unfold results_names, exists_file, read. rewrite in_flat_map. split.
  - intros (x & I & H). destruct (find _ fs) as [y|] eqn:F; [discriminate|]. pose proof (find_none _ _ F x I) as G. cbn in G.
    destruct x as [[[] a] c]; cbn in *; [|contradiction]. destruct H as [->|[]]. now rewrite String.eqb_refl in G.
  - intros H. destruct (find _ fs) as [y|] eqn:F; [|contradiction]. apply find_some in F as (I & E). exists y. split; [auto|].
    destruct y as [[d a] c]. apply file_eqb_iff in E. cbn in E. injection E as -> ->. now left.
Qed.
Lemma numbers_iff : forall fs k, In k (existing_numbers "results" ".pt" (results_names fs)) <-> taken fs k.
Proof.
  intros fs k. unfold existing_numbers, taken. rewrite in_flat_map. split; intros (name & I & H); exists name.
  - apply names_iff in I. split; [auto|]. apply file_number_iff. destruct (file_number "results" ".pt" name); [destruct H as [->|[]]; auto|contradiction].
  - apply names_iff in I. split; [auto|]. apply file_number_iff in H. rewrite H. now left.
Qed.
Theorem number_free : forall fs, ~ taken fs (study_number fs) /\ forall k, k < study_number fs -> taken fs k.
Proof.
  intros fs. unfold study_number, incremented_number.
  destruct (next_number_free (existing_numbers "results" ".pt" (results_names fs)) (List.length (existing_numbers "results" ".pt" (results_names fs))) 0) as (A & B); [lia|intros; lia|].
  split; [now rewrite <- numbers_iff|]. intros k K. apply numbers_iff. auto.
Qed.
Lemma number_same : forall fs gs, (forall k, taken fs k <-> taken gs k) -> study_number fs = study_number gs.
Proof.
  intros fs gs H. destruct (number_free fs) as (A & B), (number_free gs) as (C & D).
  destruct (Nat.lt_trichotomy (study_number fs) (study_number gs)) as [L|[E|L]]; [|auto|].
  - exfalso. apply A, H. auto.
  - exfalso. apply C, H. auto.
Qed.
Lemma results_taken : forall fs n, exists_file fs (results_file n) -> taken fs n.
Proof. intros fs n H. exists (snd (results_file n)). split; [exact H|apply results_stands]. Qed.
Lemma number_unused : forall fs, read fs (results_file (study_number fs)) = None.
Proof. intros fs. destruct (read fs _) eqn:E; [|auto]. exfalso. apply (proj1 (number_free fs)), results_taken. unfold exists_file. congruence. Qed.

(** ** Distinct files *)
Lemma eq_rc : forall n s m, file_eqb (results_file n) (checkpoint_file s m) = false. Proof. intros n [] m; reflexivity. Qed.
Lemma eq_cr : forall n s m, file_eqb (checkpoint_file s m) (results_file n) = false. Proof. intros n [] m; reflexivity. Qed.
Lemma eq_rs : forall n m, file_eqb (results_file n) (stral_file m) = false. Proof. reflexivity. Qed.
Lemma eq_sr : forall n m, file_eqb (stral_file m) (results_file n) = false. Proof. reflexivity. Qed.
Lemma eq_cs : forall n s m, file_eqb (checkpoint_file s n) (stral_file m) = false. Proof. intros n [] m; reflexivity. Qed.
Lemma eq_sc : forall n s m, file_eqb (stral_file m) (checkpoint_file s n) = false. Proof. reflexivity. Qed.
Lemma eq_refl_file : forall f, file_eqb f f = true. Proof. intros. now apply file_eqb_iff. Qed.
Lemma ideal_differs : forall n x, String.eqb (decimal n ++ ".pt") (String "i" x) = false.
Proof. intros n x. unfold decimal. destruct (Nat.to_uint n); reflexivity. Qed.
Lemma ideal_differs' : forall n x, String.eqb (String "i" x) (decimal n ++ ".pt") = false.
Proof. intros n x. unfold decimal. destruct (Nat.to_uint n); reflexivity. Qed.
Lemma eq_cc : forall s n s' m, checkpoint_file s n = checkpoint_file s' m -> s = s' /\ n = m.
Proof.
  intros s n s' m E. apply file_eqb_iff in E. destruct s, s'; try (split; [reflexivity|]); try (cbn in E; discriminate).
  - cbn in E. apply String.eqb_eq, decimal_inj in E. auto.
  - exfalso. change (String.eqb (String "i" ("deal_surface_" ++ decimal n ++ ".pt")) (decimal m ++ ".pt") = true) in E. now rewrite ideal_differs' in E.
  - cbn in E. apply String.eqb_eq, decimal_inj in E. auto.
  - exfalso. change (String.eqb (decimal n ++ ".pt") (String "i" ("deal_surface_" ++ decimal m ++ ".pt")) = true) in E. now rewrite ideal_differs in E.
  - cbn in E. apply String.eqb_eq, decimal_inj in E. auto.
Qed.
Lemma eq_cc_stage : forall s s' n, s <> s' -> file_eqb (checkpoint_file s n) (checkpoint_file s' n) = false.
Proof. intros s s' n N. destruct (file_eqb_spec (checkpoint_file s n) (checkpoint_file s' n)) as [E|]; [|auto]. apply eq_cc in E. tauto. Qed.
Lemma results_inj : forall n m, results_file n = results_file m -> n = m.
Proof. intros n m E. apply file_eqb_iff in E. cbn in E. apply String.eqb_eq, decimal_inj in E. auto. Qed.
Lemma checkpoint_no_number : forall s m n, ~ stands_for (snd (checkpoint_file s m)) n.
Proof. intros s m n [(E & _)|(u & _ & E & _)]; destruct s; discriminate. Qed.

(** ** Runs *)
Lemma add_entry_read : forall fs f k v (g : file), f <> g -> read (add_entry fs f k v) g = read fs g.
Proof. intros. unfold add_entry. rewrite read_write. destruct (file_eqb_spec f g); [contradiction|reflexivity]. Qed.
Lemma add_entry_exists : forall fs f k v, read (add_entry fs f k v) f <> None.
Proof. intros. unfold add_entry. rewrite read_write, eq_refl_file. discriminate. Qed.
Lemma do_stage_read : forall n s v l fs f,
  read (fst (fst (do_stage n s v l fs))) f = match read fs (checkpoint_file s n) with None => if file_eqb (checkpoint_file s n) f then Some (Value v) else read fs f | Some _ => read fs f end.
Proof. intros. unfold do_stage. destruct (read fs (checkpoint_file s n)) as [[w|d]|]; cbn [fst]; rewrite ?read_write; reflexivity. Qed.
Definition used (n : nat) (s : stage) (v : V) (fs : files V) : V := match read fs (checkpoint_file s n) with Some (Value w) => w | _ => v end.
Lemma do_stage_used : forall n s v l fs, snd (fst (do_stage n s v l fs)) = used n s v fs.
Proof. intros. unfold do_stage, used. destruct (read fs (checkpoint_file s n)) as [[w|d]|]; reflexivity. Qed.
Lemma do_stage_loss : forall n s v l fs, snd (do_stage n s v l fs) = match read fs (checkpoint_file s n) with None => [l] | Some _ => [] end.
Proof. intros. unfold do_stage. destruct (read fs (checkpoint_file s n)) as [[w|d]|]; reflexivity. Qed.

(** A step of a run keeps what is invariant under its writes. *)
Lemma snapshots_all : forall (P : files V -> Prop) n p fs, P fs ->
  (forall g k v, P g -> P (add_entry g (results_file n) k v)) -> (forall g d, P g -> P (write g (results_file n) (Dictionary d))) ->
  (forall g s v l, P g -> P (fst (fst (do_stage n s v l g)))) -> (forall g v, P g -> P (write g (stral_file n) (Value v))) ->
  Forall P (fst (run_numbered n p fs)).
Proof.
  intros P n p fs P0 A D S W. unfold run_numbered. set (f1 := add_entry fs _ _ _). set (f2 := add_entry f1 _ _ _). set (f3 := add_entry f2 _ _ _).
  assert (P1 : P f1) by now apply A. assert (P2 : P f2) by now apply A. assert (P3 : P f3) by now apply A.
  destruct (do_stage n KinematicsIdealSurfaces _ _ f3) as [[f4 ideal] l1] eqn:E4. assert (P4 : P f4) by (change f4 with (fst (fst (f4, ideal, l1))); rewrite <- E4; now apply S).
  destruct (do_stage n Surfaces _ _ f4) as [[f5 surfaces] l2] eqn:E5. assert (P5 : P f5) by (change f5 with (fst (fst (f5, surfaces, l2))); rewrite <- E5; now apply S).
  destruct (do_stage n KinematicsReconstructedSurfaces _ _ f5) as [[f6 kinematics] l3] eqn:E6. assert (P6 : P f6) by (change f6 with (fst (fst (f6, kinematics, l3))); rewrite <- E6; now apply S).
  cbn [fst]. repeat apply Forall_cons; auto.
Qed.
Lemma last_firstn_all : forall {A} (P : A -> Prop) l d k, P d -> Forall P l -> P (last (firstn k l) d).
Proof.
  intros A P l d k D H. assert (G : Forall P (firstn k l)). { rewrite <- (firstn_skipn k l) in H. now apply Forall_app in H. }
  revert G. generalize (firstn k l). clear -D. induction l as [|x l IH]; intros G; [exact D|]. apply Forall_cons_iff in G as (A1 & G). destruct l; [exact A1|]. now apply IH.
Qed.
Lemma last_firstn_some : forall {A} (P : A -> Prop) l d k, 1 <= k -> l <> [] -> Forall P l -> P (last (firstn k l) d).
Proof.
  intros A P l d k K N H. destruct l as [|x l]; [contradiction|]. destruct k as [|k]; [lia|]. cbn [firstn]. apply Forall_cons_iff in H as (X & H).
  assert (E : forall m, last (x :: m) d = last m x). { clear. intros m. revert x. induction m as [|y m IH]; intros x; [auto|]. change (last (x :: y :: m) d) with (last (y :: m) d). rewrite IH. clear. revert x y. induction m; intros; [auto|]. cbn in *. destruct m; auto. }
  rewrite E. now apply last_firstn_all.
Qed.
Theorem run_keeps : forall p fs name c, read fs (ResultsDirectory, name) = Some c -> forall writes, read (stopped p fs writes) (ResultsDirectory, name) = Some c.
Proof.
  intros p fs name c H writes. unfold stopped, run. pose proof (number_unused fs) as U.
  assert (N : results_file (study_number fs) <> (ResultsDirectory, name)) by (intros E; rewrite E in U; congruence).
  apply last_firstn_all; [auto|]. apply snapshots_all; auto.
  - intros. rewrite add_entry_read; auto.
  - intros. rewrite read_write. destruct (file_eqb_spec (results_file (study_number fs)) (ResultsDirectory, name)); [contradiction|auto].
  - intros g s v l G. rewrite do_stage_read. destruct (read g (checkpoint_file s (study_number fs))) eqn:E; [auto|].
    destruct (file_eqb_spec (checkpoint_file s (study_number fs)) (ResultsDirectory, name)) as [X|]; [|auto]. rewrite X in E. congruence.
  - intros g v G. rewrite read_write. exact G.
Qed.
Lemma run_frame : forall n p fs f, f <> results_file n -> (forall s, f <> checkpoint_file s n) -> f <> stral_file n -> Forall (fun g => read g f = read fs f) (fst (run_numbered n p fs)).
Proof.
  intros n p fs f A B C. apply snapshots_all; auto.
  - intros. rewrite add_entry_read; auto.
  - intros g d G. rewrite read_write. destruct (file_eqb_spec (results_file n) f); [congruence|auto].
  - intros g s v l G. rewrite do_stage_read. destruct (read g (checkpoint_file s n)); [auto|]. destruct (file_eqb_spec (checkpoint_file s n) f) as [X|]; [exfalso; now apply (B s)|auto].
  - intros g v G. rewrite read_write. destruct (file_eqb_spec (stral_file n) f); [congruence|auto].
Qed.
Lemma run_nonempty : forall n p fs, fst (run_numbered n p fs) <> [].
Proof. intros n p fs. unfold run_numbered. destruct (do_stage _ KinematicsIdealSurfaces _ _ _) as [[? ?] ?]. destruct (do_stage _ Surfaces _ _ _) as [[? ?] ?]. destruct (do_stage _ KinematicsReconstructedSurfaces _ _ _) as [[? ?] ?]. discriminate. Qed.
Lemma run_results : forall n p fs, Forall (fun g => exists_file g (results_file n)) (fst (run_numbered n p fs)).
Proof.
  intros n p fs. unfold run_numbered. set (f1 := add_entry fs _ _ _). set (f2 := add_entry f1 _ _ _). set (f3 := add_entry f2 _ _ _).
  assert (P1 : exists_file f1 (results_file n)) by apply add_entry_exists. assert (P2 : exists_file f2 (results_file n)) by apply add_entry_exists. assert (P3 : exists_file f3 (results_file n)) by apply add_entry_exists.
  assert (S : forall g s v l, exists_file g (results_file n) -> exists_file (fst (fst (do_stage n s v l g))) (results_file n)).
  { intros g s v l G. unfold exists_file. rewrite do_stage_read, eq_cr. destruct (read g (checkpoint_file s n)); exact G. }
  destruct (do_stage n KinematicsIdealSurfaces _ _ f3) as [[f4 ideal] l1] eqn:E4. assert (P4 : exists_file f4 (results_file n)) by (change f4 with (fst (fst (f4, ideal, l1))); rewrite <- E4; now apply S).
  destruct (do_stage n Surfaces _ _ f4) as [[f5 surfaces] l2] eqn:E5. assert (P5 : exists_file f5 (results_file n)) by (change f5 with (fst (fst (f5, surfaces, l2))); rewrite <- E5; now apply S).
  destruct (do_stage n KinematicsReconstructedSurfaces _ _ f5) as [[f6 kinematics] l3] eqn:E6. assert (P6 : exists_file f6 (results_file n)) by (change f6 with (fst (fst (f6, kinematics, l3))); rewrite <- E6; now apply S).
  cbn [fst]. repeat (apply Forall_cons; [first [assumption|unfold exists_file; rewrite ?read_write, ?eq_sr, ?eq_refl_file; (exact P6 || discriminate) | apply add_entry_exists]|]). apply Forall_nil.
Qed.
Theorem next_study_number : forall p fs writes, 1 <= writes -> study_number (stopped p fs writes) <> study_number fs.
Proof.
  intros p fs writes W E. apply (proj1 (number_free (stopped p fs writes))). rewrite E. apply results_taken.
  unfold stopped, run. apply (last_firstn_some (fun g => exists_file g (results_file (study_number fs)))); [auto|apply run_nonempty|apply run_results].
Qed.

(** What is computed and what is in the files at the end. *)
Lemma before_stages : forall n p fs (f : file), f <> results_file n ->
  read (add_entry (add_entry (add_entry fs (results_file n) "distributions" [distributions p]) (results_file n) "deflectometry_fluxes" [deflectometry p]) (results_file n) "heliostat_positions" [positions p]) f = read fs f.
Proof. intros. rewrite !add_entry_read by auto. reflexivity. Qed.
Lemma ck_not_results : forall s n m, checkpoint_file s n <> results_file m.
Proof. intros s n m E. apply file_eqb_iff in E. now rewrite eq_cr in E. Qed.
Definition surfaces_used (n : nat) (p : study V) fs : V := used n Surfaces (reconstructed_surfaces p) fs.
Definition kinematics_used (n : nat) (p : study V) fs : V := used n KinematicsReconstructedSurfaces (reconstructed_kinematics p (surfaces_used n p fs)) fs.
Definition stage_value (n : nat) (p : study V) fs (s : stage) : V :=
  match s with KinematicsIdealSurfaces => reconstructed_ideal p | Surfaces => reconstructed_surfaces p | KinematicsReconstructedSurfaces => reconstructed_kinematics p (surfaces_used n p fs) end.
Definition order (s : stage) : nat := match s with KinematicsIdealSurfaces => 4 | Surfaces => 5 | KinematicsReconstructedSurfaces => 6 end.
Definition loss_kept (n : nat) (p : study V) fs (s : stage) : list V := match read fs (checkpoint_file s n) with None => [losses p s] | Some _ => [] end.
Lemma run_is : forall n p fs,
  (forall k s, 1 <= k -> read (last (firstn k (fst (run_numbered n p fs))) fs) (checkpoint_file s n)
     = match read fs (checkpoint_file s n) with Some c => Some c | None => if order s <=? k then Some (Value (stage_value n p fs s)) else None end)
  /\ read (last (fst (run_numbered n p fs)) fs) (stral_file n) = Some (Value (heliostat_model p (surfaces_used n p fs) (kinematics_used n p fs)))
  /\ says (last (fst (run_numbered n p fs)) fs) (results_file n) "aim_point_optimization_reconstructed_model" [aim_points p (surfaces_used n p fs) (kinematics_used n p fs)]
  /\ says (last (fst (run_numbered n p fs)) fs) (results_file n) "kinematics_reconstruction_with_ideal_surfaces" (loss_kept n p fs KinematicsIdealSurfaces)
  /\ says (last (fst (run_numbered n p fs)) fs) (results_file n) "surface_reconstruction" (loss_kept n p fs Surfaces)
  /\ says (last (fst (run_numbered n p fs)) fs) (results_file n) "kinematics_reconstruction_with_reconstructed_surfaces" (loss_kept n p fs KinematicsReconstructedSurfaces)
  /\ snd (run_numbered n p fs) = filter (fun s => match read fs (checkpoint_file s n) with None => true | Some _ => false end) all_stages.
Proof.
  intros n p fs. unfold run_numbered. set (f1 := add_entry fs _ _ _). set (f2 := add_entry f1 _ _ _). set (f3 := add_entry f2 _ _ _).
  assert (C1 : forall s, read f1 (checkpoint_file s n) = read fs (checkpoint_file s n)) by (intros; apply add_entry_read; intros E; symmetry in E; now apply ck_not_results in E).
  assert (C2 : forall s, read f2 (checkpoint_file s n) = read fs (checkpoint_file s n)) by (intros s; rewrite <- C1; apply add_entry_read; intros E; symmetry in E; now apply ck_not_results in E).
  assert (C3 : forall s, read f3 (checkpoint_file s n) = read fs (checkpoint_file s n)) by (intros s; rewrite <- C2; apply add_entry_read; intros E; symmetry in E; now apply ck_not_results in E).
  pose proof (do_stage_read n KinematicsIdealSurfaces (reconstructed_ideal p) (losses p KinematicsIdealSurfaces) f3) as R4.
  pose proof (do_stage_loss n KinematicsIdealSurfaces (reconstructed_ideal p) (losses p KinematicsIdealSurfaces) f3) as L4.
  destruct (do_stage n KinematicsIdealSurfaces _ _ f3) as [[f4 ideal] l1]. cbn [fst snd] in R4, L4.
  pose proof (do_stage_read n Surfaces (reconstructed_surfaces p) (losses p Surfaces) f4) as R5. pose proof (do_stage_used n Surfaces (reconstructed_surfaces p) (losses p Surfaces) f4) as U5.
  pose proof (do_stage_loss n Surfaces (reconstructed_surfaces p) (losses p Surfaces) f4) as L5.
  destruct (do_stage n Surfaces _ _ f4) as [[f5 surfaces] l2]. cbn [fst snd] in R5, U5, L5.
  pose proof (do_stage_read n KinematicsReconstructedSurfaces (reconstructed_kinematics p surfaces) (losses p KinematicsReconstructedSurfaces) f5) as R6.
  pose proof (do_stage_used n KinematicsReconstructedSurfaces (reconstructed_kinematics p surfaces) (losses p KinematicsReconstructedSurfaces) f5) as U6.
  pose proof (do_stage_loss n KinematicsReconstructedSurfaces (reconstructed_kinematics p surfaces) (losses p KinematicsReconstructedSurfaces) f5) as L6.
  destruct (do_stage n KinematicsReconstructedSurfaces _ _ f5) as [[f6 kinematics] l3]. cbn [fst snd] in R6, U6, L6.
  set (f7 := write f6 (stral_file n) _). set (d := (entries_of f3 (results_file n) ++ _)%list). set (f8 := write f7 (results_file n) (Dictionary d)). set (f9 := add_entry f8 _ _ _).
  assert (C4 : forall s, read f4 (checkpoint_file s n) = match read fs (checkpoint_file s n) with Some c => Some c | None => match s with KinematicsIdealSurfaces => Some (Value (stage_value n p fs s)) | _ => None end end).
  { intros s. rewrite R4, !C3. destruct s; rewrite ?eq_refl_file, ?eq_cc_stage by discriminate; destruct (read fs (checkpoint_file KinematicsIdealSurfaces n)), (read fs (checkpoint_file Surfaces n)), (read fs (checkpoint_file KinematicsReconstructedSurfaces n)); reflexivity. }
  assert (ES : surfaces = surfaces_used n p fs). { rewrite U5. unfold surfaces_used, used. rewrite C4. destruct (read fs (checkpoint_file Surfaces n)); reflexivity. }
  assert (C5 : forall s, read f5 (checkpoint_file s n) = match read fs (checkpoint_file s n) with Some c => Some c | None => match s with KinematicsReconstructedSurfaces => None | _ => Some (Value (stage_value n p fs s)) end end).
  { intros s. rewrite R5, !C4. destruct s; rewrite ?eq_refl_file, ?eq_cc_stage by discriminate; destruct (read fs (checkpoint_file KinematicsIdealSurfaces n)), (read fs (checkpoint_file Surfaces n)), (read fs (checkpoint_file KinematicsReconstructedSurfaces n)); reflexivity. }
  assert (EK : kinematics = kinematics_used n p fs). { rewrite U6. unfold kinematics_used, used at 1. fold (used n KinematicsReconstructedSurfaces (reconstructed_kinematics p surfaces) f5). unfold used. rewrite C5, ES. destruct (read fs (checkpoint_file KinematicsReconstructedSurfaces n)); reflexivity. }
  assert (C6 : forall s, read f6 (checkpoint_file s n) = match read fs (checkpoint_file s n) with Some c => Some c | None => Some (Value (stage_value n p fs s)) end).
  { intros s. rewrite R6, !C5. rewrite ES. destruct s; rewrite ?eq_refl_file, ?eq_cc_stage by discriminate; destruct (read fs (checkpoint_file KinematicsIdealSurfaces n)), (read fs (checkpoint_file Surfaces n)), (read fs (checkpoint_file KinematicsReconstructedSurfaces n)); reflexivity. }
  assert (C7 : forall s, read f7 (checkpoint_file s n) = read f6 (checkpoint_file s n)) by (intros s; unfold f7; now rewrite read_write, eq_sc).
  assert (C8 : forall s, read f8 (checkpoint_file s n) = read f6 (checkpoint_file s n)) by (intros s; unfold f8; now rewrite read_write, eq_rc, C7).
  assert (C9 : forall s, read f9 (checkpoint_file s n) = read f6 (checkpoint_file s n)) by (intros s; unfold f9; rewrite add_entry_read; [apply C8|intros E; symmetry in E; now apply ck_not_results in E]).
  cbn [fst snd].
  assert (ED : read f9 (results_file n) = Some (Dictionary (d ++ [("run_info", [run_info p])])%list)).
  { unfold f9, add_entry, entries_of. rewrite read_write, eq_refl_file. unfold f8. now rewrite read_write, eq_refl_file. }
  split; [|split; [|split; [|split; [|split; [|split]]]]].
  - intros k s K. destruct k as [|[|[|[|[|[|[|[|[|k]]]]]]]]]; [lia|..]; cbn [firstn last]; try rewrite firstn_nil; rewrite ?C1, ?C2, ?C3, ?C4, ?C5, ?C9, ?C8, ?C7, ?C6; destruct s; cbn [order Nat.leb]; destruct (read fs _); reflexivity.
  - cbn [last]. unfold f9. rewrite add_entry_read by (intros E; discriminate). unfold f8. rewrite read_write, eq_rs. unfold f7. rewrite read_write, eq_refl_file. now rewrite ES, EK.
  - eexists. split; [exact ED|]. apply in_or_app. left. unfold d. apply in_or_app. right. rewrite ES, EK. do 3 right. now left.
  - eexists. split; [exact ED|]. apply in_or_app. left. unfold d. apply in_or_app. right. rewrite L4, C3. now left.
  - eexists. split; [exact ED|]. apply in_or_app. left. unfold d. apply in_or_app. right. rewrite L5, C4. unfold loss_kept. right. left. destruct (read fs (checkpoint_file Surfaces n)); reflexivity.
  - eexists. split; [exact ED|]. apply in_or_app. left. unfold d. apply in_or_app. right. rewrite L6, C5. unfold loss_kept. right. right. left. destruct (read fs (checkpoint_file KinematicsReconstructedSurfaces n)); reflexivity.
  - rewrite L4, L5, L6, C3, C4, C5. cbn [filter all_stages]. destruct (read fs (checkpoint_file KinematicsIdealSurfaces n)), (read fs (checkpoint_file Surfaces n)), (read fs (checkpoint_file KinematicsReconstructedSurfaces n)); reflexivity.
Qed.

Theorem stral_overwritten : forall p fs, read (finished p fs) (stral_file (study_number fs))
  = Some (Value (heliostat_model p (surfaces_used (study_number fs) p fs) (kinematics_used (study_number fs) p fs))).
Proof. intros p fs. apply run_is. Qed.
Lemma no_checkpoint_read : forall fs n s, no_checkpoints fs n -> read fs (checkpoint_file s n) = None.
Proof. intros fs n s H. specialize (H s). unfold exists_file in H. destruct (read fs (checkpoint_file s n)); [exfalso; apply H; discriminate|auto]. Qed.
Lemma surfaces_fresh : forall n p fs, no_checkpoints fs n -> surfaces_used n p fs = reconstructed_surfaces p.
Proof. intros n p fs H. unfold surfaces_used, used. now rewrite no_checkpoint_read. Qed.
Lemma kinematics_fresh : forall n p fs, no_checkpoints fs n -> kinematics_used n p fs = reconstructed_kinematics p (reconstructed_surfaces p).
Proof. intros n p fs H. unfold kinematics_used. rewrite surfaces_fresh by auto. unfold used. now rewrite no_checkpoint_read. Qed.
Theorem stral_replaced : forall p fs old, no_checkpoints fs (study_number fs) -> read fs (stral_file (study_number fs)) = Some (Value old) ->
  heliostat_model p (reconstructed_surfaces p) (reconstructed_kinematics p (reconstructed_surfaces p)) <> old ->
  read (finished p fs) (stral_file (study_number fs)) <> Some (Value old).
Proof. intros p fs old C _ N. rewrite stral_overwritten, surfaces_fresh, kinematics_fresh by auto. intros E. injection E as E. contradiction. Qed.

(** Two studies that picked the same number. *)
Theorem same_number : forall p q fs, no_checkpoints fs (study_number fs) ->
  let n := study_number fs in let first := last (fst (run_numbered n p fs)) fs in let second := run_numbered n q first in
  snd second = []
  /\ read (last (fst second) first) (stral_file n) = Some (Value (heliostat_model q (reconstructed_surfaces p) (reconstructed_kinematics p (reconstructed_surfaces p))))
  /\ says (last (fst second) first) (results_file n) "aim_point_optimization_reconstructed_model" [aim_points q (reconstructed_surfaces p) (reconstructed_kinematics p (reconstructed_surfaces p))].
Proof.
  intros p q fs C n first second.
  assert (R : forall s, read first (checkpoint_file s n) = Some (Value (stage_value n p fs s))).
  { intros s. destruct (run_is n p fs) as (H & _). specialize (H 9 s ltac:(lia)). unfold first. rewrite (no_checkpoint_read fs n s C) in H.
    assert (L : firstn 9 (fst (run_numbered n p fs)) = fst (run_numbered n p fs)).
    { unfold run_numbered. destruct (do_stage _ KinematicsIdealSurfaces _ _ _) as [[? ?] ?]. destruct (do_stage _ Surfaces _ _ _) as [[? ?] ?]. destruct (do_stage _ KinematicsReconstructedSurfaces _ _ _) as [[? ?] ?]. reflexivity. }
    rewrite L in H. rewrite H. destruct s; reflexivity. }
  assert (S2 : surfaces_used n q first = reconstructed_surfaces p) by (unfold surfaces_used, used; now rewrite R).
  assert (K2 : kinematics_used n q first = reconstructed_kinematics p (reconstructed_surfaces p)).
  { unfold kinematics_used, used. rewrite R. cbn [stage_value]. now rewrite surfaces_fresh. }
  destruct (run_is n q first) as (_ & A & B & _ & _ & _ & D). rewrite S2, K2 in *. split; [|split; [exact A|exact B]].
  unfold second. rewrite D. cbn [filter all_stages]. now rewrite !R.
Qed.

(** Restarting. *)
Theorem restart_computes : forall p q fs writes, 1 <= writes -> no_checkpoints fs (study_number (stopped p fs writes)) ->
  study_number (stopped p fs writes) <> study_number fs /\ computed q (stopped p fs writes) = all_stages.
Proof.
  intros p q fs writes W C. pose proof (next_study_number p fs writes W) as N. split; [auto|]. set (m := study_number (stopped p fs writes)) in *.
  assert (R : forall s, read (stopped p fs writes) (checkpoint_file s m) = None).
  { intros s. rewrite <- (no_checkpoint_read fs m s C). unfold stopped, run. apply (last_firstn_all (fun g => read g (checkpoint_file s m) = read fs (checkpoint_file s m))); [auto|].
    apply run_frame; [apply ck_not_results|intros s' E; apply eq_cc in E; tauto|]. intros E. apply file_eqb_iff in E. now rewrite eq_cs in E. }
  unfold computed, run. fold m. destruct (run_is m q (stopped p fs writes)) as (_ & _ & _ & _ & _ & _ & D). rewrite D. cbn [filter all_stages]. now rewrite !R.
Qed.
Theorem stale_used : forall p fs values, (forall s, read fs (checkpoint_file s (study_number fs)) = Some (Value (values s))) ->
  computed p fs = []
  /\ read (finished p fs) (stral_file (study_number fs)) = Some (Value (heliostat_model p (values Surfaces) (values KinematicsReconstructedSurfaces)))
  /\ says (finished p fs) (results_file (study_number fs)) "aim_point_optimization_reconstructed_model" [aim_points p (values Surfaces) (values KinematicsReconstructedSurfaces)]
  /\ says (finished p fs) (results_file (study_number fs)) "surface_reconstruction" [].
Proof.
  intros p fs values H. set (n := study_number fs) in *. destruct (run_is n p fs) as (_ & A & B & _ & D & _ & F). unfold finished, computed, run. fold n.
  assert (S2 : surfaces_used n p fs = values Surfaces) by (unfold surfaces_used, used; now rewrite H).
  assert (K2 : kinematics_used n p fs = values KinematicsReconstructedSurfaces) by (unfold kinematics_used, used; now rewrite H).
  rewrite S2, K2 in *. unfold loss_kept in D. rewrite H in D. split; [|auto]. rewrite F. cbn [filter all_stages]. now rewrite !H.
Qed.
Theorem resumed : forall p fs writes, no_checkpoints fs (study_number fs) ->
  let n := study_number fs in let again := remove (stopped p fs writes) (results_file n) in
  study_number again = n
  /\ computed p again = skipn (writes - 3) all_stages
  /\ (forall s, read (finished p again) (checkpoint_file s n) = read (finished p fs) (checkpoint_file s n))
  /\ read (finished p again) (stral_file n) = read (finished p fs) (stral_file n)
  /\ exists v, says (finished p again) (results_file n) "aim_point_optimization_reconstructed_model" [v]
              /\ says (finished p fs) (results_file n) "aim_point_optimization_reconstructed_model" [v].
Proof.
  intros p fs writes C n again.
  assert (R : forall s, read again (checkpoint_file s n) = if order s <=? writes then Some (Value (stage_value n p fs s)) else None).
  { intros s. unfold again. rewrite read_remove, eq_rc. destruct writes as [|w].
    - cbn. rewrite (no_checkpoint_read fs n s C). destruct s; reflexivity.
    - destruct (run_is n p fs) as (H & _). unfold stopped, run. fold n. rewrite H by lia. now rewrite (no_checkpoint_read fs n s C). }
  assert (NU : study_number again = n).
  { apply number_same. intros k. unfold taken. split; intros (name & X & ST); exists name; (split; [|exact ST]); unfold exists_file in *.
    - unfold again in X. rewrite read_remove in X. destruct (file_eqb_spec (results_file n) (ResultsDirectory, name)); [congruence|].
      assert (E : read (stopped p fs writes) (ResultsDirectory, name) = read fs (ResultsDirectory, name)).
      { unfold stopped, run. fold n. apply (last_firstn_all (fun g => read g (ResultsDirectory, name) = read fs (ResultsDirectory, name))); [auto|]. apply run_frame; [congruence| |discriminate].
        intros s E. apply (checkpoint_no_number s n k). now rewrite <- E. }
      congruence.
    - unfold again. rewrite read_remove. destruct (file_eqb_spec (results_file n) (ResultsDirectory, name)) as [E|NE].
      + exfalso. apply X. rewrite <- E. apply number_unused.
      + destruct (read fs (ResultsDirectory, name)) as [c|] eqn:E; [|contradiction]. rewrite (run_keeps p fs name c E). discriminate. }
  assert (S2 : surfaces_used n p again = reconstructed_surfaces p).
  { unfold surfaces_used, used. rewrite R. destruct (order Surfaces <=? writes); reflexivity. }
  assert (K2 : kinematics_used n p again = reconstructed_kinematics p (reconstructed_surfaces p)).
  { unfold kinematics_used, used. rewrite R, S2. cbn [stage_value]. rewrite surfaces_fresh by auto. destruct (order KinematicsReconstructedSurfaces <=? writes); reflexivity. }
  destruct (run_is n p again) as (A1 & A2 & A3 & _ & _ & _ & A4). destruct (run_is n p fs) as (B1 & B2 & B3 & _). rewrite S2, K2 in *. rewrite surfaces_fresh, kinematics_fresh in B2, B3 by auto.
  split; [auto|]. unfold computed, finished, run. rewrite NU. fold n. split; [|split; [|split]].
  - rewrite A4. cbn [filter all_stages]. rewrite !R. cbn [order]. destruct writes as [|[|[|[|[|[|w]]]]]]; try reflexivity. cbn [Nat.leb Nat.sub]; unfold all_stages; cbn [skipn]; now rewrite ?skipn_nil.
  - intros s. assert (L : forall g, firstn 9 (fst (run_numbered n p g)) = fst (run_numbered n p g)).
    { intros g. unfold run_numbered. destruct (do_stage _ KinematicsIdealSurfaces _ _ _) as [[? ?] ?]. destruct (do_stage _ Surfaces _ _ _) as [[? ?] ?]. destruct (do_stage _ KinematicsReconstructedSurfaces _ _ _) as [[? ?] ?]. reflexivity. }
    specialize (A1 9 s ltac:(lia)). specialize (B1 9 s ltac:(lia)). rewrite L in A1, B1. rewrite A1, B1, R, (no_checkpoint_read fs n s C).
    destruct s; cbn [order Nat.leb]; unfold stage_value; rewrite ?S2, ?(surfaces_fresh n p fs C); match goal with |- context [if ?b then _ else _] => destruct b end; reflexivity.
  - now rewrite A2, B2.
  - eexists. split; [exact A3|exact B3].
Qed.
End Files.
