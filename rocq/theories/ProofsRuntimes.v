(** Proofs about the runtime log. *)
From Coq Require Import List Arith String Ascii Bool Lia DecimalNat DecimalString.
From Verif Require Import ModelResults ModelRuntimes SpecResults SpecRuntimes ProofsResults.
Import ListNotations.
Local Open Scope string_scope.

Section CallInduction.
Context {A : Type} (P : call A -> Prop).
Hypothesis step : forall name inner o d, Forall P inner -> P (Call name inner o d).
Fixpoint call_induction (c : call A) : P c :=
  match c with
  | Call name inner o d => step name inner o d ((fix all (cs : list (call A)) : Forall P cs :=
      match cs with [] => Forall_nil P | c' :: cs' => Forall_cons c' (call_induction c') (all cs') end) inner)
  end.
End CallInduction.

Section Calls.
Context {A : Type}.
Implicit Types (c : call A) (cs : list (call A)).
Fixpoint run_all cs : list string * bool :=
  match cs with
  | [] => ([], true)
  | c' :: cs' =>
    match run_call c' with
    | (lines, Some _) => let '(lines', ok) := run_all cs' in (lines ++ lines', ok)%list
    | (lines, None) => (lines, false)
    end
  end.
Lemma run_call_eq : forall name inner o d, run_call (Call name inner o d) =
  match run_all inner with (lines, ok) =>
  match ok, o : option A with
    | true, Some a => ((((name ++ " started")%string :: lines) ++ [(name ++ " finished in " ++ d ++ "s")%string])%list, Some a)
    | _, _ => ((name ++ " started")%string :: lines, None)
  end end.
Proof. reflexivity. Qed.
Fixpoint first_failing cs : list string := match cs with [] => [] | c' :: cs' => match returns c' with None => running c' | Some _ => first_failing cs' end end.
Fixpoint until_failure cs : list (string * string) :=
  match cs with [] => [] | c' :: cs' => (completed c' ++ match returns c' with None => [] | Some _ => until_failure cs' end)%list end.
Definition all_return cs := forallb (fun c' => match returns c' with Some _ => true | None => false end) cs.
Lemma running_eq : forall name inner o d, running (Call name inner o d) = (first_failing inner ++ [name])%list.
Proof. reflexivity. Qed.
Lemma completed_eq : forall name inner o d, completed (Call name inner o d) =
  (until_failure inner ++ match (if all_return inner then o else None) with Some _ => [(name, d)] | None => [] end)%list.
Proof. reflexivity. Qed.
Lemma returns_eq : forall name inner o d, returns (Call name inner o d) = if all_return inner then o else None.
Proof. reflexivity. Qed.

Theorem run_returns : forall c, snd (run_call c) = returns c.
Proof.
  induction c as [name inner o d IH] using call_induction. rewrite run_call_eq, returns_eq.
  assert (E : snd (run_all inner) = all_return inner).
  { clear -IH. induction IH as [|c cs H IH IHl]; [reflexivity|]. cbn [run_all all_return forallb]. fold (all_return cs).
    destruct (run_call c) as [l [a|]]; cbn in H; rewrite <- H; [|reflexivity]. destruct (run_all cs); cbn in *. congruence. }
  destruct (run_all inner) as [l ok]. cbn in E. subst ok. destruct (all_return inner), o; reflexivity.
Qed.

Lemma words_app : forall name rest, no_space name = true -> words (name ++ String " " rest) = (name, rest).
Proof.
  induction name as [|c name IH]; intros rest H; [reflexivity|]. cbn in H. apply andb_prop in H as [Hc H]. cbn.
  destruct (Ascii.eqb c " "); [discriminate|]. now rewrite IH.
Qed.
Lemma words_started : forall name, no_space name = true -> words (name ++ " started") = (name, "started").
Proof. intros. now apply words_app. Qed.
Lemma words_finished : forall name d, no_space name = true -> words (name ++ " finished in " ++ d ++ "s") = (name, "finished in " ++ d ++ "s").
Proof. intros. now apply (words_app name ("finished in " ++ d ++ "s")). Qed.
Lemma prefix_app : forall p s, prefix p (p ++ s) = true.
Proof. induction p as [|c p IH]; intros; cbn; [now destruct s|]. destruct (ascii_dec c c); congruence. Qed.
Lemma next_started : forall st name, no_space name = true -> next_line (Some st) (name ++ " started") = Some (name :: st).
Proof. intros. unfold next_line. now rewrite words_started. Qed.
Lemma next_finished : forall st name d, no_space name = true -> next_line (Some (name :: st)) (name ++ " finished in " ++ d ++ "s") = Some st.
Proof.
  intros. unfold next_line. rewrite words_finished by assumption.
  replace (String.eqb ("finished in " ++ d ++ "s") "started") with false by reflexivity. rewrite prefix_app. now rewrite String.eqb_refl.
Qed.

Lemma no_failing : forall cs, all_return cs = true -> first_failing cs = [].
Proof. induction cs as [|c cs IH]; cbn; [reflexivity|]. destruct (returns c); [auto|discriminate]. Qed.
Lemma read_call : forall c, names_ok c = true -> forall st,
  fold_left next_line (fst (run_call c)) (Some st) = Some ((match returns c with Some _ => [] | None => running c end) ++ st)%list.
Proof.
  induction c as [name inner o d IH] using call_induction. intros Hn st. cbn [names_ok] in Hn. apply andb_prop in Hn as [Hname Hin].
  assert (E : forall st, fold_left next_line (fst (run_all inner)) (Some st) = Some (first_failing inner ++ st)%list
              /\ snd (run_all inner) = all_return inner).
  { clear -IH Hin. induction IH as [|c cs H IH IHl]; intros st; [split; reflexivity|]. cbn [forallb] in Hin. apply andb_prop in Hin as [Hc Hin].
    specialize (H Hc st). cbn [run_all all_return forallb first_failing]. fold (all_return cs). pose proof (run_returns c) as R.
    destruct (run_call c) as [l r]. cbn in R, H. rewrite <- R in *. destruct r as [a|].
    - destruct (IHl Hin st) as [I J]. destruct (run_all cs) as [l' ok]. cbn in *. rewrite fold_left_app, H. cbn. auto.
    - cbn. auto. }
  rewrite run_call_eq, returns_eq, running_eq. destruct (E (name :: st)) as [F J]. destruct (run_all inner) as [l ok]. cbn in F, J. subst ok.
  pose proof (no_failing inner) as N. destruct (all_return inner).
  - rewrite N in * by reflexivity. destruct o.
    + cbn [fst]. rewrite fold_left_app. cbn [fold_left]. rewrite next_started by assumption. rewrite F. cbn [List.app]. now apply next_finished.
    + cbn [fst fold_left]. rewrite next_started by assumption. rewrite F. reflexivity.
  - cbn [fst fold_left]. rewrite next_started by assumption. rewrite F, <- app_assoc. reflexivity.
Qed.
Theorem log_shows_failure : forall c, names_ok c = true ->
  unfinished (fst (run_call c)) = Some match returns c with Some _ => [] | None => running c end.
Proof. intros c H. unfold unfinished. rewrite read_call by assumption. now rewrite app_nil_r. Qed.

Lemma finish_app : forall l l', finish_lines (l ++ l') = (finish_lines l ++ finish_lines l')%list.
Proof. intros. unfold finish_lines. apply filter_app. Qed.
Lemma finish_started : forall name l, no_space name = true -> finish_lines ((name ++ " started")%string :: l) = finish_lines l.
Proof. intros. unfold finish_lines. cbn [filter]. now rewrite words_started. Qed.
Lemma finish_finished : forall name d, no_space name = true -> finish_lines [(name ++ " finished in " ++ d ++ "s")%string] = [(name ++ " finished in " ++ d ++ "s")%string].
Proof. intros. unfold finish_lines. cbn [filter]. rewrite words_finished by assumption. cbn [snd]. now rewrite prefix_app. Qed.
Theorem log_durations : forall c, names_ok c = true ->
  finish_lines (fst (run_call c)) = map (fun '(name, d) => name ++ " finished in " ++ d ++ "s") (completed c).
Proof.
  induction c as [name inner o d IH] using call_induction. intros Hn. cbn [names_ok] in Hn. apply andb_prop in Hn as [Hname Hin].
  assert (E : finish_lines (fst (run_all inner)) = map (fun '(name, d) => name ++ " finished in " ++ d ++ "s") (until_failure inner)
              /\ snd (run_all inner) = all_return inner).
  { clear -IH Hin. induction IH as [|c cs H IH IHl]; [split; reflexivity|]. cbn [forallb] in Hin. apply andb_prop in Hin as [Hc Hin].
    specialize (H Hc). cbn [run_all all_return forallb until_failure]. fold (all_return cs). pose proof (run_returns c) as R.
    destruct (run_call c) as [l r]. cbn [fst snd] in R, H. rewrite <- R in *. rewrite map_app. destruct r as [a|].
    - destruct (IHl Hin) as [I J]. destruct (run_all cs) as [l' ok]. cbn [fst snd] in *. rewrite finish_app, H, I. auto.
    - cbn [fst snd map]. rewrite app_nil_r. auto. }
  rewrite run_call_eq, completed_eq, map_app. destruct E as [F J]. destruct (run_all inner) as [l ok]. cbn [fst snd] in F, J. subst ok.
  destruct (all_return inner), o; cbn [fst]; cbn [List.app]; rewrite finish_started by assumption; rewrite ?finish_app, F; cbn [map]; rewrite ?app_nil_r; try reflexivity.
  now rewrite finish_finished.
Qed.
End Calls.

(** ** Reading a study's lines *)
Fixpoint lacks (c : ascii) (s : string) : bool := match s with EmptyString => true | String d s' => negb (Ascii.eqb c d) && lacks c s' end.
Lemma lacks_contains : forall c p s, lacks c s = true -> contains (String c p) s = false.
Proof.
  induction s as [|d s IH]; intros H; [reflexivity|]. cbn in H. apply andb_prop in H as [Hd H]. cbn.
  destruct (Ascii.eqb c d); [discriminate|]. auto.
Qed.
Lemma lacks_app : forall c s t, lacks c (s ++ t) = lacks c s && lacks c t.
Proof. induction s as [|d s IH]; intros; cbn; [reflexivity|]. rewrite IH. now rewrite andb_assoc. Qed.
Lemma digit_lacks : forall c u, digit_value c = None -> lacks c (NilEmpty.string_of_uint u) = true.
Proof. intros c u H. induction u; cbn; [reflexivity| ..]; rewrite IHu, andb_true_r; apply negb_true_iff, Ascii.eqb_neq; intros ->; discriminate. Qed.
Lemma decimal_lacks : forall c n, digit_value c = None -> lacks c (decimal n) = true.
Proof. intros. now apply digit_lacks. Qed.
Lemma duration_lacks : forall c s, digit_value c = None -> c <> "."%char -> printed_duration s = true -> lacks c s = true.
Proof.
  intros c s Hd Hc. induction s as [|d s IH]; intros H; [reflexivity|]. cbn in H. apply andb_prop in H as [Ha H]. cbn. rewrite (IH H), andb_true_r.
  apply negb_true_iff, Ascii.eqb_neq. intros ->. rewrite Hd in Ha. apply orb_prop in Ha as [Ha|Ha]; [apply Ascii.eqb_eq in Ha; contradiction|discriminate].
Qed.

Lemma more_digits_uint : forall u acc, more_digits (NilEmpty.string_of_uint u) acc = Nat.of_uint_acc u acc.
Proof.
  induction u; intros acc; cbn [NilEmpty.string_of_uint more_digits]; [reflexivity| ..];
  match goal with |- context [digit_value ?c] => let v := eval compute in (digit_value c) in change (digit_value c) with v end; cbv iota;
  rewrite IHu; cbn [Nat.of_uint_acc]; f_equal; rewrite Nat.tail_mul_spec; lia.
Qed.
Lemma decimal_cons : forall n, exists c s v, decimal n = String c s /\ digit_value c = Some v /\ more_digits s v = n.
Proof.
  intros n. unfold decimal. pose proof (Unsigned.of_to n) as E. unfold Nat.of_uint in E.
  destruct (Nat.to_uint n) as [|u|u|u|u|u|u|u|u|u|u] eqn:Eu; [exfalso; cbn in E; subst n; vm_compute in Eu; discriminate| ..]; cbn [NilEmpty.string_of_uint];
  match goal with |- exists c s v, String ?d ?t = _ /\ _ => exists d, t end; cbn [Nat.of_uint_acc] in E; eexists; (split; [reflexivity|]); (split; [vm_compute; reflexivity|]);
  rewrite more_digits_uint; exact E.
Qed.
Lemma digit_not_space : forall c v s, digit_value c = Some v -> skip_spaces (String c s) = String c s.
Proof.
  intros c v s H. cbn [skip_spaces existsb].
  repeat match goal with |- context [Ascii.eqb c ?d] => let E := fresh in destruct (Ascii.eqb c d) eqn:E; [apply Ascii.eqb_eq in E; subst c; discriminate|]; clear E end. reflexivity.
Qed.
Lemma number_at : forall n, leading_number (skip_spaces (String " " (decimal n))) = Some n.
Proof.
  intros n. destruct (decimal_cons n) as (c & s & v & E & Hd & Hm). rewrite E. change (skip_spaces (String " " (String c s))) with (skip_spaces (String c s)).
  rewrite (digit_not_space _ _ _ Hd). cbn [leading_number]. now rewrite Hd, Hm.
Qed.
Lemma after_app : forall p t, after p (p ++ t) = Some t.
Proof. intros. now apply after_iff. Qed.
Lemma contains_here : forall p t, contains p (p ++ t) = true.
Proof. intros. destruct (p ++ t) eqn:E; cbn [contains]; rewrite <- E, after_app; reflexivity. Qed.
Lemma search_here : forall p n, search_number p (p ++ String " " (decimal n)) = Some n.
Proof. intros. destruct (p ++ String " " (decimal n)) eqn:E; cbn [search_number]; rewrite <- E, after_app, number_at; reflexivity. Qed.

Lemma read_number_line : forall info n, read_line info ("Results_file_number: " ++ decimal n) =
  {| r_runtimes := r_runtimes info; r_number := Some n; r_heliostats := r_heliostats info |}.
Proof.
  intros. unfold read_line. change ("Results_file_number: " ++ decimal n) with ("Results_file_number:" ++ String " " (decimal n)).
  now rewrite contains_here, search_here.
Qed.
Lemma read_heliostats_line : forall info n, read_line info ("Number of heliostats: " ++ decimal n) =
  {| r_runtimes := r_runtimes info; r_number := r_number info; r_heliostats := Some n |}.
Proof.
  intros. unfold read_line. change ("Number of heliostats: " ++ decimal n) with ("Number of heliostats:" ++ String " " (decimal n)).
  rewrite contains_here, search_here. cbn [String.append contains after Ascii.eqb Bool.eqb].
  rewrite lacks_contains by now apply decimal_lacks. reflexivity.
Qed.
Lemma read_other : forall info line, no_keyword line -> read_line info line = info.
Proof. intros info line (_ & H1 & H2 & H3). unfold read_line. now rewrite H1, H2, H3. Qed.
Lemma contains_surface : forall t, no_keyword t -> no_keyword ("surface reconstruction: " ++ t).
Proof. intros t (H0 & H1 & H2 & H3). repeat split; cbn [String.append contains after Ascii.eqb Bool.eqb]; assumption. Qed.
Lemma contains_kinematics : forall t, no_keyword t -> no_keyword ("kinematics reconstruction: " ++ t).
Proof. intros t (H0 & H1 & H2 & H3). repeat split; cbn [String.append contains after Ascii.eqb Bool.eqb]; assumption. Qed.
Lemma contains_aim : forall t, no_keyword t -> no_keyword ("aim point optimization: " ++ t).
Proof. intros t (H0 & H1 & H2 & H3). repeat split; cbn [String.append contains after Ascii.eqb Bool.eqb]; assumption. Qed.
Lemma duration_line : forall d, printed_duration d = true -> no_keyword ("full_field_optimizations finished in " ++ d ++ "s").
Proof.
  intros d H.
  assert (L : forall c, digit_value c = None -> c <> "."%char -> Ascii.eqb c "s" = false -> lacks c (d ++ "s") = true).
  { intros c H1 H2 H3. rewrite lacks_app, (duration_lacks c d) by assumption. cbn. now rewrite H3. }
  repeat split; cbn [String.append contains after Ascii.eqb Bool.eqb]; apply lacks_contains, L; (reflexivity || discriminate).
Qed.
Lemma started_line : no_keyword "full_field_optimizations started". Proof. repeat split; vm_compute; reflexivity. Qed.

Lemma from_last_app : forall l l' r, from_last_start l' = Some r -> from_last_start (l ++ l') = Some r.
Proof. induction l as [|x l IH]; intros; cbn; [assumption|]. now rewrite (IH _ _ H). Qed.
Lemma from_last_none : forall l, Forall (fun x => contains "main started" x = false) l -> from_last_start l = None.
Proof. induction 1 as [|x l H _ IH]; cbn; [reflexivity|]. now rewrite IH, H. Qed.
Lemma number_line_start : forall n, contains "main started" ("Results_file_number: " ++ decimal n) = false.
Proof. intros. cbn [String.append contains after Ascii.eqb Bool.eqb]. apply lacks_contains. now apply decimal_lacks. Qed.
Lemma heliostats_line_start : forall n, contains "main started" ("Number of heliostats: " ++ decimal n) = false.
Proof. intros. cbn [String.append contains after Ascii.eqb Bool.eqb]. apply lacks_contains. now apply decimal_lacks. Qed.
Lemma main_line : contains "main started" "main started" = true. Proof. reflexivity. Qed.
Lemma read_main : forall info, read_line info "main started" = info.
Proof. intros. apply (eq_refl info). Qed.

Theorem study_read : forall before number heliostats surface kinematics aim d, no_keyword surface -> no_keyword kinematics -> no_keyword aim -> printed_duration d = true ->
  parse_runtimes (before ++ study_lines number heliostats surface kinematics aim d) =
  {| r_runtimes := []; r_number := Some number; r_heliostats := Some heliostats |}.
Proof.
  intros before number heliostats surface kinematics aim d Hs Hk Ha Hd. unfold parse_runtimes.
  set (tail := [("Results_file_number: " ++ decimal number)%string; ("Number of heliostats: " ++ decimal heliostats)%string; ("surface reconstruction: " ++ surface)%string;
     ("kinematics reconstruction: " ++ kinematics)%string; ("aim point optimization: " ++ aim)%string; "full_field_optimizations started"; ("full_field_optimizations finished in " ++ d ++ "s")%string]).
  assert (E : from_last_start (before ++ study_lines number heliostats surface kinematics aim d) = Some ("main started" :: tail)).
  { apply from_last_app. change (from_last_start ((["-----------------"] ++ "main started" :: tail)%list) = Some ("main started" :: tail)).
    apply from_last_app. cbn [from_last_start]. fold (from_last_start tail). rewrite from_last_none; [now rewrite main_line|].
    unfold tail. repeat constructor; [apply number_line_start|apply heliostats_line_start|now apply contains_surface|now apply contains_kinematics|now apply contains_aim|now apply duration_line]. }
  rewrite E. cbn [fold_left]. rewrite read_main. unfold tail. cbn [fold_left]. rewrite read_number_line, read_heliostats_line.
  rewrite (read_other _ _ (contains_surface _ Hs)), (read_other _ _ (contains_kinematics _ Hk)), (read_other _ _ (contains_aim _ Ha)), (read_other _ _ started_line), (read_other _ _ (duration_line _ Hd)).
  reflexivity.
Qed.
Theorem study_read_concurrent : forall before lines number d, printed_duration d = true ->
  parse_runtimes (before ++ lines ++ starting_lines number ++ ["full_field_optimizations finished in " ++ d ++ "s"]%string) =
  {| r_runtimes := []; r_number := Some number; r_heliostats := None |}.
Proof.
  intros before lines number d Hd. unfold parse_runtimes.
  set (tail := [("Results_file_number: " ++ decimal number)%string; ("full_field_optimizations finished in " ++ d ++ "s")%string]).
  assert (E : from_last_start (before ++ lines ++ starting_lines number ++ ["full_field_optimizations finished in " ++ d ++ "s"]%string) = Some ("main started" :: tail)).
  { apply from_last_app, from_last_app. change (from_last_start ((["-----------------"] ++ "main started" :: tail)%list) = Some ("main started" :: tail)).
    apply from_last_app. cbn [from_last_start]. fold (from_last_start tail). rewrite from_last_none; [now rewrite main_line|].
    unfold tail. repeat constructor; [apply number_line_start|now apply duration_line]. }
  rewrite E. cbn [fold_left]. rewrite read_main. unfold tail. cbn [fold_left]. rewrite read_number_line, (read_other _ _ (duration_line _ Hd)). reflexivity.
Qed.
