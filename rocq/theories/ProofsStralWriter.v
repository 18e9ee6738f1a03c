From Coq Require Import List Arith NArith Reals String Strings.Byte Lia Lra.
From Verif Require Import RealSums ModelField ModelVectors ModelHdf5 ModelStral ModelStralWriter SpecStral SpecStralWriter ProofsStral ProofsHdf5 ProofsEvaluation.
Import ListNotations.

Lemma uint_put : forall n, uint_bytes n = put_u32 n.
Proof. intros n. unfold uint_bytes, put_u32, byte_of. cbn [map]. rewrite !N.div_div by discriminate. rewrite N.div_1_r. reflexivity. Qed.

Section Writer.
Context {F : Type} (encode : F -> list byte) (decode : list byte -> F) (of_real : R -> F).
Hypothesis CODE : four_byte_floats encode decode.

Definition as_measured (width height : R) (facets : nat) (f : binp_facet F) : measured_facet F :=
  {| m_number := uint_bytes 0; m_translation := b_translation f; m_canting_e := b_canting_e f; m_canting_n := b_canting_n f;
     m_rows := map (fun '(p, n) => (p, n, of_real (power_coefficient width height (List.length (b_points f)) facets))) (combine (b_points f) (b_normals f)) |}.
Lemma pack_put : forall width height facets f, List.length (b_normals f) = List.length (b_points f) ->
  pack_facet encode of_real width height facets f = put_facet encode (as_measured width height facets f).
Proof.
  intros width height facets f L. unfold pack_facet, put_facet, as_measured. cbn [m_number m_translation m_canting_e m_canting_n m_rows].
  rewrite map_length, combine_length, L, Nat.min_id, !uint_put. unfold pack_rays. rewrite map_map.
  do 5 (apply (f_equal2 (@app byte)); [reflexivity|]). f_equal. apply map_ext. intros (p & n). unfold put_row, pack3, put_triple. destruct p as [[? ?] ?], n as [[? ?] ?]. reflexivity.
Qed.
Lemma whole_read : forall width height facets f, List.length (b_normals f) = List.length (b_points f) -> whole_facet (as_measured width height facets f) = facet_read f.
Proof.
  intros width height facets f L. unfold whole_facet, facet_read, as_measured. cbn [m_translation m_canting_e m_canting_n m_rows]. rewrite !map_map. f_equal.
  - rewrite (map_ext _ (fun x => Some (fst x))) by (intros (p & n); auto). rewrite <- (map_map fst Some). f_equal.
    revert L. generalize (b_normals f). induction (b_points f) as [|p ps IH]; intros [|n ns] L; try discriminate; auto. cbn. f_equal. apply IH. cbn in L. lia.
  - rewrite (map_ext _ (fun x => Some (snd x))) by (intros (p & n); auto). rewrite <- (map_map snd Some). f_equal.
    revert L. generalize (b_normals f). induction (b_points f) as [|p ps IH]; intros [|n ns] L; try discriminate; auto. cbn. f_equal. apply IH. cbn in L. lia.
Qed.
Theorem export_read_back : forall h, exportable h -> extract_stral decode (binp_file encode of_real (export_heliostat h)) = Some (map facet_read (gh_facets h)).
Proof.
  intros h (NF & FS). set (x := export_heliostat h).
  set (s := {| m_header := let '(e, n, u) := x_position x in (encode (of_real n) ++ encode (of_real (- e)%R) ++ encode (of_real u) ++ encode (of_real (x_width x)) ++ encode (of_real (x_height x)))%list;
    m_columns := N.of_nat (x_columns x); m_lines := N.of_nat (x_lines x); m_trailer := (encode (of_real (x_axis_offset x)) ++ encode (of_real (x_mirror_offset x)))%list;
    m_facets := map (as_measured (x_width x) (x_height x) (List.length (x_facets x))) (x_facets x) |}).
  assert (E4 : forall y, List.length (encode y) = 4) by (intros; apply CODE).
  assert (FF : fits_format s).
  { unfold fits_format, s. cbn [m_header m_columns m_lines m_trailer m_facets]. destruct (x_position x) as [[e n] u].
    split; [rewrite !app_length, !E4; reflexivity|]. split; [rewrite !app_length, !E4; reflexivity|]. unfold x, export_heliostat. cbn [x_columns x_lines x_facets]. split; [auto|]. split; [reflexivity|].
    rewrite map_length. split; [lia|]. apply Forall_forall. intros m I. apply in_map_iff in I. destruct I as (f & <- & I). destruct (FS f I) as (L & N). split; [reflexivity|].
    cbn [as_measured m_rows]. rewrite map_length, combine_length, L, Nat.min_id. auto. }
  assert (E : exists rest, binp_file encode of_real x = (put_surface encode s ++ rest)%list).
  { eexists. unfold binp_file, put_surface, s. cbn [m_header m_columns m_lines m_trailer m_facets]. destruct (x_position x) as [[e n] u]. rewrite !uint_put, map_map.
    rewrite (map_ext_in (pack_facet encode of_real (x_width x) (x_height x) (List.length (x_facets x))) (fun f => put_facet encode (as_measured (x_width x) (x_height x) (List.length (x_facets x)) f))).
    2: { intros f I. apply pack_put. apply FS. exact I. }
    rewrite <- !app_assoc. reflexivity. }
  destruct E as (rest & E). unfold x in E |- *. rewrite E. rewrite (stral_round_trip encode decode CODE) by auto. f_equal. unfold s. cbn [m_facets]. rewrite map_map. unfold x, export_heliostat. cbn [x_facets].
  apply map_ext_in. intros f I. apply whole_read. apply FS. auto.
Qed.

Lemma files_other : forall l (files : list (string * list byte)) name, ~ In name (map fst l) ->
  find_link name (fold_left (fun files '(n, h) => dict_set n (binp_file encode of_real (export_heliostat h)) files) l files) = find_link name files.
Proof.
  induction l as [|(n, h) l IH]; intros files name NI; auto. cbn [fold_left]. rewrite IH by (intros I; apply NI; right; auto). rewrite dict_find. destruct (String.eqb_spec name n) as [->|]; auto. exfalso. apply NI. left. auto.
Qed.
Theorem own_file : forall groups name h, NoDup (map fst (List.concat groups)) -> In (name, h) (List.concat groups) ->
  find_link name (stral_inputs encode of_real groups) = Some (binp_file encode of_real (export_heliostat h)).
Proof.
  intros groups name h. unfold stral_inputs. generalize (List.concat groups). intros l. generalize (@nil (string * list byte)). induction l as [|(n, g) l IH]; intros files N I; [contradiction|].
  cbn [map fst fold_left] in *. inversion N as [|? ? N1 N2]; subst. destruct I as [E|I]; [|apply IH; auto]. injection E as -> ->. rewrite files_other, dict_find, String.eqb_refl by auto. auto.
Qed.
End Writer.

Local Open Scope R_scope.
Lemma total_power_ok : forall F (x : exported F), x_facets x <> [] -> (forall f, In f (x_facets x) -> b_points f <> []) -> total_power x = x_width x * x_height x.
Proof.
  intros F x NF NP. unfold total_power. rewrite (Rsum_map_ext _ (fun _ => x_width x * x_height x / INR (List.length (x_facets x)))).
  - rewrite Rsum_map_const. field. apply not_0_INR. destruct (x_facets x); [congruence|discriminate].
  - intros f I. rewrite Rsum_map_const. unfold power_coefficient. field. split; apply not_0_INR.
    + destruct (x_facets x); [congruence|discriminate].
    + specialize (NP f I). destruct (b_points f); [congruence|discriminate].
Qed.
Lemma norm_nonneg' : forall v, 0 <= norm v. Proof. intros. unfold norm. apply sqrt_pos. Qed.
Theorem power_of_four : forall F (h : group_heliostat F) c_e c_n, gh_facets h <> [] -> (forall f, In f (gh_facets h) -> b_points f <> []) ->
  gh_cantings h = repeat (c_e, c_n) 4 ->
  total_power (export_heliostat h) = mirror_area h + / 25 * (norm c_e + norm c_n) + / 10000.
Proof.
  intros F h c_e c_n NF NP C. rewrite total_power_ok by (cbn [export_heliostat x_facets]; auto). unfold mirror_area, export_heliostat. cbn [x_width x_height]. rewrite C. cbn [repeat map fst snd]. unfold Rsum. cbn [fold_right]. field.
Qed.
Theorem power_of_one : forall F (h : group_heliostat F) c_e c_n, gh_facets h <> [] -> (forall f, In f (gh_facets h) -> b_points f <> []) ->
  gh_cantings h = [(c_e, c_n)] ->
  4 * mirror_area h < total_power (export_heliostat h).
Proof.
  intros F h c_e c_n NF NP C. rewrite total_power_ok by (cbn [export_heliostat x_facets]; auto). unfold mirror_area, export_heliostat. cbn [x_width x_height]. rewrite C. cbn [map fst snd]. unfold Rsum. cbn [fold_right].
  pose proof (norm_nonneg' c_e). pose proof (norm_nonneg' c_n). nra.
Qed.
