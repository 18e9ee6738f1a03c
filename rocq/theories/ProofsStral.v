From Coq Require Import List Arith NArith Bool Strings.Byte Lia.
From Verif Require Import ModelStral SpecStral.
Import ListNotations.

Lemma byte_of_to_N : forall n, Byte.to_N (byte_of n) = (n mod 256)%N.
Proof.
  intros n. unfold byte_of. destruct (Byte.of_N (n mod 256)) as [b|] eqn:E.
  - apply Byte.to_of_N. exact E.
  - apply Byte.of_N_None_iff in E. pose proof (N.mod_upper_bound n 256 ltac:(discriminate)). lia.
Qed.
Lemma u32_put : forall n, (n < 2 ^ 32)%N -> u32 (put_u32 n) = n.
Proof.
  intros n H. unfold put_u32, u32. rewrite !byte_of_to_N.
  assert (H4 : (n / 256 / 256 / 256 < 256)%N).
  { rewrite !N.div_div by discriminate. apply N.div_lt_upper_bound; [discriminate|]. exact H. }
  rewrite (N.mod_small (n / 256 / 256 / 256)) by exact H4.
  pose proof (N.div_mod n 256 ltac:(discriminate)). pose proof (N.div_mod (n / 256) 256 ltac:(discriminate)).
  pose proof (N.div_mod (n / 256 / 256) 256 ltac:(discriminate)). lia.
Qed.
Lemma put_u32_length : forall n, length (put_u32 n) = 4. Proof. reflexivity. Qed.

Lemma firstn_app_exact : forall A (a b : list A) n, length a = n -> firstn n (a ++ b) = a.
Proof. intros A a b n <-. rewrite firstn_app, firstn_all, Nat.sub_diag. cbn. apply app_nil_r. Qed.
Lemma skipn_app_exact : forall A (a b : list A) n, length a = n -> skipn n (a ++ b) = b.
Proof. intros A a b n <-. rewrite skipn_app, skipn_all, Nat.sub_diag. reflexivity. Qed.

(** Field [i] of a record written as a list of four byte pieces. *)
Lemma field_at : forall (pieces : list (list byte)) i p rest, Forall (fun q => length q = 4) pieces ->
  nth_error pieces i = Some p -> field_bytes i (concat pieces ++ rest) = p.
Proof.
  unfold field_bytes. induction pieces as [|q pieces IH]; intros i p rest L H; [destruct i; discriminate|].
  inversion L as [|? ? Lq L']; subst. destruct i as [|i].
  - cbn in H. injection H as <-. rewrite Nat.mul_0_r. cbn [skipn concat]. rewrite <- app_assoc. apply firstn_app_exact. exact Lq.
  - cbn [concat]. rewrite <- app_assoc. replace (4 * S i) with (length q + 4 * i) by lia.
    rewrite skipn_app. rewrite skipn_all2 by lia. cbn [app]. replace (length q + 4 * i - length q) with (4 * i) by lia.
    apply IH; auto.
Qed.

Section RoundTrip.
Context {F : Type} (encode : F -> list byte) (decode : list byte -> F) (CODE : four_byte_floats encode decode).

Lemma enc4 : forall x, length (encode x) = 4. Proof. intros x. apply CODE. Qed.
Lemma dec : forall x, decode (encode x) = x. Proof. intros x. apply CODE. Qed.

Lemma put_row_length : forall r, length (put_row encode r) = point_size.
Proof. intros [[[[a b] c] [[d e] f]] g]. unfold put_row, put_triple. rewrite !app_length, !enc4. reflexivity. Qed.
Lemma put_rows_length : forall rows, length (concat (map (put_row encode) rows)) = point_size * length rows.
Proof. induction rows as [|r rows IH]; cbn [map concat length]; [lia|]. rewrite app_length, put_row_length, IH. lia. Qed.

Definition facet_pieces (f : measured_facet F) : list (list byte) :=
  let '(a1, a2, a3) := m_translation f in let '(b1, b2, b3) := m_canting_e f in let '(c1, c2, c3) := m_canting_n f in
  [m_number f; encode a1; encode a2; encode a3; encode b1; encode b2; encode b3; encode c1; encode c2; encode c3;
   put_u32 (N.of_nat (length (m_rows f)))].
Lemma put_facet_pieces : forall f, put_facet encode f = concat (facet_pieces f) ++ concat (map (put_row encode) (m_rows f)).
Proof.
  intros [m [[a1 a2] a3] [[b1 b2] b3] [[c1 c2] c3] rows]. unfold put_facet, facet_pieces, put_triple.
  cbn [m_number m_translation m_canting_e m_canting_n m_rows concat]. rewrite <- !app_assoc. reflexivity.
Qed.
Lemma facet_pieces_four : forall f, length (m_number f) = 4 -> Forall (fun q => length q = 4) (facet_pieces f).
Proof.
  intros [m [[a1 a2] a3] [[b1 b2] b3] [[c1 c2] c3] rows] H. unfold facet_pieces. cbn [m_number m_translation m_canting_e m_canting_n m_rows] in *.
  repeat constructor; auto using enc4.
Qed.
Lemma concat_four : forall pieces : list (list byte), Forall (fun q => length q = 4) pieces -> length (concat pieces) = 4 * length pieces.
Proof. induction 1 as [|q l H _ IH]; cbn [concat length]; [reflexivity|]. rewrite app_length, H, IH. lia. Qed.
Lemma header_length : forall f, length (m_number f) = 4 -> length (concat (facet_pieces f)) = facet_header_size.
Proof.
  intros f H. rewrite concat_four by (apply facet_pieces_four, H).
  destruct f as [m [[a1 a2] a3] [[b1 b2] b3] [[c1 c2] c3] rows]. reflexivity.
Qed.
Lemma put_facet_length : forall f, length (m_number f) = 4 -> length (put_facet encode f) = facet_header_size + point_size * length (m_rows f).
Proof. intros f H. rewrite put_facet_pieces, app_length, header_length, put_rows_length by exact H. reflexivity. Qed.

Lemma header_read : forall f, length (m_number f) = 4 -> (N.of_nat (length (m_rows f)) < 2 ^ 32)%N -> let h := concat (facet_pieces f) in
  triple_at decode 1 h = m_translation f /\ triple_at decode 4 h = m_canting_e f /\ triple_at decode 7 h = m_canting_n f
  /\ N.to_nat (u32 (field_bytes 10 h)) = length (m_rows f).
Proof.
  intros f H B h. assert (P : forall i p, nth_error (facet_pieces f) i = Some p -> field_bytes i h = p).
  { intros i p E. unfold h. rewrite <- (app_nil_r (concat (facet_pieces f))). apply field_at; auto. apply facet_pieces_four, H. }
  destruct f as [m [[a1 a2] a3] [[b1 b2] b3] [[c1 c2] c3] rows]. unfold facet_pieces in P.
  cbn [m_number m_translation m_canting_e m_canting_n m_rows] in *. unfold triple_at, float_at. cbn [Nat.add].
  rewrite (P 1 _ eq_refl), (P 2 _ eq_refl), (P 3 _ eq_refl), (P 4 _ eq_refl), (P 5 _ eq_refl), (P 6 _ eq_refl), (P 7 _ eq_refl),
    (P 8 _ eq_refl), (P 9 _ eq_refl), (P 10 _ eq_refl), !dec, u32_put by exact B.
  rewrite Nnat.Nat2N.id. auto.
Qed.

Lemma row_read : forall r, triple_at decode 0 (put_row encode r) = fst (fst r) /\ triple_at decode 3 (put_row encode r) = snd (fst r).
Proof.
  intros [[[[a b] c] [[d e] f]] g].
  assert (E : put_row encode (a, b, c, (d, e, f), g) = concat [encode a; encode b; encode c; encode d; encode e; encode f; encode g] ++ []).
  { unfold put_row, put_triple. cbn [concat]. rewrite <- !app_assoc, !app_nil_r. reflexivity. }
  rewrite E. unfold triple_at, float_at. cbn [Nat.add].
  assert (L : Forall (fun q => length q = 4) [encode a; encode b; encode c; encode d; encode e; encode f; encode g])
    by (repeat constructor; auto using enc4).
  rewrite (field_at _ 0 _ _ L eq_refl), (field_at _ 1 _ _ L eq_refl), (field_at _ 2 _ _ L eq_refl), (field_at _ 3 _ _ L eq_refl),
    (field_at _ 4 _ _ L eq_refl), (field_at _ 5 _ _ L eq_refl), !dec. auto.
Qed.

Lemma chunk_at : forall size (chunks : list (list byte)) rest i c, Forall (fun q => length q = size) chunks -> nth_error chunks i = Some c ->
  firstn size (skipn (size * i) (concat chunks ++ rest)) = c.
Proof.
  intros size. induction chunks as [|q chunks IH]; intros rest i c L H; [destruct i; discriminate|].
  inversion L as [|? ? Lq L']; subst. destruct i as [|i].
  - cbn in H. injection H as <-. rewrite Nat.mul_0_r. cbn [skipn concat]. rewrite <- app_assoc. apply firstn_app_exact. reflexivity.
  - cbn [concat]. rewrite <- app_assoc. replace (length q * S i) with (length q + length q * i) by lia.
    rewrite skipn_app. rewrite skipn_all2 by lia. cbn [app].
    replace (length q + length q * i - length q) with (length q * i) by lia. apply IH; auto.
Qed.
Lemma map_seq_nth : forall A (f : nat -> A) (l : list A) (d : A), (forall i a, nth_error l i = Some a -> f i = a) -> map f (seq 0 (length l)) = l.
Proof.
  intros A f l d H. apply nth_ext with (d := d) (d' := d); [rewrite map_length, seq_length; reflexivity|].
  rewrite map_length, seq_length. intros i Hi. rewrite (nth_indep _ d (f 0)) by (rewrite map_length, seq_length; exact Hi).
  rewrite map_nth, seq_nth by exact Hi. cbn. apply H. apply nth_error_nth'. exact Hi.
Qed.
Lemma iter_unpack_rows : forall rows : list (F * F * F * (F * F * F) * F),
  iter_unpack point_size (concat (map (put_row encode) rows)) = Some (map (put_row encode) rows).
Proof.
  intros rows. unfold iter_unpack. rewrite put_rows_length. rewrite Nat.mul_comm, Nat.mod_mul by discriminate.
  rewrite Nat.div_mul by discriminate. cbn [Nat.eqb]. f_equal. rewrite <- (map_length (put_row encode) rows). apply (map_seq_nth _ _ _ []) .
  intros i c H. rewrite <- (app_nil_r (concat _)). apply chunk_at; auto. apply Forall_forall. intros q Q. apply in_map_iff in Q.
  destruct Q as (r & <- & _). apply put_row_length.
Qed.

Lemma rows_read : forall rows, map (triple_at decode 0) (map (put_row encode) rows) = map (fun r => fst (fst r)) rows
  /\ map (triple_at decode 3) (map (put_row encode) rows) = map (fun r => snd (fst r)) rows.
Proof. intros rows. rewrite !map_map. split; apply map_ext; intros r; apply row_read. Qed.

Lemma iter_unpack_bad : forall data, length data mod point_size <> 0 -> iter_unpack point_size data = None.
Proof. intros data H. unfold iter_unpack. apply Nat.eqb_neq in H. rewrite H. reflexivity. Qed.

Lemma read_record_short : forall n file, length file < n -> read_record n file = None.
Proof.
  intros n file H. unfold read_record. rewrite firstn_length, Nat.min_r by lia. apply Nat.ltb_lt in H. rewrite H. reflexivity.
Qed.
Lemma read_record_app : forall n a b, length a = n -> read_record n (a ++ b) = Some (a, b).
Proof.
  intros n a b H. unfold read_record. rewrite firstn_app_exact, skipn_app_exact by exact H. rewrite H, Nat.ltb_irrefl. reflexivity.
Qed.

(** A facet of which [k] bytes of the rows are left. *)
Lemma read_facet_data : forall f data, length (m_number f) = 4 -> (N.of_nat (length (m_rows f)) < 2 ^ 32)%N ->
  read_facet decode (concat (facet_pieces f) ++ data) =
  match iter_unpack point_size (firstn (point_size * length (m_rows f)) data) with
  | None => None
  | Some rows => Some ({| fd_translation := m_translation f; fd_canting_e := m_canting_e f; fd_canting_n := m_canting_n f;
      fd_points := fill_rows (length (m_rows f)) (map (triple_at decode 0) rows);
      fd_normals := fill_rows (length (m_rows f)) (map (triple_at decode 3) rows) |}, skipn (point_size * length (m_rows f)) data)
  end.
Proof.
  intros f data H B. unfold read_facet. rewrite read_record_app by (apply header_length, H).
  destruct (header_read f H B) as (E1 & E2 & E3 & E4). rewrite E1, E2, E3, E4. reflexivity.
Qed.

Lemma fill_known : forall A (l : list A) n j, length l = n -> fill_rows n (firstn j l) = known j l.
Proof.
  intros A l n j <-. unfold fill_rows, known. rewrite firstn_length. f_equal. f_equal. lia.
Qed.
Lemma known_all : forall A (l : list A), known (length l) l = map Some l.
Proof. intros A l. unfold known. rewrite firstn_all, Nat.sub_diag. apply app_nil_r. Qed.
Lemma facet_with_all : forall f : measured_facet F, facet_with (length (m_rows f)) f = whole_facet f.
Proof.
  intros f. unfold facet_with, whole_facet. f_equal.
  - rewrite <- (map_length (fun r => fst (fst r)) (m_rows f)), known_all, map_map. reflexivity.
  - rewrite <- (map_length (fun r => snd (fst r)) (m_rows f)), known_all, map_map. reflexivity.
Qed.

Lemma read_facet_whole : forall f rest, length (m_number f) = 4 -> (N.of_nat (length (m_rows f)) < 2 ^ 32)%N ->
  read_facet decode (put_facet encode f ++ rest) = Some (whole_facet f, rest).
Proof.
  intros f rest H B. rewrite put_facet_pieces, <- app_assoc, read_facet_data by auto.
  rewrite firstn_app_exact, skipn_app_exact by apply put_rows_length. rewrite iter_unpack_rows.
  destruct (rows_read (m_rows f)) as [-> ->]. do 2 f_equal. rewrite <- facet_with_all. unfold facet_with. f_equal.
  - rewrite <- (fill_known _ _ (length (m_rows f))) by apply map_length. rewrite firstn_all2 by (rewrite map_length; lia). reflexivity.
  - rewrite <- (fill_known _ _ (length (m_rows f))) by apply map_length. rewrite firstn_all2 by (rewrite map_length; lia). reflexivity.
Qed.

Lemma firstn_rows : forall rows j, firstn (point_size * j) (concat (map (put_row encode) rows)) = concat (map (put_row encode) (firstn j rows)).
Proof.
  induction rows as [|r rows IH]; intros [|j]; try (rewrite ?Nat.mul_0_r; cbn [firstn map concat]; rewrite ?firstn_nil; reflexivity).
  cbn [firstn map concat]. rewrite firstn_app, put_row_length, firstn_all2 by (rewrite put_row_length; lia). f_equal.
  replace (point_size * S j - point_size) with (point_size * j) by lia. apply IH.
Qed.

(** A facet cut after [k] bytes. *)
Lemma read_facet_cut : forall f k, length (m_number f) = 4 -> (N.of_nat (length (m_rows f)) < 2 ^ 32)%N -> k < length (put_facet encode f) ->
  forall out, read_facet decode (firstn k (put_facet encode f)) = Some out <->
    exists j, j < length (m_rows f) /\ k = facet_header_size + point_size * j /\ out = (facet_with j f, []).
Proof.
  intros f k H B K out. rewrite put_facet_length in K by exact H. destruct (Nat.lt_ge_cases k facet_header_size) as [S|S].
  - assert (N : read_facet decode (firstn k (put_facet encode f)) = None).
    { unfold read_facet. rewrite read_record_short; [reflexivity|]. rewrite firstn_length. lia. }
    rewrite N. split; [discriminate|]. intros (j & _ & -> & _). lia.
  - rewrite put_facet_pieces, firstn_app, header_length by exact H. rewrite firstn_all2 by (rewrite header_length; auto).
    rewrite read_facet_data by auto. set (m := k - facet_header_size).
    assert (LD : length (firstn m (concat (map (put_row encode) (m_rows f)))) = m) by (rewrite firstn_length, put_rows_length; lia).
    rewrite firstn_all2 by (rewrite LD; lia). rewrite skipn_all2 by (rewrite LD; lia).
    destruct (Nat.eq_dec (m mod point_size) 0) as [E|E].
    + pose (j := m / point_size). assert (EM : m = point_size * j) by (pose proof (Nat.div_mod m point_size ltac:(discriminate)); unfold j; lia).
      assert (J : j < length (m_rows f)) by (unfold point_size in *; lia).
      rewrite EM, firstn_rows, iter_unpack_rows. destruct (rows_read (firstn j (m_rows f))) as [-> ->].
      rewrite <- !firstn_map, !fill_known by apply map_length. split.
      * intros O. injection O as <-. exists j. repeat split; auto. lia.
      * intros (j' & _ & K' & ->). assert (j' = j) by (unfold point_size in *; lia). subst j'. reflexivity.
    + rewrite iter_unpack_bad by (rewrite LD; exact E). split; [discriminate|]. intros (j & _ & K' & _). exfalso. apply E.
      unfold m. rewrite K'. replace (facet_header_size + point_size * j - facet_header_size) with (j * point_size) by lia.
      apply Nat.mod_mul. discriminate.
Qed.

Lemma read_facets_whole : forall fs rest, Forall (fun f => length (m_number f) = 4 /\ (N.of_nat (length (m_rows f)) < 2 ^ 32)%N) fs ->
  read_facets decode (length fs) (concat (map (put_facet encode) fs) ++ rest) = Some (map whole_facet fs).
Proof.
  induction fs as [|f fs IH]; intros rest H; [reflexivity|]. inversion H as [|? ? [H1 H2] H']; subst.
  cbn [length map concat read_facets]. rewrite <- app_assoc, read_facet_whole by auto. rewrite IH by exact H'. reflexivity.
Qed.

Lemma read_facets_nil : forall n, read_facets (F:=F) decode (S n) [] = None.
Proof. intros n. reflexivity. Qed.

Lemma read_facets_cut : forall fs k, Forall (fun f => length (m_number f) = 4 /\ (N.of_nat (length (m_rows f)) < 2 ^ 32)%N) fs ->
  k < length (concat (map (put_facet encode) fs)) ->
  forall out, read_facets decode (length fs) (firstn k (concat (map (put_facet encode) fs))) = Some out <->
    exists front last j, fs = front ++ [last] /\ j < length (m_rows last)
      /\ k + point_size * (length (m_rows last) - j) = length (concat (map (put_facet encode) fs))
      /\ out = map whole_facet front ++ [facet_with j last].
Proof.
  induction fs as [|f fs IH]; intros k H K out; [cbn in K; lia|]. inversion H as [|? ? [H1 H2] H']; subst.
  cbn [length map concat read_facets] in *. rewrite app_length in *. rewrite firstn_app.
  destruct (Nat.lt_ge_cases k (length (put_facet encode f))) as [L|L].
  - replace (k - length (put_facet encode f)) with 0 by lia. cbn [firstn]. rewrite app_nil_r.
    pose proof (read_facet_cut f k H1 H2 L) as CUT. pose proof (put_facet_length f H1) as LF. destruct fs as [|g fs'].
    + cbn [length map concat read_facets]. split.
      * destruct (read_facet decode (firstn k (put_facet encode f))) as [[d rest]|] eqn:E; [|discriminate].
        intros O. injection O as <-. destruct (proj1 (CUT _) eq_refl) as (j & J & -> & D). injection D as -> ->.
        exists [], f, j. cbn [app map length]. repeat split; auto. lia.
      * intros (front & last & j & EQ & J & KK & ->). destruct front as [|x front]; [|destruct front; discriminate].
        cbn in EQ. injection EQ as <-. cbn [map concat length] in KK.
        rewrite (proj2 (CUT (facet_with j f, []))); [reflexivity|]. exists j. repeat split; auto. unfold point_size in *. lia.
    + split.
      * destruct (read_facet decode (firstn k (put_facet encode f))) as [[d rest]|] eqn:E; [|discriminate].
        destruct (proj1 (CUT _) eq_refl) as (j & J & -> & D). injection D as -> ->. cbn [length]. rewrite read_facets_nil. discriminate.
      * intros (front & last & j & EQ & J & KK & ->). exfalso.
        inversion H' as [|? ? [G1 G2] G']; subst.
        assert (LAST : exists front', g :: fs' = front' ++ [last]).
        { destruct front as [|x front]; [discriminate|]. injection EQ as _ EQ. exists front. exact EQ. }
        destruct LAST as [front' EL]. rewrite EL in KK. rewrite map_app, concat_app, app_length in KK. cbn [map concat] in KK.
        rewrite app_nil_r in KK. assert (Hl : length (m_number last) = 4).
        { assert (IN : In last (g :: fs')) by (rewrite EL; apply in_or_app; right; left; reflexivity).
          apply (proj1 (Forall_forall _ _) H' _ IN). }
        rewrite (put_facet_length last Hl) in KK. unfold facet_header_size, point_size in *. lia.
  - rewrite firstn_all2 by exact L. rewrite read_facet_whole by auto.
    pose proof (IH (k - length (put_facet encode f)) H' ltac:(lia)) as I. split.
    + destruct (read_facets decode (length fs) (firstn (k - length (put_facet encode f)) (concat (map (put_facet encode) fs)))) as [o|] eqn:E; [|discriminate].
      intros O. injection O as <-. destruct (proj1 (I _) eq_refl) as (front & last & j & -> & J & KK & ->).
      exists (f :: front), last, j. repeat split; auto. lia.
    + intros (front & last & j & EQ & J & KK & ->). destruct front as [|x front].
      * cbn in EQ. injection EQ as <- ->. exfalso. cbn [map concat length] in K. lia.
      * injection EQ as <- ->.
        rewrite (proj2 (I (map whole_facet front ++ [facet_with j last]))); [reflexivity|]. exists front, last, j. repeat split; auto. lia.
Qed.

Definition surface_pieces (s : measured_surface F) : list byte := m_header s ++ put_u32 (m_columns s) ++ put_u32 (m_lines s) ++ m_trailer s.
Lemma surface_header : forall s, fits_format s -> length (surface_pieces s) = surface_header_size
  /\ u32 (field_bytes 5 (surface_pieces s)) = m_columns s /\ u32 (field_bytes 6 (surface_pieces s)) = m_lines s.
Proof.
  intros s (H1 & H2 & C & L & _). unfold surface_pieces. split; [|split].
  - rewrite !app_length, H1, H2. reflexivity.
  - unfold field_bytes. rewrite skipn_app_exact by exact H1. rewrite firstn_app_exact by reflexivity. apply u32_put, C.
  - unfold field_bytes. replace (m_header s ++ put_u32 (m_columns s) ++ put_u32 (m_lines s) ++ m_trailer s)
      with ((m_header s ++ put_u32 (m_columns s)) ++ put_u32 (m_lines s) ++ m_trailer s) by apply app_assoc_reverse.
    rewrite skipn_app_exact by (rewrite app_length, H1; reflexivity). rewrite firstn_app_exact by reflexivity. apply u32_put, L.
Qed.
Lemma put_surface_split : forall s, put_surface encode s = surface_pieces s ++ concat (map (put_facet encode) (m_facets s)).
Proof. intros s. unfold put_surface, surface_pieces. rewrite <- !app_assoc. reflexivity. Qed.

Lemma extract_data : forall s data, fits_format s -> extract_stral decode (surface_pieces s ++ data) = read_facets decode (length (m_facets s)) data.
Proof.
  intros s data W. destruct (surface_header s W) as (L & E5 & E6). unfold extract_stral. rewrite read_record_app by exact L.
  rewrite E5, E6. destruct W as (_ & _ & _ & _ & E & _). rewrite E, Nnat.Nat2N.id. reflexivity.
Qed.

Theorem stral_round_trip : forall s rest, fits_format s -> extract_stral decode (put_surface encode s ++ rest) = Some (map whole_facet (m_facets s)).
Proof.
  intros s rest W. rewrite put_surface_split, <- app_assoc, extract_data by exact W. apply read_facets_whole. apply W.
Qed.

Theorem stral_truncated : forall s k, fits_format s -> k < length (put_surface encode s) ->
  forall out, extract_stral decode (firstn k (put_surface encode s)) = Some out <->
    exists front last j, m_facets s = front ++ [last] /\ j < length (m_rows last)
      /\ k + 28 * (length (m_rows last) - j) = length (put_surface encode s)
      /\ out = map whole_facet front ++ [facet_with j last].
Proof.
  intros s k W K out. destruct (surface_header s W) as (L & _ & _). rewrite put_surface_split in *. rewrite app_length in *.
  rewrite L in *. pose proof W as (_ & _ & _ & _ & _ & WF). destruct (Nat.lt_ge_cases k surface_header_size) as [S|S].
  - split.
    + unfold extract_stral. rewrite read_record_short by (rewrite firstn_length, app_length, L; lia). discriminate.
    + intros (front & last & j & EQ & J & KK & ->). exfalso. rewrite EQ, map_app, concat_app, app_length in KK. cbn [map concat] in KK.
      rewrite app_nil_r in KK. rewrite put_facet_length in KK.
      * unfold point_size in KK. lia.
      * assert (IN : In last (m_facets s)) by (rewrite EQ; apply in_or_app; right; left; reflexivity).
        apply (proj1 (Forall_forall _ _) WF _ IN).
  - rewrite firstn_app, L, firstn_all2 by lia. rewrite extract_data by exact W. rewrite read_facets_cut; auto; [|lia].
    change point_size with 28. split; intros (front & last & j & EQ & J & KK & EO); exists front, last, j; repeat split; auto; lia.
Qed.

(** A cut file that is accepted. *)
Theorem stral_cut_accepted : forall s front last, fits_format s -> m_facets s = front ++ [last] -> m_rows last <> [] ->
  exists k out, k < length (put_surface encode s) /\ extract_stral decode (firstn k (put_surface encode s)) = Some out
    /\ exists d, In d out /\ In None (fd_points d) /\ In None (fd_normals d).
Proof.
  intros s front last W EQ NE. assert (NN : 0 < length (m_rows last)) by (destruct (m_rows last); [congruence|cbn; lia]).
  assert (WF := W). destruct WF as (_ & _ & _ & _ & _ & WF).
  assert (Hl : length (m_number last) = 4).
  { assert (IN : In last (m_facets s)) by (rewrite EQ; apply in_or_app; right; left; reflexivity).
    apply (proj1 (Forall_forall _ _) WF _ IN). }
  assert (LL : 28 * length (m_rows last) <= length (put_surface encode s)).
  { rewrite put_surface_split, app_length, EQ, map_app, concat_app, app_length. cbn [map concat]. rewrite app_nil_r.
    rewrite put_facet_length by exact Hl. unfold point_size. lia. }
  exists (length (put_surface encode s) - 28 * (length (m_rows last) - 0)), (map whole_facet front ++ [facet_with 0 last]).
  split; [lia|]. split.
  - apply stral_truncated; auto; [lia|]. exists front, last, 0. repeat split; auto. lia.
  - exists (facet_with 0 last). split; [apply in_or_app; right; left; reflexivity|].
    unfold facet_with, known. cbn [fd_points fd_normals firstn map app]. rewrite !map_length, Nat.sub_0_r.
    destruct (length (m_rows last)); [lia|]. split; left; reflexivity.
Qed.
End RoundTrip.
