(** Lemmas for words, values and atoms of structure texts. *)
From Coq Require Import Ascii String List Arith ZArith Reals Bool Lia Lra.
From Verif Require Import Base MathModel MetricModel MetricSpec ParserModel ParserLex PdfModel PdfSpec DataModel DataSpec DataProof ElementTable ScatModel ScatSpec ScatProof FmtModel FmtSpec FmtProof FmtGen StruModel StruSpec.
Import ListNotations.
Local Open Scope R_scope.

(** * words *)
Lemma span_word_app w r : Forall (fun c => is_space c = false) w -> starts_blank r -> span_word (w ++ r) = (w, r).
Proof.
  intros F S. induction F as [|c w H F IH]; cbn [app span_word].
  - destruct r as [|c r]; cbn [span_word]; auto. simpl in S. rewrite S. auto.
  - rewrite H, IH. auto.
Qed.
Lemma skipws_word w r : wordy w -> skipws (w ++ r) = w ++ r.
Proof. intros [N F]. destruct w as [|c w]; [congruence|]. inversion F; subst. simpl. rewrite H1. auto. Qed.
Lemma get_word_app b w r : blanks b -> wordy w -> starts_blank r -> get_word (b ++ w ++ r) = Some (w, r).
Proof.
  intros B W S. unfold get_word. rewrite skipws_blanks, skipws_word by auto. destruct W as [N F]. rewrite span_word_app by auto.
  destruct w; [congruence|]. auto.
Qed.
Lemma get_word_first l w r : first_word l w r -> get_word l = Some (w, r).
Proof. intros (b & -> & B & W & S). apply get_word_app; auto. Qed.
Lemma skipws_split l : exists b, l = b ++ skipws l /\ blanks b.
Proof.
  induction l as [|c l (b & E & B)]. exists []; simpl; split; auto. constructor.
  cbn [skipws]. destruct (is_space c) eqn:H.
  - exists (c :: b). cbn [app]. rewrite <- E. split; auto. constructor; auto.
  - exists []. split; auto. constructor.
Qed.
Lemma skipws_head l : match skipws l with [] => True | c :: _ => is_space c = false end.
Proof. induction l as [|c l IH]; cbn [skipws]; auto. destruct (is_space c) eqn:E; auto. Qed.
Lemma span_word_split l w r : span_word l = (w, r) -> l = w ++ r /\ Forall (fun c => is_space c = false) w /\ starts_blank r.
Proof.
  revert w r; induction l as [|c l IH]; intros w r; cbn [span_word].
  - intros E; inversion E; subst. repeat split; auto.
  - destruct (is_space c) eqn:H.
    + intros E; inversion E; subst. repeat split; auto.
    + destruct (span_word l) as [w' q]. intros E; inversion E; subst. destruct (IH _ _ eq_refl) as (-> & F & S). repeat split; auto.
Qed.
Lemma get_word_some l w r : get_word l = Some (w, r) -> first_word l w r.
Proof.
  unfold get_word. destruct (skipws_split l) as (b & E & B). destruct (span_word (skipws l)) as [w' r'] eqn:S.
  apply span_word_split in S as (Es & F & St). destruct w' as [|c w']; [discriminate|]. intros Q; inversion Q; subst.
  exists b. rewrite Es in E. repeat split; auto. discriminate.
Qed.
Lemma get_word_none l : get_word l = None -> blanks l.
Proof.
  unfold get_word. destruct (skipws_split l) as (b & E & B). pose proof (skipws_head l) as H. destruct (skipws l) as [|c q].
  - intros _. rewrite E, app_nil_r. auto.
  - cbn [span_word]. rewrite H. destruct (span_word q). discriminate.
Qed.
Lemma get_word_blanks l : blanks l -> get_word l = None.
Proof. intros B. unfold get_word. rewrite <- (app_nil_r l), skipws_blanks by auto. reflexivity. Qed.
Lemma first_word_fun l w r w' r' : first_word l w r -> first_word l w' r' -> w = w' /\ r = r'.
Proof. intros A B. apply get_word_first in A, B. rewrite A in B. inversion B; auto. Qed.
Lemma first_word_blank l w r : first_word l w r -> ~ blanks l.
Proof. intros A B. apply get_word_first in A. rewrite get_word_blanks in A by auto. discriminate. Qed.

(** * values *)
Lemma numeral_head n : numeral_ok n -> exists c q, print_numeral n = c :: q /\ is_space c = false /\ c <> ","%char.
Proof.
  intros (Fi & Ff & Ne & He). unfold print_numeral. destruct (nu_sign n) as [[|]|]; simpl; eauto.
  - eexists _, _; split; [reflexivity|]. repeat split; discriminate.
  - eexists _, _; split; [reflexivity|]. repeat split; discriminate.
  - pose proof (pd_digit _ Fi) as P. destruct (print_digits (nu_int n)) as [|c q] eqn:E; simpl.
    + destruct (nu_int n); [|discriminate]. destruct (nu_frac n); simpl in *; [|congruence].
      eexists _, _; split; [reflexivity|]. repeat split; discriminate.
    + inversion P; subst. destruct (digit_not _ H1) as (?&?&?&?&?&?). eexists _, _; split; [reflexivity|]. split; auto. intros ->. discriminate.
Qed.
Lemma int_head n : int_ok n -> exists c q, print_int n = c :: q /\ is_space c = false /\ c <> ","%char.
Proof.
  intros (Ne & F & _). unfold print_int. destruct n as [[[|]|] d]; simpl in *; eauto.
  - eexists _, _; split; [reflexivity|]. repeat split; discriminate.
  - eexists _, _; split; [reflexivity|]. repeat split; discriminate.
  - pose proof (pd_digit _ F) as P. destruct (print_digits d) as [|c q] eqn:E; simpl.
    + destruct d; [congruence|discriminate].
    + inversion P; subst. destruct (digit_not _ H1) as (?&?&?&?&?&?). eexists _, _; split; [reflexivity|]. split; auto. intros ->. discriminate.
Qed.
Lemma sep_after s c q : sep s -> is_space c = false -> c <> ","%char -> exists b, blanks b /\ after_delim (s ++ c :: q) = b ++ c :: q.
Proof.
  intros S Sp Nc. unfold after_delim. destruct S as [[B _]|(b1 & b2 & -> & B1 & B2)].
  - exists []. rewrite skipws_blanks by auto. simpl. rewrite Sp. destruct (Ascii.eqb_spec c ","); [congruence|]. split; auto. constructor.
  - exists b2. rewrite <- app_assoc. rewrite skipws_blanks by auto. simpl. auto.
Qed.
Lemma sep_stops s r : sep s -> stops (s ++ r).
Proof.
  intros [[B N]|(b1 & b2 & -> & B1 & B2)].
  - apply blank_stops. destruct s; [congruence|]. inversion B; subst. auto.
  - destruct b1 as [|c b1]; simpl. repeat split; discriminate. apply (blank_stops (c :: b1 ++ ","%char :: b2 ++ r)). inversion B1; auto.
Qed.
Lemma stops_int r : stops r -> int_stops r. Proof. destruct r; simpl; tauto. Qed.
Lemma dget_print b n r : blanks b -> numeral_ok n -> stops r -> dget (b ++ print_numeral n ++ r) = Some (dbl_of n, after_delim r).
Proof. intros B N S. unfold dget. rewrite scan_dbl_print by auto. auto. Qed.
Lemma iget_print b n r : blanks b -> int_ok n -> int_stops r -> iget (b ++ print_int n ++ r) = Some (int_value n, after_delim r).
Proof.
  intros B (Ne & F & Fit) S. unfold iget, scan_int. rewrite skipws_blanks by auto.
  destruct (int_head n ltac:(repeat split; auto; apply Fit)) as (c & q & E & Sp & _).
  assert (skipws (print_int n ++ r) = print_int n ++ r) as ->. { rewrite E. simpl. rewrite Sp. auto. }
  destruct n as [s d]. unfold print_int in *. cbn [fst snd] in *. rewrite <- app_assoc. pose proof (pd_digit _ F) as P.
  rewrite sign_print.
  2:{ destruct (print_digits d) as [|c' q'] eqn:Ed. destruct d; [congruence|discriminate]. inversion P; subst. destruct (digit_not _ H1) as (?&?&_). simpl. auto. }
  rewrite span_digits_app by (auto; destruct r; auto).
  destruct (print_digits d) as [|c' q'] eqn:Ed. destruct d; [congruence|discriminate]. rewrite <- Ed, digits_val_pd by auto.
  unfold int_value, int_fits in *. cbn [fst snd] in *.
  replace (if match s with Some true => true | _ => false end then (- whole_z d)%Z else whole_z d) with (sign_of s * whole_z d)%Z by (destruct s as [[|]|]; cbn [sign_of]; lia).
  destruct (Z.leb_spec (-2147483648) (sign_of s * whole_z d)); [|lia]. destruct (Z.leb_spec (sign_of s * whole_z d) 2147483647); [|lia]. auto.
Qed.
Lemma row_text_cons {A} (pr : A -> text) b x row : row_text pr ((b, x) :: row) = b ++ pr x ++ row_text pr row.
Proof. unfold row_text. cbn [map concat fst snd]. rewrite <- app_assoc. auto. Qed.

Lemma dgets_more row tr b : blanks b -> forall n, numeral_ok n -> Forall (fun y => sep (fst y)) row -> Forall (fun x => numeral_ok (snd x)) row -> stops tr ->
  dgets (S (length row)) (b ++ print_numeral n ++ row_text print_numeral row ++ tr) = Some (dbl_of n :: map (fun x => dbl_of (snd x)) row, after_delim tr).
Proof.
  intros B n N S F T. revert b n B N. induction row as [|[s m] row IH]; intros b n B N.
  - cbn [length dgets map]. unfold row_text. cbn [map concat app]. rewrite dget_print by auto. auto.
  - inversion S; inversion F; subst. cbn [fst snd] in *. rewrite row_text_cons, <- !app_assoc. cbn [dgets length map].
    rewrite dget_print by (auto using sep_stops). destruct (numeral_head m H5) as (c & q & E & Sp & Nc).
    destruct (sep_after s c (q ++ row_text print_numeral row ++ tr) H1 Sp Nc) as (b' & B' & Ea).
    rewrite E. cbn [app]. rewrite Ea. change (c :: q ++ row_text print_numeral row ++ tr) with ((c :: q) ++ row_text print_numeral row ++ tr). rewrite <- E.
    pose proof (IH H2 H6 b' m B' H5) as Q. cbn [dgets] in Q. cbn [fst snd]. rewrite Q. auto.
Qed.
Lemma dgets_values l vs tr : values l vs tr -> vs <> [] -> dgets (length vs) l = Some (vs, after_delim tr).
Proof.
  intros (row & -> & S & F & -> & T) N. destruct row as [|[b n] row]; [exfalso; apply N; reflexivity|]. destruct S as [B S]. inversion F; subst.
  rewrite row_text_cons, <- !app_assoc. rewrite map_length. cbn [length]. rewrite dgets_more by auto. auto.
Qed.
Lemma igets_more row tr b : blanks b -> forall n, int_ok n -> Forall (fun y => sep (fst y)) row -> Forall (fun x => int_ok (snd x)) row -> int_stops tr ->
  igets (S (length row)) (b ++ print_int n ++ row_text print_int row ++ tr) = Some (int_value n :: map (fun x => int_value (snd x)) row, after_delim tr).
Proof.
  intros B n N S F T. revert b n B N. induction row as [|[s m] row IH]; intros b n B N.
  - cbn [length igets map]. unfold row_text. cbn [map concat app]. rewrite iget_print by auto. auto.
  - inversion S; inversion F; subst. cbn [fst snd] in *. rewrite row_text_cons, <- !app_assoc. cbn [igets length map].
    rewrite iget_print by (auto using sep_stops, stops_int). destruct (int_head m H5) as (c & q & E & Sp & Nc).
    destruct (sep_after s c (q ++ row_text print_int row ++ tr) H1 Sp Nc) as (b' & B' & Ea).
    rewrite E. cbn [app]. rewrite Ea. change (c :: q ++ row_text print_int row ++ tr) with ((c :: q) ++ row_text print_int row ++ tr). rewrite <- E.
    pose proof (IH H2 H6 b' m B' H5) as Q. cbn [igets] in Q. cbn [fst snd]. rewrite Q. auto.
Qed.
Lemma igets_values l vs tr : int_values l vs tr -> vs <> [] -> igets (length vs) l = Some (vs, after_delim tr).
Proof.
  intros (row & -> & S & F & -> & T) N. destruct row as [|[b n] row]; [exfalso; apply N; reflexivity|]. destruct S as [B S]. inversion F; subst.
  rewrite row_text_cons, <- !app_assoc. rewrite map_length. cbn [length]. rewrite igets_more by auto. auto.
Qed.
Lemma scan_dbl_none c r : is_space c = false -> is_digit c = false -> c <> "."%char -> c <> "+"%char -> c <> "-"%char -> scan_dbl (c :: r) = None.
Proof.
  intros Sp D P Pl Mi. unfold scan_dbl. simpl. rewrite Sp. simpl. destruct (Ascii.eqb_spec c "-"); [congruence|].
  destruct (Ascii.eqb_spec c "+"); [congruence|]. rewrite scan_float_none; auto.
Qed.
Lemma scan_dbl_blank b r : blanks b -> scan_dbl (b ++ r) = scan_dbl r.
Proof. intros B. unfold scan_dbl. rewrite skipws_blanks; auto. Qed.
Lemma scan_dbl_nothing l : no_number l -> scan_dbl l = None.
Proof. intros (b & r & -> & B & H). rewrite scan_dbl_blank by auto. destruct r as [|c r]; [reflexivity|]. destruct H as (?&?&?&?&?). apply scan_dbl_none; auto. Qed.
Lemma dget_ends tr : ends tr -> dget (after_delim tr) = None.
Proof.
  intros (b & r & -> & B & H). unfold after_delim. rewrite skipws_blanks by auto. destruct r as [|c r]; [reflexivity|].
  destruct H as (Sp & D & P & Pl & Mi & Co). simpl. rewrite Sp. destruct (Ascii.eqb_spec c ","); [congruence|]. unfold dget. rewrite scan_dbl_none; auto.
Qed.

(** * atoms *)
Lemma scan_row_ok row r : atom_row row -> stops r -> scan_dbls (length row) (row_text print_numeral row ++ r) = Some (map (fun x => dbl_of (snd x)) row, r).
Proof.
  intros F S. induction F as [|[b n] row (B & Ne & N) F IH]; cbn [length scan_dbls map]; auto. cbn [fst snd] in *.
  rewrite row_text_cons, <- !app_assoc. rewrite scan_dbl_print; auto.
  - rewrite IH. auto.
  - destruct row as [|[b' n'] row]; auto. inversion F; subst. destruct H1 as (B' & Ne' & _). cbn [fst snd] in *. rewrite row_text_cons, <- !app_assoc.
    destruct b' as [|c b']; [congruence|]. inversion B'; subst. apply (blank_stops (c :: _)). auto.
Qed.
Lemma scan_row_short row r n : atom_row row -> no_number r -> starts_blank r -> (length row < n)%nat -> scan_dbls n (row_text print_numeral row ++ r) = None.
Proof.
  intros F N S. revert n. induction F as [|[b m] row (B & Ne & Nm) F IH]; intros n L.
  - destruct n; [cbn [length] in L; lia|]. cbn [scan_dbls]. unfold row_text. cbn [map concat app]. rewrite scan_dbl_nothing; auto.
  - cbn [length] in L. destruct n; [lia|]. cbn [scan_dbls]. cbn [fst snd] in *. rewrite row_text_cons, <- !app_assoc. rewrite scan_dbl_print; auto.
    + rewrite IH by lia. auto.
    + destruct row as [|[b' n'] row]; [unfold row_text; cbn [map concat app]; apply blank_stops; auto|]. inversion F; subst. destruct H1 as (B' & Ne' & _). cbn [fst snd] in *. rewrite row_text_cons, <- !app_assoc.
      destruct b' as [|c b']; [congruence|]. inversion B'; subst. apply (blank_stops (c :: _)). auto.
Qed.
Lemma row_starts row r : atom_row row -> (row = [] -> starts_blank r) -> starts_blank (row_text print_numeral row ++ r).
Proof.
  intros F N. destruct row as [|[b n] row]. unfold row_text; cbn [map concat app]; auto. inversion F; subst. destruct H1 as (B & Ne & _). cbn [fst] in *.
  rewrite row_text_cons. destruct b as [|c b]; [congruence|]. inversion B; subst. auto.
Qed.
Lemma read_atom_none d t : no_atom d t -> read_atom d t = None.
Proof.
  intros [B|(b & w & row & r & -> & B & W & F & L & N & S)]; unfold read_atom.
  - rewrite get_word_blanks; auto.
  - rewrite get_word_app by (auto; apply row_starts; auto). rewrite scan_row_short by auto. auto.
Qed.
Lemma b_to_u_val b : d_val (b_to_u b) = d_val b / (8 * PI ^ 2).
Proof.
  unfold d_val, b_to_u. cbn [d_neg d_mag]. pose proof PI_RGT_0. destruct (d_neg b); field; lra.
Qed.
Lemma dbl_eq a b : d_neg a = d_neg b -> d_val a = d_val b -> a = b.
Proof. destruct a as [n x], b as [m y]. unfold d_val; cbn [d_neg d_mag]. intros <- E. destruct n; f_equal; lra. Qed.
Lemma atom_built d e v a : atom_is d e v a -> a = (if d then discus_atom else pdffit_atom) (esym e) v /\ length v = (if d then 4 else 20)%nat.
Proof.
  destruct a as [sy ps oc dp dc u du]. unfold atom_is. cbn [sa_sym sa_pos sa_occ sa_dpos sa_docc sa_u sa_du]. intros [-> H]. destruct d.
  - destruct H as (x & y & z & b & -> & -> & -> & (w & -> & Nw & Vw) & -> & -> & ->). split; auto. unfold discus_atom. cbn [nth firstn].
    replace (b_to_u b) with w. reflexivity. apply dbl_eq. rewrite Nw. reflexivity. rewrite b_to_u_val. auto.
  - destruct H as (x & y & z & occ & dx & dy & dz & docc & u11 & u22 & u33 & du11 & du22 & du33 & u12 & u13 & u23 & du12 & du13 & du23 & -> & -> & -> & -> & -> & -> & ->).
    split; reflexivity.
Qed.
Lemma atoms_read d t ats : lists_atoms d t ats -> forall f, (length ats < f)%nat -> read_atoms f d t = Ok ats.
Proof.
  induction 1 as [t N|b w e row r a ats B W M F S A L IH]; intros f Hf; (destruct f; [cbn in Hf; lia|]); cbn [read_atoms].
  - rewrite read_atom_none; auto.
  - destruct (atom_built _ _ _ _ A) as [Ea Ln]. rewrite map_length in Ln. unfold read_atom. rewrite get_word_app; auto.
    + rewrite <- Ln. rewrite scan_row_ok by auto. apply lookup_ok in M. rewrite M. rewrite IH by (cbn in Hf; lia). cbn [omap obind]. rewrite Ea. auto.
    + apply row_starts; auto. intros ->. destruct d; discriminate.
Qed.
Lemma atoms_count d t ats : lists_atoms d t ats -> (length ats <= length t)%nat.
Proof.
  induction 1 as [t N|b w e row r a ats B W M F S A L IH]; cbn [length]; [lia|]. rewrite !app_length. destruct W as [Nw _]. destruct w; [congruence|]. cbn [length]. lia.
Qed.
