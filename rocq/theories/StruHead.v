(** Reading the header and whole structure texts. *)
From Coq Require Import Ascii String List Arith ZArith Reals Bool Lia Lra.
From Verif Require Import Base MathModel MetricModel MetricSpec MetricProof ParserModel ParserLex PdfModel PdfSpec PdfProof DataModel DataSpec DataProof ElementTable ScatModel ScatSpec ScatProof FmtModel FmtSpec FmtProof FmtGen StruModel StruSpec StruLex.
Import ListNotations.
Local Open Scope R_scope.

(** * one line *)
Definition applied (m : meaning) (p : sphase) : sphase :=
  match m with
  | MFormat _ => p
  | MScale x => set_scale p x
  | MSharp a b c d => set_sharp p a b c d
  | MSpcgr w => set_spcgr p w
  | MSphere x => set_sphere p x
  | MStepcut x => set_stepcut p x
  | MTitle t => set_name p t
  | MCell a w => set_cell p a w
  | MDcell a w => set_dcell p a w
  | MNcell i n => set_ncell p i n
  | MNothing => p
  end.
Definition fmt_of (m : meaning) (d : bool) : bool := match m with MFormat x => x | _ => d end.

Lemma eqb_refl t : text_eqb t t = true. Proof. apply text_eqb_eq; auto. Qed.
Lemma eqb_ne a b : a <> b -> text_eqb a b = false.
Proof. intros H. destruct (text_eqb a b) eqn:E; auto. apply text_eqb_eq in E. congruence. Qed.
Lemma lstrip_app b t : Forall (fun c => c = " "%char \/ c = tab) b -> match t with [] => True | c :: _ => c <> " "%char /\ c <> tab end -> lstrip (b ++ t) = t.
Proof.
  induction 1 as [|c b H F IH]; intros T; cbn [app lstrip].
  - destruct t as [|c t]; cbn [lstrip]; auto. destruct T as [A B].
    destruct (Ascii.eqb_spec c " "); [congruence|]. destruct (Ascii.eqb_spec c "009"); [elim B; auto|]. auto.
  - destruct H as [-> | ->]; cbn; apply IH; auto.
Qed.
Lemma lstrip_spec l : exists b, l = b ++ lstrip l /\ Forall (fun c => c = " "%char \/ c = tab) b /\ match lstrip l with [] => True | c :: _ => c <> " "%char /\ c <> tab end.
Proof.
  induction l as [|c l (b & E & F & H)]; cbn [lstrip]. exists []. auto.
  destruct (Ascii.eqb_spec c " ") as [->|N1]; cbn [orb]. exists (" "%char :: b). cbn [app]. rewrite <- E. auto.
  destruct (Ascii.eqb_spec c "009") as [->|N2]; cbn [orb]. exists (tab :: b). cbn [app]. rewrite <- E. auto.
  exists []. auto.
Qed.
Lemma lstrip_idem l : lstrip (lstrip l) = lstrip l.
Proof. destruct (lstrip_spec l) as (b & _ & _ & H). apply (lstrip_app []); auto. Qed.
Lemma values_ne l vs tr : values l vs tr -> vs <> [] -> l <> [].
Proof.
  intros (row & -> & S & F & -> & T) N. destruct row as [|[b n] row]; [exfalso; apply N; reflexivity|]. inversion F; subst. destruct (numeral_head n H1) as (c & q & E & _).
  rewrite row_text_cons, E. destruct b; discriminate.
Qed.
Lemma commas_app a b : commas_out (a ++ b) = commas_out a ++ commas_out b. Proof. apply map_app. Qed.
Lemma commas_same l : ~ In ","%char l -> commas_out l = l.
Proof. intros H. induction l as [|c l IH]; cbn; auto. destruct (Ascii.eqb_spec c ","). subst; elim H; left; auto. unfold commas_out in *. rewrite IH; auto. intros Q; apply H; right; auto. Qed.
Lemma commas_gap g : gap g -> blanks (commas_out g) /\ commas_out g <> [].
Proof.
  intros [N F]. split. apply Forall_map. eapply Forall_impl; [|exact F]. intros c [H | ->]; cbn; auto. destruct (Ascii.eqb_spec c ","); auto. destruct g; [congruence|discriminate].
Qed.
Lemma digits_no_comma d : Forall (fun k => (k < 10)%nat) d -> forall c, In c (print_digits d) -> is_digit c = true.
Proof. intros F. pose proof (pd_digit d F) as P. rewrite Forall_forall in P. exact P. Qed.
Lemma numeral_chars n c : numeral_ok n -> In c (print_numeral n) -> is_digit c = true \/ c = "."%char \/ c = "-"%char \/ c = "+"%char \/ c = "e"%char \/ c = "E"%char.
Proof.
  intros (Fi & Ff & Ne & He). unfold print_numeral. rewrite !in_app_iff.
  assert (forall s, In c (print_sign s) -> c = "-"%char \/ c = "+"%char) as PS. { intros [[|]|]; simpl; intuition. }
  intros [H|[H|[H|H]]].
  - destruct (PS _ H); auto.
  - left. exact (digits_no_comma _ Fi _ H).
  - destruct (nu_frac n) as [d|]; [|destruct H]. destruct H as [<-|H]; [right; left; auto|]. left. exact (digits_no_comma _ Ff _ H).
  - destruct (nu_exp n) as [[[up s] d]|]; [|destruct H]. destruct He as [He _]. destruct H as [<-|H]. destruct up; auto 10.
    apply in_app_iff in H as [H|H]. destruct (PS _ H); auto 10. left. exact (digits_no_comma _ He _ H).
Qed.
Lemma numeral_no_comma n : numeral_ok n -> ~ In ","%char (print_numeral n).
Proof. intros N H. apply numeral_chars in H; auto. destruct H as [H|[H|[H|[H|[H|H]]]]]; discriminate. Qed.
Lemma stops_commas r : stops r -> stops (commas_out r).
Proof. destruct r as [|c r]; simpl; auto. intros H. destruct (Ascii.eqb_spec c ","); auto. simpl. repeat split; discriminate. Qed.

Lemma word_lits : Forall wordy keywords.
Proof. repeat constructor; discriminate. Qed.
Lemma rest_line (r : text) : r <> [] -> forall x, rest_of_line (Some r) x = r. Proof. destruct r; [congruence|]; auto. Qed.

Lemma shape_line (kind r g1 g2 : text) n (tr : text) : wordy kind -> ~ In ","%char kind -> r = g1 ++ kind ++ g2 ++ print_numeral n ++ tr -> gap g1 -> gap g2 -> numeral_ok n -> stops tr ->
  exists q, get_word (commas_out (rest_of_line (Some r) [])) = Some (kind, q) /\ exists z, dget q = Some (dbl_of n, z).
Proof.
  intros W Nk -> G1 G2 N T. rewrite rest_line by (destruct G1 as [N1 _]; destruct g1; [congruence|discriminate]).
  rewrite !commas_app, (commas_same (print_numeral n)) by (apply numeral_no_comma; auto). rewrite (commas_same kind) by auto. apply commas_gap in G1 as [B1 _]. apply commas_gap in G2 as [B2 N2].
  eexists. split.
  - apply get_word_app; auto. destruct (commas_out g2); [congruence|]. inversion B2; subst. auto.
  - eexists. apply dget_print; auto. apply stops_commas; auto.
Qed.

Lemma rest_any (r : text) : rest_text (Some r) = r. Proof. auto. Qed.
Ltac kw := repeat match goal with
  | |- context [text_eqb ?a ?a] => rewrite (eqb_refl a)
  | |- context [text_eqb (chars ?a) (chars ?b)] => change (text_eqb (chars a) (chars b)) with false
  end; cbn [omap obind on_vals].
Lemma hash_false k : In k keywords -> hash_line k = false.
Proof. cbn [keywords map In]. intros H. repeat (destruct H as [<-|H]; [reflexivity|]). destruct H. Qed.

Ltac line K F := eapply K; [| |exact F| | |]; [cbn; tauto|discriminate| |reflexivity|reflexivity]; unfold run_keyword; rewrite ?rest_any; kw.
Lemma line_says l m h : says l m -> lstrip (sp_name (h_ph h)) = sp_name (h_ph h) -> exists w, header_line h l = Ok (Some (mkHs w (fmt_of m (h_discus h)) (applied m (h_ph h)))).
Proof.
  intros S NS. unfold header_line.
  assert (forall k r o, In k keywords -> k <> chars "atoms" -> first_word l k r -> run_keyword k (Some r) h = Ok o ->
    (let w := get_word l in
     let cmd := match w with Some (w, _) => w | None => h_cmd h end in
     if text_eqb cmd (chars "atoms") then Ok None else if hash_line cmd then Ok (Some (mkHs cmd (h_discus h) (h_ph h)))
     else omap Some (run_keyword cmd (match w with Some (_, r) => Some r | None => None end) h)) = Ok (Some o)) as G.
  { intros k r o I N F E. rewrite (get_word_first _ _ _ F). cbv zeta beta iota. rewrite eqb_ne by auto. rewrite hash_false by auto. rewrite E. auto. }
  unfold keywords in G.
  assert (forall k r d p, In k keywords -> k <> chars "atoms" -> first_word l k r -> run_keyword k (Some r) h = Ok (mkHs k d p) ->
    d = fmt_of m (h_discus h) -> p = applied m (h_ph h) -> exists w,
    (let w := get_word l in
     let cmd := match w with Some (w, _) => w | None => h_cmd h end in
     if text_eqb cmd (chars "atoms") then Ok None else if hash_line cmd then Ok (Some (mkHs cmd (h_discus h) (h_ph h)))
     else omap Some (run_keyword cmd (match w with Some (_, r) => Some r | None => None end) h)) = Ok (Some (mkHs w (fmt_of m (h_discus h)) (applied m (h_ph h))))) as K.
  { intros k r d p I N F E -> ->. exists k. apply (G k r); auto. }
  clear G.
  destruct S as [l r w q F W N|l r q F W|l r F B|l r x tr F V|l r d2 d1 sr rc tr F V|l r d2 sr rc tr F V En|l r w q F W|l r F B|l r g1 g2 n tr F E G1 G2 N T|l r g1 g2 n tr F E G1 G2 N T|l b t F Ne B T|l F|l r a b c al be ga tr F V|l r a b c al be ga tr F V|l r i j k n tr F V|l w r F N].
  - line K F. rewrite (get_word_first _ _ _ W). rewrite eqb_ne by auto. reflexivity.
  - line K F. rewrite (get_word_first _ _ _ W). reflexivity.
  - line K F. rewrite get_word_blanks by auto. reflexivity.
  - line K F. pose proof (dgets_values _ _ _ V ltac:(discriminate)) as D. cbn [length dgets] in D. destruct (dget r) as [[d q]|]; [|discriminate]. injection D as -> _. reflexivity.
  - line K F. unfold read_sharp.
    pose proof (dgets_values _ _ _ V ltac:(discriminate)) as D. cbn [length] in D. cbn [dgets] in *.
    destruct (dget r) as [[e0 q0]|]; [|discriminate]. destruct (dget q0) as [[e1 q1]|]; [|discriminate]. destruct (dget q1) as [[e2 q2]|]; [|discriminate].
    destruct (dget q2) as [[e3 q3]|]; [|discriminate]. injection D as -> -> -> -> _. reflexivity.
  - line K F. unfold read_sharp.
    pose proof (dgets_values _ _ _ V ltac:(discriminate)) as D. cbn [length] in D. rewrite D, dget_ends by auto. reflexivity.
  - line K F. rewrite (get_word_first _ _ _ W). reflexivity.
  - line K F. rewrite get_word_blanks by auto. reflexivity.
  - line K F. unfold read_shape.
    destruct (shape_line (chars "sphere") r g1 g2 n tr) as (q & Eq & z & Ez); auto.
    { split; [discriminate|repeat constructor]. } { intros H; cbn in H; repeat (destruct H as [H|H]; [discriminate|]); destruct H. }
    rewrite Eq. kw. rewrite Ez. reflexivity.
  - line K F. unfold read_shape.
    destruct (shape_line (chars "stepcut") r g1 g2 n tr) as (q & Eq & z & Ez); auto.
    { split; [discriminate|repeat constructor]. } { intros H; cbn in H; repeat (destruct H as [H|H]; [discriminate|]); destruct H. }
    rewrite Eq. kw. rewrite Ez. reflexivity.
  - line K F. rewrite rest_line by auto. rewrite lstrip_app by auto. reflexivity.
  - eapply K; [| |exact F| | |]; [cbn; tauto|discriminate| |reflexivity|]; [unfold run_keyword; kw; reflexivity|]. cbn [applied rest_of_line]. rewrite NS. destruct (h_ph h); reflexivity.
  - line K F. pose proof (dgets_values _ _ _ V ltac:(discriminate)) as D. cbn [length] in D. rewrite D. reflexivity.
  - line K F. pose proof (dgets_values _ _ _ V ltac:(discriminate)) as D. cbn [length] in D. rewrite D. reflexivity.
  - line K F. pose proof (igets_values _ _ _ V ltac:(discriminate)) as D. cbn [length] in D. rewrite D. reflexivity.
  - exists w. rewrite (get_word_first _ _ _ F). cbv zeta beta iota. cbn [applied fmt_of].
    assert (forall k, In k keywords -> text_eqb w k = false) as Q. { intros k I. apply eqb_ne. intros ->. auto. }
    rewrite (Q (chars "atoms")) by (cbn; tauto). destruct (hash_line w); auto. unfold run_keyword.
    rewrite !Q by (cbn; tauto). reflexivity.
Qed.

(** * lines *)
Lemma split_line l r : one_line l -> split_at newline (l ++ newline :: r) = Some (l, r).
Proof.
  intros H. induction l as [|c l IH]; cbn [app split_at].
  - rewrite Ascii.eqb_refl. auto.
  - destruct (Ascii.eqb_spec c newline) as [->|N]. elim H; left; auto. rewrite IH. auto. intros Q; apply H; right; auto.
Qed.
Lemma getline_line l r x : one_line l -> getline (mkStr (l ++ newline :: r) false) x = (l, mkStr r false, true).
Proof. intros H. unfold getline. cbn [st_eof st_rest]. rewrite split_line by auto. auto. Qed.
Lemma lines_cons l ls : lines_text (l :: ls) = l ++ newline :: lines_text ls.
Proof. unfold lines_text. cbn [map concat]. rewrite <- app_assoc. auto. Qed.
Lemma lines_app a b : lines_text (a ++ b) = lines_text a ++ lines_text b.
Proof. unfold lines_text. rewrite map_app, concat_app. auto. Qed.
Lemma lines_length ls : (length ls <= length (lines_text ls))%nat.
Proof. induction ls as [|l ls IH]; auto. rewrite lines_cons, app_length. cbn [length]. lia. Qed.
Lemma title_stripped l t : says l (MTitle t) -> lstrip t = t.
Proof. intros S. inversion S; subst. apply (lstrip_app []); auto. Qed.

Fixpoint hfold (ms : list meaning) (d : bool) (p : sphase) : bool * sphase :=
  match ms with [] => (d, p) | m :: ms => hfold ms (fmt_of m d) (applied m p) end.
Lemma applied_strip l m p : says l m -> lstrip (sp_name p) = sp_name p -> lstrip (sp_name (applied m p)) = sp_name (applied m p).
Proof. intros S H. destruct m; auto. cbn [applied set_name sp_name]. eapply title_stripped; eauto. Qed.
Lemma atoms_line l r h : first_word l (chars "atoms") r -> header_line h l = Ok None.
Proof. intros F. unfold header_line. rewrite (get_word_first _ _ _ F). reflexivity. Qed.
Lemma header_read ls ms : Forall2 says ls ms -> forall f x at_ r rest h, Forall one_line ls -> one_line at_ -> first_word at_ (chars "atoms") r ->
  (length ls < f)%nat -> lstrip (sp_name (h_ph h)) = sp_name (h_ph h) ->
  exists w, read_header f (mkStr (lines_text (ls ++ [at_]) ++ rest) false) x h =
  Ok (mkHs w (fst (hfold ms (h_discus h) (h_ph h))) (snd (hfold ms (h_discus h) (h_ph h))), mkStr rest false).
Proof.
  induction 1 as [|l m ls ms S F2 IH]; intros f x at_ r rest h O Oa A Hf NS; (destruct f; [cbn in Hf; lia|]); cbn [read_header].
  - cbn [app]. rewrite lines_cons. unfold lines_text. cbn [map concat]. rewrite <- app_assoc. cbn [app]. rewrite getline_line by auto. cbn [negb].
    rewrite (atoms_line _ _ _ A). cbn [obind hfold fst snd]. exists (h_cmd h). destruct h; auto.
  - inversion O; subst. cbn [app]. rewrite lines_cons, <- app_assoc. cbn [app]. rewrite getline_line by auto. cbn [negb].
    destruct (line_says _ _ h S NS) as (w & ->). cbn [obind]. cbn [hfold].
    destruct (IH f l at_ r rest (mkHs w (fmt_of m (h_discus h)) (applied m (h_ph h))) H2 Oa A) as (w' & E).
    { cbn in Hf; lia. } { cbn [h_ph]. eapply applied_strip; eauto. }
    exists w'. rewrite E. reflexivity.
Qed.
Lemma dev_zero m p : sp_dev p = repeat d_zero 5 -> sp_dev (applied m p) = repeat d_zero 5.
Proof. destruct m; cbn [applied]; auto; unfold set_scale, set_sharp; cbn [sp_dev]; intros ->; reflexivity. Qed.

Lemma hfold_is ms ats : forall d p, sp_dev p = repeat d_zero 5 -> fst (hfold ms d p) = final (fun m => match m with MFormat d => Some d | _ => None end) ms d /\
  set_atoms (snd (hfold ms d p)) ats = 
  mkSp (final (fun m => match m with MTitle t => Some t | _ => None end) ms (sp_name p))
       (final (fun m => match m with MSpcgr t => Some t | _ => None end) ms (sp_spcgr p))
       (final (fun m => match m with MScale x => Some x | _ => None end) ms (sp_pscale p))
       (final (fun m => match m with MSharp x _ _ _ => Some x | _ => None end) ms (sp_delta2 p))
       (final (fun m => match m with MSharp _ x _ _ => Some x | _ => None end) ms (sp_delta1 p))
       (final (fun m => match m with MSharp _ _ x _ => Some x | _ => None end) ms (sp_sratio p))
       (final (fun m => match m with MSharp _ _ _ x => Some x | _ => None end) ms (sp_rcut p))
       (final (fun m => match m with MSphere x => Some x | _ => None end) ms (sp_spdiam p))
       (final (fun m => match m with MStepcut x => Some x | _ => None end) ms (sp_stepcut p))
       (final (fun m => match m with MCell a _ => Some a | _ => None end) ms (sp_a0 p))
       (final (fun m => match m with MCell _ w => Some w | _ => None end) ms (sp_win p))
       (final (fun m => match m with MDcell a _ => Some a | _ => None end) ms (sp_da0 p))
       (final (fun m => match m with MDcell _ w => Some w | _ => None end) ms (sp_dwin p))
       (final (fun m => match m with MNcell i _ => Some i | _ => None end) ms (sp_icc p))
       (final (fun m => match m with MNcell _ n => Some n | _ => None end) ms (sp_ncatoms p))
       (repeat d_zero 5) ats.
Proof.
  induction ms as [|m ms IH]; intros d p D.
  - split; auto. cbn [hfold snd]. unfold set_atoms, final. cbn [fold_left]. rewrite D. auto.
  - cbn [hfold]. destruct (IH (fmt_of m d) (applied m p) (dev_zero m p D)) as [A B]. rewrite A, B. split; destruct m; reflexivity.
Qed.

(** * the end of reading *)
Lemma cell_lattice p : (cell_valid p -> exists z, lattice (v3_of (sp_a0 p)) (v3_of (sp_win p)) = Ok z) /\
  (~ cell_valid p -> lattice (v3_of (sp_a0 p)) (v3_of (sp_win p)) = Err ErrStructure).
Proof.
  unfold cell_valid, lattice, v3_of, m_cosd, rad.
  assert (forall i, cos (PI / 180 * d_val (nth i (sp_win p) d_zero)) = cos (d_val (nth i (sp_win p) d_zero) * PI / 180)) as E by (intros; f_equal; field).
  cbv zeta. rewrite !E. unfold gram, m_sqr. destruct Rle_dec as [L|L]; split; intros H; eauto; exfalso; lra.
Qed.
Definition finish (p : sphase) : outcome sphase :=
  obind (lattice (v3_of (sp_a0 p)) (v3_of (sp_win p))) (fun _ =>
  obind (imul (nth 0 (sp_icc p) 0%Z) (nth 1 (sp_icc p) 0%Z)) (fun k =>
  obind (imul k (nth 2 (sp_icc p) 0%Z)) (fun k =>
  obind (imul k (sp_ncatoms p)) (fun k =>
  if (k =? Z.of_nat (length (sp_atoms p)))%Z then Ok p else Err ErrStructure)))).
Definition left_text (s : stream) : text := if st_eof s then [] else st_rest s.
Lemma read_split t : read_struct t =
  obind (read_header (S (S (length t))) (mkStr t false) [] (mkHs [] true phase0)) (fun hs =>
  obind (read_atoms (S (length t)) (h_discus (fst hs)) (left_text (snd hs))) (fun ats => finish (set_atoms (h_ph (fst hs)) ats))).
Proof.
  unfold read_struct. destruct (read_header _ _ _ _) as [[h s]| | |]; auto.
Qed.
Lemma to_int_bad z : ~ int_fits z -> to_int z = UB.
Proof.
  intros H. unfold to_int, int_fits in *. destruct (Z.leb_spec (-2147483648) z); [|auto]. destruct (Z.leb_spec z 2147483647); auto. exfalso; apply H; lia.
Qed.
Lemma finish_ok p : cell_valid p -> counts_fit p -> counts_match p -> finish p = Ok p.
Proof.
  intros C (F1 & F2 & F3) M. unfold finish. destruct (proj1 (cell_lattice p) C) as (z & ->). cbn [obind]. unfold imul, int_fits, counts_match, cells_of in *.
  rewrite to_int_ok by auto. cbn [obind]. rewrite to_int_ok by auto. cbn [obind]. rewrite to_int_ok by auto. cbn [obind]. rewrite M, Z.eqb_refl. auto.
Qed.
Lemma finish_cell p : ~ cell_valid p -> finish p = Err ErrStructure.
Proof. intros C. unfold finish. rewrite (proj2 (cell_lattice p) C). auto. Qed.
Lemma finish_count p : cell_valid p -> counts_fit p -> ~ counts_match p -> finish p = Err ErrStructure.
Proof.
  intros C (F1 & F2 & F3) M. unfold finish. destruct (proj1 (cell_lattice p) C) as (z & ->). cbn [obind]. unfold imul, int_fits, counts_match, cells_of in *.
  rewrite to_int_ok by auto. cbn [obind]. rewrite to_int_ok by auto. cbn [obind]. rewrite to_int_ok by auto. cbn [obind].
  destruct (Z.eqb_spec (nth 0 (sp_icc p) 0 * nth 1 (sp_icc p) 0 * nth 2 (sp_icc p) 0 * sp_ncatoms p)%Z (Z.of_nat (length (sp_atoms p)))); auto. congruence.
Qed.
Lemma fits_dec z : int_fits z \/ ~ int_fits z.
Proof. unfold int_fits. lia. Qed.
Lemma finish_overflow p : cell_valid p -> ~ counts_fit p -> finish p = UB.
Proof.
  intros C N. unfold finish. destruct (proj1 (cell_lattice p) C) as (z & ->). cbn [obind]. unfold imul, counts_fit, cells_of in *.
  destruct (fits_dec (nth 0 (sp_icc p) 0 * nth 1 (sp_icc p) 0)%Z) as [F1|F1]; [|rewrite to_int_bad; auto].
  rewrite to_int_ok by exact F1. cbn [obind].
  destruct (fits_dec (nth 0 (sp_icc p) 0 * nth 1 (sp_icc p) 0 * nth 2 (sp_icc p) 0)%Z) as [F2|F2]; [|rewrite to_int_bad; auto].
  rewrite to_int_ok by exact F2. cbn [obind].
  rewrite to_int_bad; auto.
Qed.

(** the text of a structure is read as described *)
Lemma struct_read ls ms at_ r body ats : Forall2 says ls ms -> Forall one_line ls -> one_line at_ -> first_word at_ (chars "atoms") r ->
  lists_atoms (discus_format ms) body ats ->
  read_struct (lines_text (ls ++ [at_]) ++ body) = finish (described ms ats).
Proof.
  intros SY O Oa A L. set (t := lines_text (ls ++ [at_]) ++ body). rewrite read_split.
  assert (length ls < S (S (length t)))%nat as Hf.
  { unfold t. pose proof (lines_length (ls ++ [at_])) as Q. rewrite !app_length in *. cbn [length] in *. lia. }
  destruct (header_read ls ms SY (S (S (length t))) [] at_ r body (mkHs [] true phase0) O Oa A Hf eq_refl) as (w & E).
  fold t in E. rewrite E. cbn [obind fst snd h_discus h_ph left_text st_eof st_rest].
  destruct (hfold_is ms ats true phase0 eq_refl) as [D P]. cbn [h_discus h_ph]. rewrite D.
  unfold left_text. cbn [st_eof st_rest]. rewrite (atoms_read _ _ _ L).
  2:{ apply atoms_count in L. unfold t. rewrite app_length. lia. }
  cbn [obind]. rewrite P. reflexivity.
Qed.

(** an unknown element stops the reading *)
Lemma atoms_unknown d t ats b w row r : forall pre, lists_before d pre ats t -> t = b ++ w ++ row_text print_numeral row ++ r ->
  blanks b -> wordy w -> (forall e, ~ means w e) -> atom_row row -> length row = (if d then 4 else 20)%nat -> stops r ->
  forall f, (length ats < f)%nat -> read_atoms f d pre = Err ErrValue.
Proof.
  intros pre LB. revert b w row r.
  induction LB as [t|b w e row r a ats t B W M AR SR IS LB IH]; intros b' w' row' r' E B' W' M' AR' L' SR' f Hf; (destruct f; [cbn in Hf; lia|]); cbn [read_atoms].
  - subst t. unfold read_atom. rewrite get_word_app; auto. 2:{ apply row_starts; auto. intros ->. destruct d; discriminate L'. }
    rewrite <- L', scan_row_ok; auto. destruct (pt_lookup elements w') as [e|] eqn:E; auto. apply lookup_ok in E. elim (M' e); auto.
  - destruct (atom_built _ _ _ _ IS) as [-> L]. unfold read_atom. rewrite map_length in L.
    rewrite get_word_app; auto. 2:{ apply row_starts; auto. intros ->. destruct d; discriminate L. }
    rewrite <- L, scan_row_ok; auto. apply lookup_ok in M. rewrite M. rewrite (IH _ _ _ _ E); auto. cbn [length] in Hf; lia.
Qed.
Lemma before_count d pre ats t : lists_before d pre ats t -> (length ats <= length pre)%nat.
Proof.
  induction 1 as [t|b w e row r a ats t B W M F S A L IH]; cbn [length]; [lia|]. rewrite !app_length. destruct W as [Nw _]. destruct w; [congruence|]. cbn [length]. lia.
Qed.
Lemma struct_unknown ls ms at_ r body ats b w row q : Forall2 says ls ms -> Forall one_line ls -> one_line at_ -> first_word at_ (chars "atoms") r ->
  lists_before (discus_format ms) body ats (b ++ w ++ row_text print_numeral row ++ q) ->
  blanks b -> wordy w -> (forall e, ~ means w e) -> atom_row row -> length row = (if discus_format ms then 4 else 20)%nat -> stops q ->
  read_struct (lines_text (ls ++ [at_]) ++ body) = Err ErrValue.
Proof.
  intros SY O Oa A L B W U AR LR SQ. set (t := lines_text (ls ++ [at_]) ++ body). rewrite read_split.
  assert (length ls < S (S (length t)))%nat as Hf.
  { unfold t. pose proof (lines_length (ls ++ [at_])) as Q. rewrite !app_length in *. cbn [length] in *. lia. }
  destruct (header_read ls ms SY (S (S (length t))) [] at_ r body (mkHs [] true phase0) O Oa A Hf eq_refl) as (w' & E).
  fold t in E. rewrite E. cbn [obind fst snd h_discus h_ph left_text st_eof st_rest].
  destruct (hfold_is ms ats true phase0 eq_refl) as [D P]. cbn [h_discus h_ph]. rewrite D.
  unfold left_text. cbn [st_eof st_rest]. rewrite (atoms_unknown _ _ _ b w row q _ L); auto.
  apply before_count in L. unfold t. rewrite app_length. lia.
Qed.
(** without a line "atoms" there are no atoms *)
Lemma header_read_end ls ms : Forall2 says ls ms -> forall f x h, Forall one_line ls -> (length ls < f)%nat -> lstrip (sp_name (h_ph h)) = sp_name (h_ph h) ->
  exists w, read_header f (mkStr (lines_text ls) false) x h =
  Ok (mkHs w (fst (hfold ms (h_discus h) (h_ph h))) (snd (hfold ms (h_discus h) (h_ph h))), mkStr [] true).
Proof.
  induction 1 as [|l m ls ms S F2 IH]; intros f x h O Hf NS; (destruct f; [cbn in Hf; lia|]); cbn [read_header].
  - exists (h_cmd h). destruct h; reflexivity.
  - inversion O; subst. rewrite lines_cons. rewrite getline_line by auto. cbn [negb].
    destruct (line_says _ _ h S NS) as (w & ->). cbn [obind]. cbn [hfold].
    destruct (IH f l (mkHs w (fmt_of m (h_discus h)) (applied m (h_ph h))) H2) as (w' & E).
    { cbn in Hf; lia. } { cbn [h_ph]. eapply applied_strip; eauto. }
    exists w'. rewrite E. reflexivity.
Qed.
Lemma struct_read_end ls ms : Forall2 says ls ms -> Forall one_line ls -> read_struct (lines_text ls) = finish (described ms []).
Proof.
  intros SY O. rewrite read_split. pose proof (lines_length ls) as Q.
  destruct (header_read_end ls ms SY (S (S (length (lines_text ls)))) [] (mkHs [] true phase0) O ltac:(lia) eq_refl) as (w & ->).
  cbn [obind fst snd h_discus h_ph]. destruct (hfold_is ms [] true phase0 eq_refl) as [D P].
  unfold left_text. cbn [st_eof]. cbn [read_atoms read_atom get_word skipws span_word obind]. cbn [h_discus h_ph]. rewrite P. reflexivity.
Qed.
