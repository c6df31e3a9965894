(** Concrete structure texts. *)
From Coq Require Import Ascii String List Arith ZArith Reals Bool Lia Lra.
From Verif Require Import Base MathModel MetricModel MetricSpec ParserModel ParserLex PdfModel PdfSpec DataModel DataSpec DataProof ElementTable ScatModel ScatSpec ScatProof FmtModel FmtSpec FmtProof FmtGen FmtFinal StruModel StruSpec StruLex StruHead StruIns StruInv StruSave.
Import ListNotations.
Local Open Scope R_scope.

Definition nd (ds : list nat) : numeral := mkNum None ds None None.
Definition n4 := nd [4]%nat. Definition n90 := nd [9; 0]%nat. Definition n0 := nd [0]%nat. Definition n1 := nd [1]%nat.
Definition n05 : numeral := mkNum None [0%nat] (Some [5%nat]) None.
Lemma nd_val ds : dbl_of (nd ds) = mkDbl false (whole ds).
Proof. unfold dbl_of, numeral_value, nd. cbn [nu_sign nu_int nu_frac nu_exp sign_of]. f_equal. replace (1 * (whole ds + 0) * 1) with (whole ds) by ring. apply Rabs_right. apply Rle_ge, whole_nonneg. Qed.
Lemma d0 : dbl_of n0 = d_zero. Proof. unfold n0. rewrite nd_val. unfold d_zero. f_equal. simpl. ring. Qed.
Lemma d1 : dbl_of n1 = d_one. Proof. unfold n1. rewrite nd_val. unfold d_one. f_equal. simpl. ring. Qed.
Lemma d90 : d_val (dbl_of n90) = 90. Proof. unfold n90. rewrite nd_val. unfold d_val. cbn [d_neg d_mag]. simpl. ring. Qed.
Ltac nok := split; [repeat constructor; lia|split; [repeat constructor; lia|split; [discriminate|exact I]]].
Lemma ok4 : numeral_ok n4. Proof. nok. Qed. Lemma ok90 : numeral_ok n90. Proof. nok. Qed.
Lemma ok0 : numeral_ok n0. Proof. nok. Qed. Lemma ok1 : numeral_ok n1. Proof. nok. Qed. Lemma ok05 : numeral_ok n05. Proof. nok. Qed.
Definition bl : text := [" "%char].
Definition cm : text := chars ", ".
Lemma bl_ok : blanks bl. Proof. repeat constructor. Qed.
Lemma cm_sep : sep cm. Proof. right. exists [], bl. split; [reflexivity|]. split. constructor. apply bl_ok. Qed.

Definition l_title := chars "title  rock salt". Definition l_format := chars "format pdffit". Definition l_cell := chars "cell 4, 4, 4, 90, 90, 90".
Definition l_cell0 := chars "cell 0, 0, 0, 90, 90, 90". Definition l_ncell := chars "ncell 1, 1, 1, 1". Definition l_note := chars "# a comment". Definition l_atoms := chars "atoms".
Lemma fw1 k r : wordy (chars k) -> starts_blank r -> first_word (chars k ++ r) (chars k) r. Proof. apply fw. Qed.
Lemma title_says : says l_title (MTitle (chars "rock salt")).
Proof. apply (S_title _ (chars "  ")). apply (fw (chars "title") (chars "  rock salt")). wd. reflexivity. discriminate. repeat (apply Forall_cons; [left; reflexivity|]); apply Forall_nil. split; discriminate. Qed.
Lemma format_says : says l_format (MFormat false).
Proof. apply (S_pdffit _ (chars " pdffit") []). apply (fw (chars "format") (chars " pdffit")). wd. reflexivity. exists bl. split; [reflexivity|]. split. apply bl_ok. split. wd. exact I. Qed.
Lemma cell_says a : numeral_ok a -> says (chars "cell" ++ bl ++ print_numeral a ++ cm ++ print_numeral a ++ cm ++ print_numeral a ++ chars ", 90, 90, 90")
  (MCell [dbl_of a; dbl_of a; dbl_of a] [dbl_of n90; dbl_of n90; dbl_of n90]).
Proof.
  intros A. eapply S_cell. apply (fw (chars "cell") (bl ++ _)). wd. reflexivity.
  exists [(bl, a); (cm, a); (cm, a); (cm, n90); (cm, n90); (cm, n90)]. split. rewrite app_nil_r, !row_text_cons. reflexivity.
  pose proof ok90. pose proof cm_sep. split. split. apply bl_ok. repeat (apply Forall_cons; [assumption|]); apply Forall_nil.
  split. repeat (apply Forall_cons; [assumption|]); apply Forall_nil. split. reflexivity. exact I.
Qed.
Definition i1 : option bool * list nat := (None, [1%nat]).
Lemma i1_ok : int_ok i1. Proof. split. discriminate. split. repeat constructor. split; discriminate. Qed.
Lemma ncell_says : says l_ncell (MNcell [1; 1; 1]%Z 1%Z).
Proof.
  eapply S_ncell. apply (fw (chars "ncell") (chars " 1, 1, 1, 1")). wd. reflexivity.
  exists [(bl, i1); (cm, i1); (cm, i1); (cm, i1)]. split. reflexivity. pose proof i1_ok. pose proof cm_sep. split. split. apply bl_ok. repeat (apply Forall_cons; [assumption|]); apply Forall_nil.
  split. repeat (apply Forall_cons; [assumption|]); apply Forall_nil. split. reflexivity. exact I.
Qed.
Lemma note_says : says l_note MNothing.
Proof. apply (S_other _ (chars "#") (chars " a comment")). apply (fw (chars "#") (chars " a comment")). wd. reflexivity. cbn. intros Q; repeat (destruct Q as [Q|Q]; [discriminate Q|]); exact Q. Qed.
Lemma atoms_first : first_word l_atoms (chars "atoms") [].
Proof. exists []. split; [reflexivity|]. split. constructor. split. wd. exact I. Qed.

(** an atom with twenty numbers *)
Definition ex_nums : list numeral := [n0; n05; n0; n1; n0; n0; n0; n0; n05; n05; n05; n0; n0; n0; n0; n0; n0; n0; n0; n0].
Definition ex_row : list (text * numeral) := map (fun n => (bl, n)) ex_nums.
Definition ex_v : list dbl := map dbl_of ex_nums.
Definition atom_text : text := chars "Na" ++ row_text print_numeral ex_row.
Lemma atom_text_is : atom_text = chars "Na 0 0.5 0 1 0 0 0 0 0.5 0.5 0.5 0 0 0 0 0 0 0 0 0".
Proof. reflexivity. Qed.
Lemma ex_row_ok : atom_row ex_row.
Proof.
  pose proof ok0. pose proof ok1. pose proof ok05. unfold ex_row, ex_nums. cbn [map].
  repeat (apply Forall_cons; [split; [apply bl_ok|split; [discriminate|assumption]]|]); apply Forall_nil.
Qed.
Definition sodium : element := mkEl "Na" "Sodium" 11%Z (229897702%Z, 7%nat) (11%Z, 0%nat) (3632%Z, 3%nat).
Lemma na_means : means (chars "Na") sodium. Proof. apply lookup_ok. vm_compute. reflexivity. Qed.
Definition ex_atom : satom := pdffit_atom (chars "Na") ex_v.
Lemma ex_atom_is : atom_is false sodium (map (fun x => dbl_of (snd x)) ex_row) ex_atom.
Proof. split; [reflexivity|]. repeat eexists. Qed.
(** the atom, and then a text where no further atom is found *)
Lemma ex_lists r : stops r -> no_atom false r -> lists_atoms false (atom_text ++ r) [ex_atom].
Proof.
  intros S N. apply (LA_atom false [] (chars "Na") sodium ex_row r ex_atom []); auto. constructor. wd. apply na_means. apply ex_row_ok. apply ex_atom_is. apply LA_end; auto.
Qed.
Definition junk : text := newline :: chars "Cl 0.5 0.5 x".
Lemma junk_none : no_atom false junk /\ stops junk.
Proof.
  split; [|repeat split; discriminate]. right. exists [newline], (chars "Cl"), [(bl, n05); (bl, n05)], (chars " x"). split. reflexivity. split. repeat constructor. split. wd.
  pose proof ok05. split. repeat (apply Forall_cons; [split; [apply bl_ok|split; [discriminate|assumption]]|]); apply Forall_nil.
  split. cbn; lia. split. exists bl, (chars "x"). split. reflexivity. split. apply bl_ok. repeat split; discriminate. reflexivity.
Qed.
Lemma end_none : no_atom false [newline] /\ stops [newline].
Proof. split; [left; repeat constructor|repeat split; discriminate]. Qed.

Definition ex_head (a : numeral) : list text := [l_title; l_note; l_format; chars "cell" ++ bl ++ print_numeral a ++ cm ++ print_numeral a ++ cm ++ print_numeral a ++ chars ", 90, 90, 90"; l_ncell].
Definition ex_ms (a : numeral) : list meaning := [MTitle (chars "rock salt"); MNothing; MFormat false; MCell [dbl_of a; dbl_of a; dbl_of a] [dbl_of n90; dbl_of n90; dbl_of n90]; MNcell [1; 1; 1]%Z 1%Z].
Lemma ex_says a : numeral_ok a -> Forall2 says (ex_head a) (ex_ms a).
Proof.
  intros A. constructor; [apply title_says|]. constructor; [apply note_says|]. constructor; [apply format_says|]. constructor; [apply cell_says; auto|]. constructor; [apply ncell_says|]. constructor.
Qed.
Definition ex_p (a : numeral) : sphase := described (ex_ms a) [ex_atom].
Definition ex_text (a : numeral) (r : text) : text := lines_text (ex_head a ++ [l_atoms]) ++ atom_text ++ r.
Lemma gram_90 : gram 0 0 0 = 1. Proof. unfold gram. ring. Qed.
Lemma ex_valid a : cell_valid (ex_p a).
Proof.
  unfold cell_valid. cbn [ex_p described ex_ms final fold_left sp_win nth]. rewrite d90. replace (90 * PI / 180) with (PI / 2) by field. rewrite cos_PI2.
  unfold gram, double_eps. lra.
Qed.
Lemma ex_counts a : counts_fit (ex_p a) /\ counts_match (ex_p a).
Proof. split. split. split; discriminate. split; split; discriminate. reflexivity. Qed.
Lemma ex_one_line a : a = n0 \/ a = n4 -> Forall one_line (ex_head a) /\ one_line l_atoms.
Proof. intros [-> | ->]; (split; [|ol]); repeat (apply Forall_cons; [ol|]); apply Forall_nil. Qed.
Lemma ex_reads a r : a = n0 \/ a = n4 -> no_atom false r -> stops r -> read_struct (ex_text a r) = Ok (ex_p a).
Proof.
  intros Ha N S. destruct (ex_one_line a Ha) as [O1 O2]. unfold ex_text.
  rewrite (struct_read (ex_head a) (ex_ms a) l_atoms [] (atom_text ++ r) [ex_atom]); auto.
  - destruct (ex_counts a). apply (finish_ok (ex_p a)); auto. apply ex_valid.
  - apply ex_says. destruct Ha as [-> | ->]; [apply ok0|apply ok4].
  - apply atoms_first.
  - apply ex_lists; auto.
Qed.

(** * inserted lines *)
Definition body : text := lines_text [l_atoms] ++ atom_text ++ [newline].
Lemma ex_text_split : ex_text n4 [newline] = lines_text (ex_head n4) ++ body.
Proof. unfold ex_text, body. rewrite lines_app, <- app_assoc. reflexivity. Qed.
Lemma ex_ok : read_struct (lines_text (ex_head n4) ++ body) = Ok (ex_p n4).
Proof. rewrite <- ex_text_split. apply ex_reads; auto; apply end_none. Qed.
Lemma not_atoms l w r : first_word l w r -> w <> chars "atoms" -> forall q, ~ first_word l (chars "atoms") q.
Proof. intros F N q G. destruct (first_word_fun _ _ _ _ _ F G). auto. Qed.
Lemma head_in a : a = n0 \/ a = n4 -> in_header (ex_head a).
Proof.
  intros Ha. split. apply (ex_one_line a Ha).
  intros l r I F. apply get_word_first in F. revert F. destruct Ha as [-> | ->]; cbn [ex_head In] in I; repeat (destruct I as [<-|I]; [vm_compute; discriminate|]); destruct I.
Qed.
Lemma last_ncell : last_word (ex_head n4) (chars "ncell").
Proof. exists (firstn 4 (ex_head n4)), l_ncell, (chars " 1, 1, 1, 1"), []. split. reflexivity. split. apply (fw (chars "ncell") (chars " 1, 1, 1, 1")). wd. reflexivity. constructor. Qed.
Lemma blank_breaks : exists ls l t p, in_header ls /\ one_line l /\ blanks l /\
  read_struct (lines_text ls ++ t) = Ok p /\ read_struct (lines_text (ls ++ [l]) ++ t) = Err ErrStructure.
Proof.
  exists (ex_head n4), [], body, (ex_p n4). split. apply head_in; auto. split. intros []. split. constructor. split. apply ex_ok.
  eapply blank_error; [apply head_in; auto|intros []|constructor|apply last_ncell|cbn; tauto].
Qed.
(** a blank line after "format pdffit": the atoms are taken for DISCUS atoms *)
Definition head1 : list text := [l_title; l_note; l_format].
Definition head2 : list text := [chars "cell" ++ bl ++ print_numeral n4 ++ cm ++ print_numeral n4 ++ cm ++ print_numeral n4 ++ chars ", 90, 90, 90"; l_ncell].
Definition ms_d : list meaning := [MTitle (chars "rock salt"); MNothing; MFormat false; MFormat true; MCell [dbl_of n4; dbl_of n4; dbl_of n4] [dbl_of n90; dbl_of n90; dbl_of n90]; MNcell [1; 1; 1]%Z 1%Z].
Definition row4 : list (text * numeral) := firstn 4 ex_row.
Definition next4 : list (text * numeral) := firstn 4 (skipn 5 ex_row).
Definition last_row : list (text * numeral) := skipn 9 ex_row.
Lemma blank_switches : exists ls l t p, in_header ls /\ one_line l /\ blanks l /\ last_word ls (chars "format") /\
  read_struct (lines_text ls ++ t) = Ok p /\ read_struct (lines_text (ls ++ [l]) ++ t) = Err ErrValue.
Proof.
  exists head1, [], (lines_text head2 ++ body), (ex_p n4). 
  assert (in_header head1) as H1. { destruct (head_in n4 (or_intror eq_refl)) as [O N]. split. exact (proj1 (firstn_ok _ 3 _ O)). intros l r I. apply N. apply (in_or_app head1 head2); auto. }
  assert (last_word head1 (chars "format")) as L. { exists [l_title; l_note], l_format, (chars " pdffit"), []. split. reflexivity. split. apply (fw (chars "format") (chars " pdffit")). wd. reflexivity. constructor. }
  split; auto. split. intros []. split. constructor. split; auto. split.
  - rewrite app_assoc, <- lines_app. exact ex_ok.
  - rewrite blank_format; [|exact H1|intros []|constructor|exact L]. rewrite app_assoc, <- lines_app. unfold body. rewrite app_assoc, <- lines_app.
    apply (struct_unknown ((head1 ++ [chars "format"]) ++ head2) ms_d l_atoms [] (atom_text ++ [newline]) [discus_atom (chars "Na") [dbl_of n0; dbl_of n05; dbl_of n0; dbl_of n1]] bl (chars "0") next4 (row_text print_numeral last_row ++ [newline])).
    + constructor; [apply title_says|]. constructor; [apply note_says|]. constructor; [apply format_says|]. constructor. { apply (S_format_only _ []). exact (fw (chars "format") [] ltac:(wd) I). constructor. }
      constructor; [apply cell_says; apply ok4|]. constructor; [apply ncell_says|]. constructor.
    + destruct (ex_one_line n4 (or_intror eq_refl)) as [O _]. repeat (apply Forall_cons; [ol|]); apply Forall_nil.
    + ol.
    + apply atoms_first.
    + apply (LB_atom true [] (chars "Na") sodium row4 (bl ++ chars "0" ++ row_text print_numeral next4 ++ row_text print_numeral last_row ++ [newline])).
      constructor. wd. apply na_means. exact (proj1 (firstn_ok _ 4 _ ex_row_ok)). repeat split; discriminate.
      split; [reflexivity|]. exists (dbl_of n0), (dbl_of n05), (dbl_of n0), (dbl_of n1). split; [reflexivity|]. split; [reflexivity|]. split; [reflexivity|].
      split; [|repeat split]. exists (b_to_u (dbl_of n1)). split. reflexivity. split. reflexivity. apply b_to_u_val. constructor.
    + apply bl_ok.
    + wd.
    + apply lookup_none. vm_compute. reflexivity.
    + exact (proj1 (firstn_ok _ 4 _ (proj2 (firstn_ok _ 5 _ ex_row_ok)))).
    + reflexivity.
    + repeat split; discriminate.
Qed.
(** a comment before a blank line changes what the blank line does *)
Lemma comment_heals : exists ls x t p, in_header ls /\ one_line x /\ comment x /\
  read_struct (lines_text ls ++ t) = Err ErrStructure /\ read_struct (lines_text (ls ++ [x]) ++ t) = Ok p.
Proof.
  assert (comment l_note) as C. { exists [], (chars " a comment"). apply (fw (chars "#") (chars " a comment")). wd. reflexivity. }
  exists (ex_head n4), l_note, (lines_text [[]] ++ body), (ex_p n4). split. apply head_in; auto. split. ol. split; auto. split.
  - rewrite app_assoc, <- lines_app. eapply blank_error; [apply head_in; auto|intros []|constructor|apply last_ncell|cbn; tauto].
  - rewrite app_assoc, <- lines_app, <- app_assoc. change ([l_note] ++ [[]]) with (l_note :: [[]] : list text). rewrite comment_harmless; [apply ex_ok|apply head_in; auto|ol|exact C|constructor; [intros []|constructor]|repeat constructor|]. right. exists [], "a"%char, (skipn 1 body). split. reflexivity. split. constructor. split. intros []. reflexivity.
Qed.

(** * texts accepted *)
Lemma ignored_rest : exists t junk p, read_struct t = Ok p /\ read_struct (t ++ junk) = Ok p /\ ~ blanks junk.
Proof.
  exists (ex_text n4 []), junk, (ex_p n4). split. apply ex_reads; auto. left. constructor. exact I.
  split. unfold ex_text. rewrite app_nil_r, <- app_assoc. fold (ex_text n4 junk). apply ex_reads; auto; apply junk_none.
  intros B. inversion B as [|? ? _ Q]. inversion Q as [|? ? Q2 _]. discriminate Q2.
Qed.
Lemma zero_edges : exists t p, read_struct t = Ok p /\ sp_a0 p = [d_zero; d_zero; d_zero].
Proof.
  exists (ex_text n0 [newline]), (ex_p n0). split. apply ex_reads; auto; apply end_none. cbn [ex_p described ex_ms final fold_left sp_a0]. rewrite d0. reflexivity.
Qed.

(** * saved structures *)
Lemma dec_nd ds k : decimals k (dbl_of (nd ds)).
Proof. exists (whole_z ds * 10 ^ Z.of_nat k)%Z. rewrite nd_val. cbn [d_mag]. rewrite mult_IZR. rewrite <- pow_IZR, whole_z_R. auto. Qed.

Lemma dec_05 k : (0 < k)%nat -> decimals k (dbl_of n05).
Proof.
  intros K. destruct k as [|k]; [lia|]. exists (5 * 10 ^ Z.of_nat k)%Z. unfold dbl_of, numeral_value, n05. cbn [nu_sign nu_int nu_frac nu_exp sign_of d_mag whole fraction].
  rewrite mult_IZR, <- pow_IZR. simpl INR. rewrite Rabs_right by (simpl; lra). simpl. field.
Qed.
Lemma ex_exact : exact_phase (ex_p n4).
Proof.
  assert (forall k, decimals k d_zero) as Z0. { intros k. exists 0%Z. unfold d_zero. cbn [d_mag]. ring. }
  assert (forall k, decimals k d_one) as Z1. { intros k. exists (10 ^ Z.of_nat k)%Z. unfold d_one. cbn [d_mag]. rewrite <- pow_IZR. ring. }
  assert (forall k, decimals k (dbl_of n0)) as A0 by (intros; apply dec_nd). assert (forall k, decimals k (dbl_of n1)) as A1 by (intros; apply dec_nd).
  assert (forall k, decimals k (dbl_of n4)) as A4 by (intros; apply dec_nd). assert (forall k, decimals k (dbl_of n90)) as A9 by (intros; apply dec_nd).
  pose proof (dec_05 8 ltac:(lia)) as H8.
  split; [|split; [left; reflexivity|split; [left; reflexivity|split; [reflexivity|]]]].
  - cbn [ex_p described ex_ms final fold_left sp_pscale sp_delta2 sp_delta1 sp_sratio sp_rcut sp_a0 sp_win sp_da0 sp_dwin app]. repeat (apply Forall_cons; [solve [auto]|]); apply Forall_nil.
  - apply Forall_cons; [|apply Forall_nil]. split; unfold ex_atom, pdffit_atom, ex_v, ex_nums; cbn [map firstn skipn nth app sa_pos sa_dpos sa_u sa_du sa_occ sa_docc];
    repeat (apply Forall_cons; [solve [auto]|]); apply Forall_nil.
Qed.
Lemma ex_good : good_phase (ex_p n4) /\ cell_valid (ex_p n4).
Proof. destruct (read_good _ _ ex_ok) as (G & C & _). auto. Qed.
Lemma ex_saved : read_struct (save_struct (ex_p n4)) = Ok (ex_p n4).
Proof. destruct ex_good as [G C]. rewrite saved_read by auto. rewrite rphase_exact by apply ex_exact. destruct (ex_counts n4). apply finish_ok; auto. Qed.

(** a particle diameter below the printed decimals *)
Definition tiny : dbl := mkDbl false (/ 4000000).
Definition tiny_p : sphase := set_sphere (ex_p n4) tiny.
Lemma tiny_good : good_phase tiny_p.
Proof.
  destruct ex_good as [(N1 & N2 & SW & D7 & R) _]. rewrite !Forall_cons_iff in D7. destruct D7 as (P1 & P2 & P3 & P4 & P5 & P6 & P7 & _).
  split; [exact N1|]. split; [exact N2|]. split; [exact SW|]. split; [|exact R].
  assert (dbl_ok tiny) as T by (unfold dbl_ok, tiny; cbn [d_mag]; lra). repeat (apply Forall_cons; [assumption|]); apply Forall_nil.
Qed.
Lemma tiny_rnd : rnd 6 tiny = d_zero.
Proof.
  unfold rnd, kof, tiny. cbn [d_neg d_mag]. rewrite (round_even_is _ 0%Z). unfold d_zero. f_equal. unfold Rdiv. ring.
  simpl. rewrite Rabs_right; lra.
Qed.
Lemma tiny_read : rphase tiny_p = ex_p n4.
Proof.
  transitivity (rphase (ex_p n4)); [|apply rphase_exact, ex_exact]. unfold rphase. cbn [tiny_p set_sphere sp_name sp_spcgr sp_pscale sp_delta2 sp_delta1 sp_sratio sp_rcut sp_spdiam sp_stepcut sp_a0 sp_win sp_da0 sp_dwin sp_icc sp_ncatoms sp_dev sp_atoms].
  f_equal. unfold rshape. rewrite tiny_rnd. destruct (Rlt_dec 0 (d_val tiny)); destruct (Rlt_dec 0 (d_val (sp_spdiam (ex_p n4)))) as [Q|Q]; auto; unfold d_val in Q; cbn in Q; lra.
Qed.
Lemma tiny_lost : exists p q, good_phase p /\ cell_valid p /\ read_struct (save_struct p) = Ok q /\ 0 < d_val (sp_spdiam p) /\ sp_spdiam q = d_zero /\ save_struct q <> save_struct p.
Proof.
  exists tiny_p, (ex_p n4). split; [exact tiny_good|]. split; [exact (proj2 ex_good)|]. split.
  { rewrite saved_read by exact tiny_good. rewrite tiny_read. destruct (ex_counts n4). apply finish_ok; auto. apply ex_good. }
  assert (0 < d_val tiny) as T by (unfold d_val, tiny; cbn [d_neg d_mag]; lra).
  split; auto. split; [reflexivity|]. intros E. apply (f_equal (@length ascii)) in E. unfold save_struct in E. rewrite !app_length in E.
  change (sp_atoms tiny_p) with (sp_atoms (ex_p n4)) in E. unfold save_header in E. change (sp_spdiam tiny_p) with tiny in E.
  unfold save_shape in E. destruct (Rlt_dec 0 (d_val tiny)) as [_|N]; [|tauto].
  destruct (Rlt_dec 0 (d_val (sp_spdiam (ex_p n4)))) as [Q|_]; [unfold d_val in Q; cbn in Q; lra|].
  change (sp_stepcut tiny_p) with (sp_stepcut (ex_p n4)) in E.
  change (sp_name tiny_p) with (sp_name (ex_p n4)) in E. change (sp_pscale tiny_p) with (sp_pscale (ex_p n4)) in E. change (sp_delta2 tiny_p) with (sp_delta2 (ex_p n4)) in E.
  change (sp_delta1 tiny_p) with (sp_delta1 (ex_p n4)) in E. change (sp_sratio tiny_p) with (sp_sratio (ex_p n4)) in E. change (sp_rcut tiny_p) with (sp_rcut (ex_p n4)) in E. change (sp_spcgr tiny_p) with (sp_spcgr (ex_p n4)) in E.
  change (sp_a0 tiny_p) with (sp_a0 (ex_p n4)) in E. change (sp_win tiny_p) with (sp_win (ex_p n4)) in E. change (sp_da0 tiny_p) with (sp_da0 (ex_p n4)) in E. change (sp_dwin tiny_p) with (sp_dwin (ex_p n4)) in E.
  change (sp_icc tiny_p) with (sp_icc (ex_p n4)) in E. change (sp_ncatoms tiny_p) with (sp_ncatoms (ex_p n4)) in E.
  rewrite !map_app, !concat_app, !app_length in E. cbn [map concat] in E. rewrite !app_length in E. cbn [length] in E. change (length (chars "sphere")) with 6%nat in E. lia.
Qed.
(** deviations outside the cell and the atoms *)
Definition dev_p : sphase := let p := ex_p n4 in
  mkSp (sp_name p) (sp_spcgr p) (sp_pscale p) (sp_delta2 p) (sp_delta1 p) (sp_sratio p) (sp_rcut p) (sp_spdiam p) (sp_stepcut p) (sp_a0 p) (sp_win p) (sp_da0 p) (sp_dwin p) (sp_icc p) (sp_ncatoms p) [d_one; d_zero; d_zero; d_zero; d_zero] (sp_atoms p).
Lemma deviations_lost : exists p q, good_phase p /\ read_struct (save_struct p) = Ok q /\ nth 0 (sp_dev p) d_zero = d_one /\ nth 0 (sp_dev q) d_one = d_zero /\
  near_phase p q /\ sp_da0 p = sp_da0 q /\ sp_dwin p = sp_dwin q /\ sp_atoms p = sp_atoms q /\ sp_pscale p = sp_pscale q.
Proof.
  exists dev_p, (ex_p n4). assert (good_phase dev_p) as G by exact (proj1 ex_good). split; auto.
  assert (rphase dev_p = ex_p n4) as E. { transitivity (rphase (ex_p n4)). reflexivity. apply rphase_exact, ex_exact. }
  split. { rewrite saved_read by auto. rewrite E. destruct (ex_counts n4). apply finish_ok; auto. apply ex_good. }
  split; [reflexivity|]. split; [reflexivity|]. split; [rewrite <- E; apply near_rphase|]. auto.
Qed.
(** * a text that stops before the atoms *)
Definition cut_head : list text := firstn 4 (ex_head n4).
Definition cut_ms : list meaning := firstn 4 (ex_ms n4).
Lemma cut_says : Forall2 says cut_head cut_ms /\ Forall one_line cut_head.
Proof.
  split. constructor; [apply title_says|]. constructor; [apply note_says|]. constructor; [apply format_says|]. constructor; [apply cell_says; apply ok4|]. constructor.
  destruct (ex_one_line n4 (or_intror eq_refl)) as [O _]. exact (proj1 (firstn_ok _ 4 _ O)).
Qed.
Lemma cut_valid : cell_valid (described cut_ms []) /\ counts_fit (described cut_ms []) /\ counts_match (described cut_ms []).
Proof. split. exact (ex_valid n4). split. split. split; discriminate. split; split; discriminate. reflexivity. Qed.
Lemma no_atoms : exists t p, read_struct t = Ok p /\ sp_atoms p = [] /\ Forall2 says cut_head cut_ms /\ t = lines_text cut_head.
Proof.
  exists (lines_text cut_head), (described cut_ms []). destruct cut_says as [S O]. destruct cut_valid as (C & F & M). split; auto.
  rewrite (struct_read_end _ cut_ms) by auto. apply finish_ok; auto.
Qed.
