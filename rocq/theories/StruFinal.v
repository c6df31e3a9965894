(** The statements on structure texts put together. *)
From Coq Require Import Ascii String List Arith ZArith Reals Bool Lia Lra.
From Verif Require Import Base MathModel MetricModel MetricSpec ParserModel ParserLex PdfModel PdfSpec DataModel DataSpec DataProof ElementTable ScatModel ScatSpec ScatProof FmtModel FmtSpec FmtProof FmtGen FmtFinal StruModel StruSpec StruLex StruHead StruIns StruInv StruSave StruEx.
Import ListNotations.
Local Open Scope R_scope.

(** * saving *)
Lemma reads_back p : good_phase p -> exists q, near_phase p q /\
  (cell_valid q -> read_struct (save_struct p) = Ok q) /\
  (~ cell_valid q -> read_struct (save_struct p) = Err ErrStructure) /\
  (not_tiny (sp_spdiam p) -> not_tiny (sp_stepcut p) -> save_struct q = save_struct p).
Proof.
  intros G. exists (rphase p). destruct (rphase_counts p G) as [F M]. split. apply near_rphase. split; [|split].
  - intros C. rewrite saved_read by auto. apply finish_ok; auto.
  - intros C. rewrite saved_read by auto. apply finish_cell; auto.
  - intros. apply save_again; auto.
Qed.
Lemma reads_exact p : good_phase p -> cell_valid p -> exact_phase p -> read_struct (save_struct p) = Ok p.
Proof.
  intros G C E. rewrite saved_read by auto. rewrite rphase_exact by auto. apply finish_ok; auto; apply G.
Qed.
Lemma rnd_decimals k x : decimals k (rnd k x).
Proof. destruct (near_rnd k x) as (_ & _ & D). exact D. Qed.
Lemma map_decimals k l : Forall (decimals k) (map (rnd k) l).
Proof. induction l; cbn [map]; constructor; auto. apply rnd_decimals. Qed.
Lemma rshape_is_exact x : dbl_ok x -> exact_shape (rshape x).
Proof.
  intros O. unfold rshape. destruct (Rlt_dec 0 (d_val x)) as [P|P]; [|left; auto].
  assert (d_neg x = false) as N. { unfold d_val, dbl_ok in *. destruct (d_neg x); auto. lra. }
  pose proof (rnd_decimals 6 x) as D. pose proof (rnd_ok 6 x O) as R. unfold exact_shape, d_val. unfold rnd in *. rewrite N in *. cbn [d_neg d_mag] in *.
  unfold dbl_ok in R. cbn [d_mag] in R. destruct R as [R|R]. right; auto. left. unfold d_zero. f_equal. auto.
Qed.
Lemma rphase_is_exact p : good_phase p -> exact_phase (rphase p).
Proof.
  intros (_ & _ & _ & D7 & _). rewrite !Forall_cons_iff in D7. destruct D7 as (P1 & P2 & P3 & P4 & P5 & P6 & P7 & _).
  split; [|split; [apply rshape_is_exact; auto|split; [apply rshape_is_exact; auto|split; [reflexivity|]]]].
  - cbn [rphase sp_pscale sp_delta2 sp_delta1 sp_sratio sp_rcut sp_a0 sp_win sp_da0 sp_dwin]. rewrite !Forall_app. repeat (split; [try apply map_decimals|]); try apply map_decimals.
    repeat (apply Forall_cons; [apply rnd_decimals|]); apply Forall_nil.
  - cbn [rphase sp_atoms]. induction (sp_atoms p) as [|a l IH]; cbn [map]; constructor; auto. split.
    + cbn [ratom sa_pos sa_dpos sa_u sa_du]. rewrite !Forall_app. auto using map_decimals.
    + cbn [ratom sa_occ sa_docc]. repeat (apply Forall_cons; [apply rnd_decimals|]); apply Forall_nil.
Qed.
Lemma of_read t p : read_struct t = Ok p -> good_phase p /\ cell_valid p /\
  forall q, read_struct (save_struct p) = Ok q -> near_phase p q /\ read_struct (save_struct q) = Ok q.
Proof.
  intros H. destruct (read_good _ _ H) as (G & C & _). split; auto. split; auto. intros q Q. destruct (read_good _ _ Q) as (G' & C' & _).
  rewrite saved_read in Q by auto. apply finish_inv in Q. destruct Q as [-> _]. split. apply near_rphase. apply reads_exact; auto. apply rphase_is_exact; auto.
Qed.

(** * reading *)
Lemma reads ls ms at_ r body ats : Forall2 says ls ms -> Forall one_line ls -> one_line at_ -> first_word at_ (chars "atoms") r ->
  lists_atoms (discus_format ms) body ats -> let p := described ms ats in let t := lines_text (ls ++ [at_]) ++ body in
  (cell_valid p -> counts_fit p -> counts_match p -> read_struct t = Ok p) /\
  (~ cell_valid p -> read_struct t = Err ErrStructure) /\
  (cell_valid p -> counts_fit p -> ~ counts_match p -> read_struct t = Err ErrStructure) /\
  (cell_valid p -> ~ counts_fit p -> read_struct t = UB).
Proof.
  intros S O Oa A L p t. unfold t. rewrite (struct_read ls ms at_ r body ats) by auto. fold p.
  split; [intros; apply finish_ok; auto|]. split; [intros; apply finish_cell; auto|]. split; [intros; apply finish_count; auto|intros; apply finish_overflow; auto].
Qed.
Lemma reads_end ls ms : Forall2 says ls ms -> Forall one_line ls -> let p := described ms [] in
  (cell_valid p -> counts_fit p -> counts_match p -> read_struct (lines_text ls) = Ok p) /\
  (~ cell_valid p -> read_struct (lines_text ls) = Err ErrStructure) /\
  (cell_valid p -> counts_fit p -> ~ counts_match p -> read_struct (lines_text ls) = Err ErrStructure) /\
  (cell_valid p -> ~ counts_fit p -> read_struct (lines_text ls) = UB).
Proof.
  intros S O p. rewrite (struct_read_end ls ms) by auto. fold p.
  split; [intros; apply finish_ok; auto|]. split; [intros; apply finish_cell; auto|]. split; [intros; apply finish_count; auto|intros; apply finish_overflow; auto].
Qed.
Lemma accepted t p : read_struct t = Ok p -> cell_valid p /\ counts_match p /\
  Forall (fun a => (exists e, In e elements /\ sa_sym a = chars (el_symbol e)) /\ length (sa_pos a) = 3%nat /\ length (sa_u a) = 6%nat) (sp_atoms p) /\
  one_line (sp_name p) /\ length (sp_a0 p) = 3%nat /\ length (sp_win p) = 3%nat.
Proof.
  intros H. destruct (read_good _ _ H) as (G & C & _). destruct G as (N1 & N2 & SW & D7 & [La A0] & [Lw WI] & _ & _ & _ & _ & _ & A & F & M).
  split; auto. split; auto. split; auto. revert A. apply Forall_impl. intros a (S & [P _] & _ & [U _] & _). auto.
Qed.
(** * examples *)
Lemma harmless_ex : in_header [l_title] /\ last_word [l_title] (chars "title") /\ ~ In (chars "title") (chars "format" :: with_values) /\
  exists p, read_struct (lines_text ([l_title] ++ [[]]) ++ lines_text (skipn 1 (ex_head n4)) ++ body) = Ok p.
Proof.
  assert (in_header [l_title]) as H. { destruct (head_in n4 (or_intror eq_refl)) as [O N]. split. exact (proj1 (firstn_ok _ 1 _ O)). intros l r I. apply N. apply (in_or_app [l_title] (skipn 1 (ex_head n4))); auto. }
  assert (last_word [l_title] (chars "title")) as L. { exists [], l_title, (chars "  rock salt"), []. split. reflexivity. split. apply (fw (chars "title") (chars "  rock salt")). wd. reflexivity. constructor. }
  assert (~ In (chars "title") (chars "format" :: with_values)) as N. { cbn. intros Q; repeat (destruct Q as [Q|Q]; [discriminate Q|]); exact Q. }
  split; auto. split; auto. split; auto. exists (ex_p n4). rewrite blank_harmless; [|exact H|intros []|constructor|right; eauto].
  rewrite app_assoc, <- lines_app. exact ex_ok.
Qed.
Lemma note_ex : in_header (ex_head n4) /\ comment l_note /\ word_next body /\ read_struct (lines_text (ex_head n4 ++ [l_note; []]) ++ body) = Ok (ex_p n4).
Proof.
  assert (comment l_note) as C. { exists [], (chars " a comment"). apply (fw (chars "#") (chars " a comment")). wd. reflexivity. }
  assert (word_next body) as W. { exists [], "a"%char, (skipn 1 body). split. reflexivity. split. constructor. split. intros []. reflexivity. }
  split. apply head_in; auto. split; auto. split; auto. rewrite comment_harmless; [apply ex_ok|apply head_in; auto|ol|exact C|constructor; [intros []|constructor]|repeat constructor|right; exact W].
Qed.
Lemma reads_ex : Forall2 says (ex_head n4) (ex_ms n4) /\ Forall one_line (ex_head n4) /\ first_word l_atoms (chars "atoms") [] /\
  lists_atoms (discus_format (ex_ms n4)) (chars "Na 0 0.5 0 1 0 0 0 0 0.5 0.5 0.5 0 0 0 0 0 0 0 0 0" ++ junk) [ex_atom] /\
  cell_valid (described (ex_ms n4) [ex_atom]) /\ counts_fit (described (ex_ms n4) [ex_atom]) /\ counts_match (described (ex_ms n4) [ex_atom]).
Proof.
  split. apply ex_says, ok4. split. apply (ex_one_line n4); auto. split. apply atoms_first. split. apply (ex_lists junk); apply junk_none.
  split. apply ex_valid. apply ex_counts.
Qed.
Lemma unknown_ex : exists body, lists_before false body [ex_atom] ([newline] ++ chars "Xx" ++ row_text print_numeral ex_row ++ [newline]) /\
  wordy (chars "Xx") /\ (forall e, ~ means (chars "Xx") e) /\ atom_row ex_row /\ length ex_row = 20%nat /\
  read_struct (lines_text (ex_head n4 ++ [l_atoms]) ++ body) = Err ErrValue.
Proof.
  assert (forall e, ~ means (chars "Xx") e) as U by (apply lookup_none; vm_compute; reflexivity).
  assert (lists_before false (atom_text ++ [newline] ++ chars "Xx" ++ row_text print_numeral ex_row ++ [newline]) [ex_atom] ([newline] ++ chars "Xx" ++ row_text print_numeral ex_row ++ [newline])) as L.
  { apply (LB_atom false [] (chars "Na") sodium ex_row _ ex_atom []); auto. constructor. wd. apply na_means. apply ex_row_ok. repeat split; discriminate. apply ex_atom_is. constructor. }
  eexists. split; [exact L|]. split. wd. split; auto. split. apply ex_row_ok. split; [reflexivity|].
  destruct (ex_one_line n4 (or_intror eq_refl)) as [O1 O2].
  eapply (struct_unknown (ex_head n4) (ex_ms n4) l_atoms [] _ [ex_atom] [newline] (chars "Xx") ex_row [newline]); auto. apply ex_says, ok4. apply atoms_first. repeat constructor. wd. apply ex_row_ok. repeat split; discriminate.
Qed.
