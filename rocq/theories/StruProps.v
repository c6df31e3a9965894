(** Properties C29, C30, C58 and C59: structure texts. *)
From Coq Require Import Ascii String List Arith ZArith Reals Bool Lia Lra.
From Verif Require Import Base MetricModel MetricSpec ParserModel PdfModel PdfSpec DataModel DataSpec ElementTable ScatModel ScatSpec FmtModel FmtSpec StruModel StruSpec StruHead StruIns StruInv StruSave StruEx StruFinal.
Import ListNotations.
Local Open Scope R_scope.

(** ** C29 *)
(** A blank line is harmless before the first keyword and after a comment, an unknown
    keyword, a title or a space group. *)
Theorem C29_blank_harmless : forall ls l t, in_header ls -> one_line l -> blanks l ->
  (Forall blanks ls \/ exists w, last_word ls w /\ ~ In w (chars "format" :: with_values)) ->
  read_struct (lines_text (ls ++ [l]) ++ t) = read_struct (lines_text ls ++ t).
Proof. exact blank_harmless. Qed.
Print Assumptions C29_blank_harmless.
Example C29_blank_harmless_ex : in_header [l_title] /\ last_word [l_title] (chars "title") /\ ~ In (chars "title") (chars "format" :: with_values) /\
  exists p, read_struct (lines_text ([l_title] ++ [[]]) ++ lines_text (skipn 1 (ex_head n4)) ++ body) = Ok p.
Proof. exact harmless_ex. Qed.

(** After a keyword with values it makes the text unreadable, whatever follows. *)
Theorem C29_blank_error : forall ls l t w, in_header ls -> one_line l -> blanks l -> last_word ls w -> In w with_values ->
  read_struct (lines_text (ls ++ [l]) ++ t) = Err ErrStructure.
Proof. exact blank_error. Qed.
Print Assumptions C29_blank_error.
Example C29_blank_error_ex : in_header (ex_head n4) /\ last_word (ex_head n4) (chars "ncell") /\ In (chars "ncell") with_values.
Proof. split; [exact (head_in n4 (or_intror eq_refl))|]. split; [exact last_ncell|cbn; tauto]. Qed.

(** After "format ..." it acts as "format" alone, which means DISCUS. *)
Theorem C29_blank_format : forall ls l t, in_header ls -> one_line l -> blanks l -> last_word ls (chars "format") ->
  read_struct (lines_text (ls ++ [l]) ++ t) = read_struct (lines_text (ls ++ [chars "format"]) ++ t).
Proof. exact blank_format. Qed.
Print Assumptions C29_blank_format.
Example C29_blank_format_ex : exists ls l t p, in_header ls /\ one_line l /\ blanks l /\ last_word ls (chars "format") /\
  read_struct (lines_text ls ++ t) = Ok p /\ read_struct (lines_text (ls ++ [l]) ++ t) = Err ErrValue.
Proof. exact blank_switches. Qed.

(** A comment with the blank lines after it is harmless. *)
Theorem C29_comment_harmless : forall ls x bs t, in_header ls -> one_line x -> comment x -> Forall one_line bs -> Forall blanks bs -> t = [] \/ word_next t ->
  read_struct (lines_text (ls ++ x :: bs) ++ t) = read_struct (lines_text ls ++ t).
Proof. exact comment_harmless. Qed.
Print Assumptions C29_comment_harmless.
Example C29_comment_harmless_ex : in_header (ex_head n4) /\ comment l_note /\ word_next body /\ read_struct (lines_text (ex_head n4 ++ [l_note; []]) ++ body) = Ok (ex_p n4).
Proof. exact note_ex. Qed.

(** Blank lines in general are not harmless, and neither is a comment before a blank line. *)
Theorem C29_refuted : exists ls l t p, in_header ls /\ one_line l /\ blanks l /\
  read_struct (lines_text ls ++ t) = Ok p /\ read_struct (lines_text (ls ++ [l]) ++ t) = Err ErrStructure.
Proof. exact blank_breaks. Qed.
Print Assumptions C29_refuted.
Theorem C29_comment_refuted : exists ls x t p, in_header ls /\ one_line x /\ comment x /\
  read_struct (lines_text ls ++ t) = Err ErrStructure /\ read_struct (lines_text (ls ++ [x]) ++ t) = Ok p.
Proof. exact comment_heals. Qed.
Print Assumptions C29_comment_refuted.

(** ** C30 *)
(** A saved structure reads back as itself up to the printed decimals, provided its
    rounded angles still make a cell; saving that again gives the same text unless a
    shape correction is too small to be printed. *)
Theorem C30_reads_back : forall p, good_phase p -> exists q, near_phase p q /\
  (cell_valid q -> read_struct (save_struct p) = Ok q) /\
  (~ cell_valid q -> read_struct (save_struct p) = Err ErrStructure) /\
  (not_tiny (sp_spdiam p) -> not_tiny (sp_stepcut p) -> save_struct q = save_struct p).
Proof. exact reads_back. Qed.
Print Assumptions C30_reads_back.
Example C30_reads_back_ex : good_phase (ex_p n4) /\ cell_valid (ex_p n4) /\ read_struct (save_struct (ex_p n4)) = Ok (ex_p n4).
Proof. exact (conj (proj1 ex_good) (conj (proj2 ex_good) ex_saved)). Qed.

(** Structures whose numbers have no more than the printed decimals come back unchanged. *)
Theorem C30_exact : forall p, good_phase p -> cell_valid p -> exact_phase p -> read_struct (save_struct p) = Ok p.
Proof. exact reads_exact. Qed.
Print Assumptions C30_exact.
Example C30_exact_ex : good_phase (ex_p n4) /\ cell_valid (ex_p n4) /\ exact_phase (ex_p n4).
Proof. exact (conj (proj1 ex_good) (conj (proj2 ex_good) ex_exact)). Qed.

(** Every structure that was read can be saved and read back so, and what was read back
    is saved and read back without any further change. *)
Theorem C30_of_read : forall t p, read_struct t = Ok p -> good_phase p /\ cell_valid p /\
  forall q, read_struct (save_struct p) = Ok q -> near_phase p q /\ read_struct (save_struct q) = Ok q.
Proof. exact of_read. Qed.
Print Assumptions C30_of_read.
Example C30_of_read_ex : read_struct (lines_text (ex_head n4) ++ body) = Ok (ex_p n4) /\ read_struct (save_struct (ex_p n4)) = Ok (ex_p n4).
Proof. exact (conj ex_ok ex_saved). Qed.

(** A particle diameter up to 5e-7 is printed as zero and gone after reading back; saving
    again then gives another text. *)
Theorem C30_refuted : exists p q, good_phase p /\ cell_valid p /\ read_struct (save_struct p) = Ok q /\
  0 < d_val (sp_spdiam p) /\ sp_spdiam q = d_zero /\ save_struct q <> save_struct p.
Proof. exact tiny_lost. Qed.
Print Assumptions C30_refuted.
(** The deviations of the scale, the sharpening and the diameter are not saved. *)
Theorem C30_deviations_refuted : exists p q, good_phase p /\ read_struct (save_struct p) = Ok q /\
  nth 0 (sp_dev p) d_zero = d_one /\ nth 0 (sp_dev q) d_one = d_zero /\
  near_phase p q /\ sp_da0 p = sp_da0 q /\ sp_dwin p = sp_dwin q /\ sp_atoms p = sp_atoms q /\ sp_pscale p = sp_pscale q.
Proof. exact deviations_lost. Qed.
Print Assumptions C30_deviations_refuted.

(** ** C58 *)
(** A text is read as its lines say: the last line about an item counts, unknown
    keywords and comments say nothing, the atoms follow in the announced format. *)
Theorem C58_reads : forall ls ms at_ r body ats, Forall2 says ls ms -> Forall one_line ls -> one_line at_ -> first_word at_ (chars "atoms") r ->
  lists_atoms (discus_format ms) body ats -> let p := described ms ats in let t := lines_text (ls ++ [at_]) ++ body in
  (cell_valid p -> counts_fit p -> counts_match p -> read_struct t = Ok p) /\
  (~ cell_valid p -> read_struct t = Err ErrStructure) /\
  (cell_valid p -> counts_fit p -> ~ counts_match p -> read_struct t = Err ErrStructure) /\
  (cell_valid p -> ~ counts_fit p -> read_struct t = UB).
Proof. exact reads. Qed.
Print Assumptions C58_reads.
Example C58_reads_ex : Forall2 says (ex_head n4) (ex_ms n4) /\ Forall one_line (ex_head n4) /\ first_word l_atoms (chars "atoms") [] /\
  lists_atoms (discus_format (ex_ms n4)) (chars "Na 0 0.5 0 1 0 0 0 0 0.5 0.5 0.5 0 0 0 0 0 0 0 0 0" ++ junk) [ex_atom] /\
  cell_valid (described (ex_ms n4) [ex_atom]) /\ counts_fit (described (ex_ms n4) [ex_atom]) /\ counts_match (described (ex_ms n4) [ex_atom]).
Proof. exact reads_ex. Qed.

(** Without a line "atoms" the structure has no atoms. *)
Theorem C58_reads_end : forall ls ms, Forall2 says ls ms -> Forall one_line ls -> let p := described ms [] in
  (cell_valid p -> counts_fit p -> counts_match p -> read_struct (lines_text ls) = Ok p) /\
  (~ cell_valid p -> read_struct (lines_text ls) = Err ErrStructure) /\
  (cell_valid p -> counts_fit p -> ~ counts_match p -> read_struct (lines_text ls) = Err ErrStructure) /\
  (cell_valid p -> ~ counts_fit p -> read_struct (lines_text ls) = UB).
Proof. exact reads_end. Qed.
Print Assumptions C58_reads_end.
Example C58_reads_end_ex : (Forall2 says cut_head cut_ms /\ Forall one_line cut_head) /\
  cell_valid (described cut_ms []) /\ counts_fit (described cut_ms []) /\ counts_match (described cut_ms []).
Proof. exact (conj cut_says cut_valid). Qed.

(** An unknown element makes the reading fail. *)
Theorem C58_unknown : forall ls ms at_ r body ats b w row q, Forall2 says ls ms -> Forall one_line ls -> one_line at_ -> first_word at_ (chars "atoms") r ->
  lists_before (discus_format ms) body ats (b ++ w ++ row_text print_numeral row ++ q) ->
  blanks b -> wordy w -> (forall e, ~ means w e) -> atom_row row -> length row = (if discus_format ms then 4 else 20)%nat -> stops q ->
  read_struct (lines_text (ls ++ [at_]) ++ body) = Err ErrValue.
Proof. exact struct_unknown. Qed.
Print Assumptions C58_unknown.
Example C58_unknown_ex : exists body, lists_before false body [ex_atom] ([newline] ++ chars "Xx" ++ row_text print_numeral ex_row ++ [newline]) /\
  wordy (chars "Xx") /\ (forall e, ~ means (chars "Xx") e) /\ atom_row ex_row /\ length ex_row = 20%nat /\
  read_struct (lines_text (ex_head n4 ++ [l_atoms]) ++ body) = Err ErrValue.
Proof. exact unknown_ex. Qed.

(** It is not true that everything in the text is used: a malformed atom ends the
    reading silently. *)
Theorem C58_refuted : exists t junk p, read_struct t = Ok p /\ read_struct (t ++ junk) = Ok p /\ ~ blanks junk.
Proof. exact ignored_rest. Qed.
Print Assumptions C58_refuted.

(** ** C59 *)
(** Every structure that is accepted has angles that make a cell, as many atoms as
    announced, and atoms of known elements. *)
Theorem C59_accepted : forall t p, read_struct t = Ok p -> cell_valid p /\ counts_match p /\
  Forall (fun a => (exists e, In e elements /\ sa_sym a = chars (el_symbol e)) /\ length (sa_pos a) = 3%nat /\ length (sa_u a) = 6%nat) (sp_atoms p) /\
  one_line (sp_name p) /\ length (sp_a0 p) = 3%nat /\ length (sp_win p) = 3%nat.
Proof. exact accepted. Qed.
Print Assumptions C59_accepted.
Example C59_accepted_ex : read_struct (lines_text (ex_head n4) ++ body) = Ok (ex_p n4).
Proof. exact ex_ok. Qed.

(** But the cell edges may be zero. *)
Theorem C59_refuted : exists t p, read_struct t = Ok p /\ sp_a0 p = [d_zero; d_zero; d_zero].
Proof. exact zero_edges. Qed.
Print Assumptions C59_refuted.
(** And a text that stops before "ncell" and "atoms" is accepted, without atoms. *)
Theorem C59_empty_refuted : exists t p, read_struct t = Ok p /\ sp_atoms p = [] /\ Forall2 says cut_head cut_ms /\ t = lines_text cut_head.
Proof. exact no_atoms. Qed.
Print Assumptions C59_empty_refuted.
