(** Properties of files and names (C68). *)
From Coq Require Import Ascii String.
From Coq Require Import List Arith ZArith Reals Bool.
From Verif Require Import Base BindModel FileModel FileSpec FileProof FileEx.
From Verif Require StruModel StruEx SaveModel DataModel SessModel SessSpec.
Import ListNotations.

(** after any calls stru_files has the label of every phase, in order, data_files those of
    the data sets that have one, the engine the names; failed calls leave no trace *)
Theorem C68_lists :
  forall look mks mkd fuel l oks p, reached look mks mkd fuel l oks p ->
  length oks = length l /\
  let sh := fold_left shelve (combine (map snd l) oks) ([], []) in
  pf_stru p = fst sh /\ pf_data p = labels (snd sh) /\ pf_names p = map fst (snd sh) /\
  length (SessModel.s_phases (pf_ses p)) = length (fst sh) /\ length (SessModel.s_sets (pf_ses p)) = length (snd sh) /\
  SessSpec.consistent (pf_ses p).
Proof. exact lists_kept. Qed.
Print Assumptions C68_lists.
Example C68_lists_case : forall look mks mkd fuel, (5 < fuel)%nat ->
  exists p, reached look mks mkd fuel (a_session ++ [(empty, PStruct (chars "Ni.stru"))]) [true; true; true; true; false] p.
Proof. exact session_case. Qed.

(** a loading call that raises an exception changes nothing *)
Theorem C68_failed :
  forall look mks mkd fuel l oks p fs o p' x, reached look mks mkd fuel l oks p -> loading o -> pstep look mks mkd fuel fs o p = (p', PExc x) -> p' = p.
Proof. exact failed_same. Qed.
Print Assumptions C68_failed.
Example C68_failed_case : forall look mks mkd fuel, (5 < fuel)%nat ->
  exists l oks p p', reached look mks mkd fuel l oks p /\ loading (PStruct (chars "Ni.stru")) /\ pstep look mks mkd fuel empty (PStruct (chars "Ni.stru")) p = (p', PExc XIO) /\ l = a_session.
Proof. exact failed_case. Qed.

(** what is loaded is what the readers make of the text or of the lists *)
Theorem C68_struct_loaded :
  forall look mks mkd fuel l oks p fs t n ph, reached look mks mkd fuel l oks p -> StruModel.read_struct t = Ok ph ->
  exists p' q, pstep look mks mkd fuel fs (PStructString t n) p = (p', PVal tt) /\ SessModel.s_phases (pf_ses p') = SessModel.s_phases (pf_ses p) ++ [q] /\
  SessModel.ph_types q = SessModel.st_types (mks ph) /\ SessModel.ph_val q = SessModel.st_val (mks ph).
Proof. exact loaded_struct. Qed.
Print Assumptions C68_struct_loaded.
Theorem C68_data_loaded :
  forall look mks mkd fuel l oks p fs t n ds, reached look mks mkd fuel l oks p -> DataModel.read_data_stream fuel t = Ok ds ->
  exists p' q, pstep look mks mkd fuel fs (PDataString t n) p = (p', PVal tt) /\ SessModel.s_sets (pf_ses p') = SessModel.s_sets (pf_ses p) ++ [q] /\
  SessModel.ds_obs q = SessModel.dc_obs (mkd ds).
Proof. exact loaded_data. Qed.
Print Assumptions C68_data_loaded.
Theorem C68_lists_loaded :
  forall look mks mkd fuel l oks p fs r gr dgr n, reached look mks mkd fuel l oks p ->
  (length r <> length gr \/ (exists w, dgr = Some w /\ length w <> length gr) -> pstep look mks mkd fuel fs (PDataLists r gr dgr n) p = (p, PExc XValue)) /\
  (length r = length gr -> (forall w, dgr = Some w -> length w = length gr) -> forall ds, DataModel.read_data_arrays r gr dgr = Ok ds ->
   exists p' q, pstep look mks mkd fuel fs (PDataLists r gr dgr n) p = (p', PVal tt) /\ SessModel.s_sets (pf_ses p') = SessModel.s_sets (pf_ses p) ++ [q] /\
   SessModel.ds_obs q = SessModel.dc_obs (mkd ds)).
Proof. exact loaded_lists. Qed.
Print Assumptions C68_lists_loaded.
Example C68_loaded_case : StruModel.read_struct s_text = Ok (StruEx.ex_p StruEx.n4) /\ forall fuel, (5 < fuel)%nat -> exists ds, DataModel.read_data_stream fuel d_text = Ok ds.
Proof. exact (conj StruEx.ex_ok d_reads). Qed.

(** a structure file is the same as its text under that name *)
Theorem C68_struct_file :
  forall look mks mkd fuel fs f t p, fs f = Some t -> pstep look mks mkd fuel fs (PStruct f) p = pstep look mks mkd fuel fs (PStructString t f) p.
Proof. exact struct_file. Qed.
Print Assumptions C68_struct_file.
(** a data file gives the same data and the same answer as its text *)
Theorem C68_data_file :
  forall look mks mkd fuel fs f t n p, fs f = Some t ->
  let a := pstep look mks mkd fuel fs (PData f) p in let b := pstep look mks mkd fuel fs (PDataString t n) p in
  snd a = snd b /\ pf_ses (fst a) = pf_ses (fst b) /\ pf_stru (fst a) = pf_stru (fst b).
Proof. exact data_file. Qed.
Print Assumptions C68_data_file.
Example C68_data_file_case : here (chars "Ni.gr") = Some d_text /\ here (chars "Ni.stru") = Some s_text.
Proof. exact (conj here_data here_stru). Qed.

(** a file that cannot be opened *)
Theorem C68_no_file :
  forall look mks mkd fuel fs f p, fs f = None ->
  pstep look mks mkd fuel fs (PStruct f) p = (p, PExc XIO) /\ pstep look mks mkd fuel fs (PData f) p = (p, PExc XIO).
Proof. exact no_file. Qed.
Print Assumptions C68_no_file.
Example C68_no_file_case : here (chars "Ni.stru") <> None /\ here (chars "Co.stru") = None.
Proof. rewrite here_stru. split. discriminate. reflexivity. Qed.

(** saving: without a name nothing is written, with one that file and no other gets the
    text that is returned, as far as there is room *)
Theorem C68_saved :
  forall can room,
  (forall sets is, saves can room (there (length sets) is) (save_pdf can room sets is)) /\
  (forall sets is, saves can room (there (length sets) is) (save_dif can room sets is)) /\
  (forall iter report, saves can room (negb (iter =? 0)%Z) (save_res can room iter report)) /\
  (forall phases ip, saves can room (there (length phases) ip) (save_struct can room phases ip)).
Proof. exact four_savers. Qed.
Print Assumptions C68_saved.
Example C68_saved_case : exists (can : text -> bool) (room : text -> nat) t fs', can (chars "out") = true /\
  save_struct can room [StruEx.ex_p StruEx.n4] 1 (chars "out") (fun _ => None) = (fs', PVal t) /\ fs' (chars "out") = Some t /\ t <> [].
Proof. exact saved_case. Qed.
(** the texts are those of C60, of C66 and of the structure *)
Theorem C68_texts :
  forall can room fs,
  (forall sets is t, SaveModel.save_pdf sets is = Ok t -> save_pdf can room sets is [] fs = (fs, PVal t)) /\
  (forall sets is t, SaveModel.save_dif sets is = Ok t -> save_dif can room sets is [] fs = (fs, PVal t)) /\
  (forall iter t, iter <> 0%Z -> save_res can room iter (Ok t) [] fs = (fs, PVal t)) /\
  (forall phases ip p, (1 <= ip)%Z -> nth_error phases (Z.to_nat (ip - 1)) = Some p -> save_struct can room phases ip [] fs = (fs, PVal (StruModel.save_struct p))).
Proof. exact four_texts. Qed.
Print Assumptions C68_texts.
Example C68_texts_case : (1 <= 1)%Z /\ nth_error [StruEx.ex_p StruEx.n4] (Z.to_nat (1 - 1)) = Some (StruEx.ex_p StruEx.n4).
Proof. split. discriminate. reflexivity. Qed.

(** not: data_files has an entry for every data set *)
Theorem C68_entry_each_refuted :
  forall look mks mkd fuel, (5 < fuel)%nat -> exists l oks p, reached look mks mkd fuel l oks p /\ length (pf_data p) <> length (SessModel.s_sets (pf_ses p)).
Proof. exact no_label. Qed.
Print Assumptions C68_entry_each_refuted.
(** not: the name given with a data text is kept *)
Theorem C68_name_kept_refuted :
  forall look mks mkd fuel, (5 < fuel)%nat ->
  exists t n p, reached look mks mkd fuel [(empty, PDataString t n)] [true] p /\ pf_data p = [t] /\ pf_names p = [chars "string"] /\ n <> t /\ n <> chars "string".
Proof. exact wrong_label. Qed.
Print Assumptions C68_name_kept_refuted.
(** not: when saving succeeds the file has the text *)
Theorem C68_stored_refuted :
  exists can room phases ip f fs t, snd (save_struct can room phases ip f fs) = PVal t /\ fst (save_struct can room phases ip f fs) f <> Some t.
Proof. exact cut_off. Qed.
Print Assumptions C68_stored_refuted.
