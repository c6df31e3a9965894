(** The theorems on the results text and the text with scattering factors. *)
From Coq Require Import Ascii String List Arith ZArith Reals Bool Lia Lra.
From Verif Require Import Base ParserModel ParserLex DataModel DataSpec DataProof FmtModel FmtSpec FmtProof FmtGen FmtFinal ElementTable ScatModel SaveModel SaveSpec ReportModel ReportSpec ReportSel ReportFinal OutModel OutSpec OutProof OutPhase OutData.
Import ListNotations.
Local Open Scope R_scope.

Definition sec_lines (s : text * list text) : list text := rule :: fst s :: rule :: snd s.
Lemma parts_sections secs tl_ : Forall (fun s => ~ In dashes (snd s) /\ fst s <> dashes) secs ->
  forall a, ~ In dashes a -> parts dashes (a ++ concat (map sec_lines secs) ++ rule :: tl_) = a :: concat (map section_parts secs) ++ parts dashes tl_.
Proof.
  induction 1 as [|s secs [N T] F IH]; intros a A; cbn [map concat app].
  - rewrite rule_dashes. apply parts_app; auto.
  - unfold sec_lines at 1. cbn [app]. rewrite rule_dashes at 1. rewrite parts_app by auto. f_equal. unfold section_parts at 1. cbn [app].
    change (fst s :: rule :: (snd s) ++ concat (map sec_lines secs) ++ rule :: tl_) with ([fst s] ++ rule :: (snd s) ++ concat (map sec_lines secs) ++ rule :: tl_).
    rewrite <- !app_assoc. cbn [app]. change (fst s :: rule :: (snd s) ++ concat (map sec_lines secs) ++ rule :: tl_) with ([fst s] ++ rule :: (snd s) ++ concat (map sec_lines secs) ++ rule :: tl_).
    rewrite rule_dashes at 1. rewrite parts_app. 2:{ intros [I|[]]. auto. }
    f_equal. rewrite IH by auto. auto.
Qed.
Definition psec (p : ophase) := (phase_title p, phase_body p).
Definition dsec (d : odata) := (data_title d, data_body d).
Lemma phases_lines ps : concat (map phase_output ps) = concat (map ln (concat (map sec_lines (map psec ps)))).
Proof. induction ps as [|p ps IH]; auto. cbn [map concat]. rewrite concat_ln_app, IH, phase_output_lines. auto. Qed.
Lemma data_lines ds : Forall data_ok ds -> oconcat (map data_output ds) = Ok (concat (map ln (concat (map sec_lines (map dsec ds))))).
Proof. induction 1 as [|d ds O F IH]; auto. cbn [map oconcat concat]. rewrite data_output_lines by auto. cbn [obind]. rewrite IH. cbn [omap obind]. rewrite concat_ln_app. auto. Qed.
Lemma rule_line : one_line rule. Proof. intros I. repeat (destruct I as [I|I]; [discriminate|]). auto. Qed.

Lemma result_text_rest version iter ps ds fit : iter <> 0%Z -> one_line version -> Forall phase_ok ps -> Forall data_ok ds ->
  exists t, res_text version iter ps ds fit = Ok t /\ exists head pss dss rest,
    parts dashes (lines t) = head :: concat (map section_parts (pss ++ dss)) ++ [chars " PARAMETER INFORMATION :"] :: rest /\
    rest = parts dashes (lines (fit ++ ln double_rule)) /\
    Forall2 phase_says ps pss /\ Forall2 data_says ds dss.
Proof.
  intros I V P D. unfold res_text. rewrite (proj2 (Z.eqb_neq iter 0) I). rewrite data_lines by auto. cbn [obind]. eexists; split; [reflexivity|].
  rewrite phases_lines. unfold heading.
  set (head := [double_rule; chars " PDF REFINEMENT"; chars "   Using PDFFIT version : " ++ version; double_rule]).
  set (secs := map psec ps ++ map dsec ds).
  assert (forall rest, ln double_rule ++ ln (chars " PDF REFINEMENT") ++ ln (chars "   Using PDFFIT version : " ++ version) ++ ln double_rule ++
     concat (map ln (concat (map sec_lines (map psec ps)))) ++ concat (map ln (concat (map sec_lines (map dsec ds)))) ++ (ln rule ++ ln (chars " PARAMETER INFORMATION :") ++ ln rule) ++ rest =
     concat (map ln (head ++ concat (map sec_lines secs) ++ [rule; chars " PARAMETER INFORMATION :"; rule])) ++ rest) as E.
  { intros rest. rewrite !concat_ln_app. unfold secs. rewrite (map_app sec_lines), concat_app, concat_ln_app. unfold head. cbn [map concat]. rewrite <- !app_assoc. cbn [app]. reflexivity. }
  rewrite E. clear E.
  assert (Forall (fun s => (~ In dashes (snd s) /\ fst s <> dashes) /\ Forall one_line (sec_lines s)) secs) as F.
  { unfold secs. apply Forall_app; split; apply Forall_forall; intros s Q; apply in_map_iff in Q as (x & <- & Q).
    - rewrite Forall_forall in P. specialize (P x Q). split. split. apply phase_no_rule. destruct P as (_ & _ & _ & _ & O & _). auto. intros E; discriminate E.
      unfold sec_lines. apply Forall_cons; [apply rule_line|]. apply Forall_cons; [apply phase_title_line; auto|]. apply Forall_cons; [apply rule_line|]. apply phase_body_lines; auto.
    - rewrite Forall_forall in D. specialize (D x Q). split. split. apply data_no_rule; auto. intros E; discriminate E.
      unfold sec_lines. apply Forall_cons; [apply rule_line|]. apply Forall_cons; [apply data_title_line; auto|]. apply Forall_cons; [apply rule_line|]. apply data_body_lines; auto. }
  exists head, (map psec ps), (map dsec ds), (parts dashes (lines (fit ++ ln double_rule))). split; [|split; [reflexivity|split]].
  - rewrite lines_many.
    + rewrite <- !app_assoc. cbn [app]. rewrite parts_sections.
      * f_equal.
      * revert F. apply Forall_impl. tauto.
      * unfold head. intros Q. repeat (destruct Q as [Q|Q]; [discriminate Q|]). auto.
    + apply Forall_app; split; [|apply Forall_app; split].
      * unfold head. repeat apply Forall_cons; try apply Forall_nil; try (intros Q; repeat (destruct Q as [Q|Q]; [discriminate Q|]); auto; fail).
      * apply Forall_concat. apply Forall_forall. intros l Q. apply in_map_iff in Q as (s & <- & Q). rewrite Forall_forall in F. apply F; auto.
      * repeat apply Forall_cons; try apply Forall_nil; try apply rule_line. apply one_chars; reflexivity.
  - clear -P. induction P; constructor; auto. apply phase_body_says; auto.
  - clear -D. induction D; constructor; auto. apply data_body_says; auto.
Qed.
Theorem result_text version iter ps ds fit : iter <> 0%Z -> one_line version -> Forall phase_ok ps -> Forall data_ok ds ->
  exists t, res_text version iter ps ds fit = Ok t /\ result_says ps ds t.
Proof.
  intros I V P D. destruct (result_text_rest version iter ps ds fit I V P D) as (t & E & head & pss & dss & rest & A & _ & B & C).
  exists t. split; auto. exists head, pss, dss, rest. auto.
Qed.
Theorem result_refused version iter ps ds fit : Forall data_ok ds -> (res_text version iter ps ds fit = Err ErrUnassigned <-> iter = 0%Z).
Proof.
  intros D. unfold res_text. destruct (Z.eqb_spec iter 0) as [->|N]. tauto. rewrite data_lines by auto. cbn [obind]. split; intros E. discriminate E. contradiction.
Qed.
Theorem phase_text p : phase_ok p -> exists body, lines (phase_output p) = dashes :: (chars " PHASE " ++ int_text (op_iphase p) ++ chars " : " ++ op_name p) :: dashes :: body /\
  phase_says p (phase_title p, body).
Proof.
  intros P. exists (phase_body p). split; [|apply phase_body_says; auto]. rewrite phase_output_lines. rewrite <- (app_nil_r (concat _)), lines_many.
  rewrite app_nil_r. reflexivity. apply Forall_cons; [apply rule_line|]. apply Forall_cons; [apply phase_title_line; auto|]. apply Forall_cons; [apply rule_line|]. apply phase_body_lines; auto.
Qed.

(** * scattering factors *)
Definition scat_label (x : bool) : text := if x then chars "X-ray scattering factor for " else chars "Neutron scattering length for ".
Lemma dbl_of_ok x : dbl_ok (dbl_of x).
Proof. unfold dbl_ok, dbl_of. cbn [d_mag]. apply Rabs_pos. Qed.
Theorem scat_text tp (x : bool) types : In tp (if x then ["x"; "X"] else ["n"; "N"])%char ->
  exists t ns, scat_string tp types = Ok t /\ Forall2 (fun (a : text * (R * R)) n => shows_general 6 (dbl_of (if x then fst (snd a) else snd (snd a))) n) types ns /\
    t = concat (map (fun an => scat_label x ++ upper (fst (fst an)) ++ chars " :  " ++ print_numeral (snd an)) (combine types ns)).
Proof.
  intros T. unfold scat_string. induction types as [|[s v] types IH].
  - exists [], []. repeat split. constructor.
  - destruct IH as (t & ns & E & F & ->).
    destruct (general_print 6 (dbl_of (if x then fst v else snd v)) ltac:(lia) (dbl_of_ok _)) as (n & En & Sn).
    assert (scat_line tp (s, v) = Ok (scat_label x ++ upper s ++ chars " :  " ++ print_numeral n)) as EL.
    { destruct x; destruct T as [<-|[<-|[]]]; unfold scat_line, sf, num_text, scat_label; cbn [fst snd Ascii.eqb Bool.eqb orb omap obind]; rewrite <- En; rewrite <- !app_assoc; reflexivity. }
    exists (scat_label x ++ upper s ++ chars " :  " ++ print_numeral n ++ concat (map (fun an => scat_label x ++ upper (fst (fst an)) ++ chars " :  " ++ print_numeral (snd an)) (combine types ns))), (n :: ns).
    cbn [map oconcat]. rewrite EL. cbn [obind]. rewrite E. cbn [omap obind]. split; [|split].
    + rewrite <- !app_assoc. auto.
    + constructor; auto.
    + cbn [combine map concat fst snd]. rewrite <- !app_assoc. auto.
Qed.
Theorem scat_refused tp a types : ~ In tp ["x"; "X"; "n"; "N"]%char -> scat_string tp (a :: types) = Err ErrPlain.
Proof.
  intros N. unfold scat_string. cbn [map oconcat].
  assert (forall c, In c ["x"; "X"; "n"; "N"]%char -> Ascii.eqb tp c = false) as E. { intros c I. apply Ascii.eqb_neq. intros ->. auto. }
  assert (scat_line tp a = Err ErrPlain) as ->. { unfold scat_line, sf. rewrite !E by (simpl; tauto). reflexivity. }
  reflexivity.
Qed.
(** however many atom types there are, the text is a single line *)
Theorem scat_one_line tp types : Forall (fun a => symbol (fst a)) types -> forall t, scat_string tp types = Ok t -> (length (lines t) <= 1)%nat.
Proof.
  intros S t E. assert (one_line t) as O.
  { revert t E. unfold scat_string. induction S as [|[s v] types Sa F IH]; intros t E; cbn [map oconcat] in E. injection E as <-. intros [].
    destruct (scat_line tp (s, v)) as [u| | |] eqn:L; try discriminate. cbn [obind] in E. destruct (oconcat (map (scat_line tp) types)) as [w| | |]; try discriminate. cbn [omap obind] in E. injection E as <-.
    apply one_app. split; [|apply IH; auto]. unfold scat_line in L. destruct (sf tp (snd (s, v))) as [y| | |]; try discriminate. cbn [omap obind] in L. match type of L with Ok ?x = _ => assert (x = u) as <- by congruence end.
    apply one_app. split. 2:{ exact (num_line (Some (dbl_of y)) (dbl_of_ok y)). }
    cbn [fst]. assert (one_line (upper s)) as U by (apply upper_line; auto). destruct (Ascii.eqb tp "n" || Ascii.eqb tp "N"). 2:destruct (Ascii.eqb tp "x" || Ascii.eqb tp "X").
    - rewrite !one_app. repeat split; auto; apply one_chars; reflexivity.
    - rewrite !one_app. repeat split; auto; apply one_chars; reflexivity.
    - intros []. }
  clear -O. induction t as [|c t IH]; simpl; auto. destruct (Ascii.eqb_spec c "010") as [->|N]. destruct O. left; auto.
  assert (one_line t) as O' by (intros I; apply O; right; auto). specialize (IH O'). destruct (lines t) as [|l ls]; simpl in *; lia.
Qed.
