(** The section of the results text about a phase. *)
From Coq Require Import Ascii String List Arith ZArith Reals Bool Lia Lra.
From Verif Require Import Base ParserModel ParserLex DataModel DataSpec DataProof FmtModel FmtSpec FmtProof FmtGen FmtFinal ElementTable ScatModel SaveModel ReportModel ReportSpec ReportSel ReportFinal OutModel OutSpec OutProof.
Import ListNotations.
Local Open Scope R_scope.

Lemma says_row ls label unit b fs u : labelled (chars label) ls = Some (b ++ row fs ++ u) -> blanks b -> starts_blank u -> words u = unit ->
  Forall (fun x => f_std_precision (fst x) = 2%nat /\ vstd_ok (snd x)) fs -> Forall (fun x => f_leading_blank (fst x) = true) (tl fs) ->
  says ls label unit (map snd fs).
Proof.
  intros L B U <- P T. destruct (row_values fs P T) as (_ & ws & _ & S & W & _).
  exists (b ++ row fs ++ u), ws. split; auto. split; auto. rewrite words_spaces by auto. apply W; auto.
Qed.
Lemma says_put ls label b f v : labelled (chars label) ls = Some (b ++ put f v) -> blanks b -> f_std_precision f = 2%nat -> vstd_ok v -> says ls label [] [v].
Proof.
  intros L B P V. apply (says_row ls label [] b [(f, v)] []); auto; try exact I. rewrite app_nil_r, <- put_row. auto. constructor.
Qed.
Lemma says_put_unit ls label b f v u : labelled (chars label) ls = Some (b ++ put f v ++ " "%char :: u) -> blanks b -> word u -> f_std_precision f = 2%nat -> vstd_ok v ->
  says ls label [u] [v].
Proof.
  intros L B W P V. apply (says_row ls label [u] b [(f, v)] (" "%char :: u)); auto; try constructor; auto. rewrite <- put_row. auto.
  change (words ([" "%char] ++ u) = [u]). rewrite <- (app_nil_r u) at 1. rewrite words_word; auto. repeat constructor. constructor.
Qed.
Lemma says_put3 ls label v i : labelled (chars label) ls = Some (put3 v i) -> (forall i, vstd_ok (v i)) -> says ls label [] (map v [i; i + 1; i + 2]%nat).
Proof.
  intros L V. apply (says_row ls label [] [] [(f_col, v i); (f_col, v (i + 1)%nat); (f_last, v (i + 2)%nat)] []); repeat constructor; cbn [snd]; try apply V.
  rewrite app_nil_r, <- put3_row. auto.
Qed.
Lemma certain_ok x : opt_ok x -> vstd_ok (certain x).
Proof. split; auto. unfold opt_ok, dbl_ok, certain, d_zero; simpl. lra. Qed.
Lemma says_num ls label b x : labelled (chars label) ls = Some (b ++ num_text x) -> blanks b -> opt_ok x -> says ls label [] [certain x].
Proof.
  intros L B V. pose proof (num_text_part x V) as Q. pose proof (part_word _ _ Q) as [W _]. exists (b ++ num_text x), [num_text x]. split; auto. split.
  - rewrite words_spaces by auto. rewrite <- (app_nil_r (num_text x)) at 1. change (num_text x ++ []) with ([] ++ num_text x ++ []). rewrite words_word; auto. constructor. exact I.
  - constructor; [|constructor]. split; auto. cbn [certain fst snd]. split; auto. intros (d & -> & M). unfold d_val, d_zero in M. cbn [d_neg d_mag] in M.
    pose proof (Rabs_pos (d_val d)). unfold d_val in H. lra.
Qed.
Lemma nonpos_off x : nonpos x = true <-> off x.
Proof.
  unfold nonpos, off. destruct x as [d|]. destruct (Rle_dec (d_val d) 0) as [L|L]; split; intros H; try discriminate; eauto. destruct H as (e & E & M). injection E as <-. contradiction.
  split. discriminate. intros (d & E & _). discriminate.
Qed.
Lemma says_unless ls label x shown_text v : fst v = x -> labelled (chars label) ls = Some (" "%char :: unless_off x shown_text) -> forall unit,
  (nonpos x = false -> labelled (chars label) ls = Some (" "%char :: shown_text) -> says ls label unit [v]) -> says_or_off ls label unit v.
Proof.
  intros E L unit H. unfold unless_off in L. split.
  - rewrite E. intros N. destruct (nonpos x) eqn:Q. destruct N. apply nonpos_off; auto. auto.
  - rewrite E. intros N. apply nonpos_off in N. rewrite N in L. exists (" "%char :: chars "not applied"). split; auto.
Qed.

(** * atoms *)
Definition sym_pad (s : text) : text := pad_right 4 (upper s).
Lemma sym_text s : put_sym s = chars "   " ++ upper s ++ blank_text (4 - length (upper s)).
Proof. reflexivity. Qed.
Lemma sym_words s r : symbol s -> starts_blank r -> words (put_sym s ++ r) = upper s :: words r.
Proof.
  intros S R. rewrite sym_text, <- !app_assoc. rewrite words_word. f_equal. apply words_spaces. apply blanks_repeat. repeat constructor. apply symbol_word; auto.
  destruct (4 - length (upper s))%nat; simpl; auto.
Qed.
Lemma sym_line s : symbol s -> one_line (put_sym s).
Proof. intros S. rewrite sym_text, !one_app. split. intros I. repeat (destruct I as [I|I]; [discriminate|]). auto. split. apply word_line, symbol_word; auto. apply blank_line, blank_all. Qed.
Definition col3 (v : nat -> vstd) (i : nat) : list (fmt * vstd) := [(f_col, v i); (f_col, v (i + 1)%nat); (f_last, v (i + 2)%nat)].
Lemma atom_row s fs : symbol s -> fs <> [] -> Forall (fun x => f_std_precision (fst x) = 2%nat /\ vstd_ok (snd x)) fs -> Forall (fun x => f_leading_blank (fst x) = true) fs ->
  atom_says (put_sym s ++ row fs) s (map snd fs) /\ one_line (put_sym s ++ row fs).
Proof.
  intros S NE P L. assert (Forall (fun x => f_leading_blank (fst x) = true) (tl fs)) as T. { destruct L; constructor || auto. }
  destruct (row_values fs P T) as (O & ws & W & V & _ & SB). split.
  - exists ws. split; auto. rewrite sym_words; auto. rewrite W. auto. pose proof (SB NE L []) as Q. rewrite app_nil_r in Q. exact Q.
  - apply one_app. split; auto. apply sym_line; auto.
Qed.
Definition atom_l (a : oatom) : text := put_sym (oa_sym a) ++ row [(f_col, oa_pos a 0%nat); (f_col, oa_pos a 1%nat); (f_col, oa_pos a 2%nat); (f_last, oa_occ a)].
Lemma atom_line_eq a : atom_line a = ln (atom_l a).
Proof. unfold atom_line, atom_l. cbn [row]. rewrite app_nil_r. auto. Qed.
Lemma atom_l_ok a : atom_ok a -> atom_says (atom_l a) (oa_sym a) (map (oa_pos a) [0; 1; 2]%nat ++ [oa_occ a]) /\ one_line (atom_l a).
Proof. intros (S & P & O & _). apply (atom_row (oa_sym a) [(f_col, oa_pos a 0%nat); (f_col, oa_pos a 1%nat); (f_col, oa_pos a 2%nat); (f_last, oa_occ a)]); auto; try discriminate. repeat (apply Forall_cons; [split; [reflexivity|cbn [snd]; auto]|]); apply Forall_nil. Qed.
Definition has_off (a : oatom) : bool := nonzero (fst (oa_u a 3%nat)) || nonzero (fst (oa_u a 4%nat)) || nonzero (fst (oa_u a 5%nat)).
Definition aniso_l (a : oatom) : list text :=
  (put_sym (oa_sym a) ++ row (col3 (oa_u a) 0)) :: if has_off a then [chars "       " ++ row (col3 (oa_u a) 3)] else [].
Lemma aniso_eq a : aniso_lines a = concat (map ln (aniso_l a)).
Proof. unfold aniso_lines, aniso_l. fold (has_off a). rewrite !put3_row. destruct (has_off a); cbn [map concat]; rewrite ?app_nil_r; auto. Qed.
Lemma nonzero_spec x : nonzero x = true <-> ~ exists d, x = Some d /\ d_mag d = 0.
Proof.
  unfold nonzero. destruct x as [d|]. destruct (Req_EM_T (d_mag d) 0); split; intros H; try discriminate; auto. destruct H; eauto. intros (e & E & Z). injection E as <-. auto.
  split; auto. intros _ (e & E & _). discriminate.
Qed.
Lemma has_off_spec a : has_off a = true <-> has_offdiag a.
Proof.
  unfold has_off, has_offdiag. rewrite !orb_true_iff, !nonzero_spec. split.
  - intros [[H|H]|H]; [exists 3%nat|exists 4%nat|exists 5%nat]; split; auto; lia.
  - intros (i & B & H). assert (i = 3 \/ i = 4 \/ i = 5)%nat as [-> | [-> | ->]] by lia; auto.
Qed.
Lemma col3_ok v i : (forall i, vstd_ok (v i)) -> Forall (fun x => f_std_precision (fst x) = 2%nat /\ vstd_ok (snd x)) (col3 v i) /\ Forall (fun x => f_leading_blank (fst x) = true) (col3 v i).
Proof. intros V. split. repeat (apply Forall_cons; [split; [reflexivity|cbn [snd]; auto]|]); apply Forall_nil. repeat constructor. Qed.
Lemma aniso_ok ats : Forall atom_ok ats -> aniso_says (concat (map aniso_l ats)) ats /\ Forall one_line (concat (map aniso_l ats)).
Proof.
  induction 1 as [|a ats (S & _ & _ & U) F [IH1 IH2]]. split; constructor.
  destruct (col3_ok (oa_u a) 0 U) as [C1 C2]. destruct (col3_ok (oa_u a) 3 U) as [D1 D2].
  destruct (atom_row (oa_sym a) (col3 (oa_u a) 0) S ltac:(discriminate) C1 C2) as [A1 A2].
  cbn [map concat]. unfold aniso_l at 1 3. destruct (has_off a) eqn:H.
  - assert (Forall (fun x => f_leading_blank (fst x) = true) (tl (col3 (oa_u a) 3))) as T by (inversion D2; auto).
    destruct (row_values (col3 (oa_u a) 3) D1 T) as (O & ws & W & V & _). cbn [app]. split.
    + apply A_full; auto. apply has_off_spec; auto. rewrite strip_app. discriminate. rewrite words_spaces by repeat constructor. rewrite W. auto.
    + constructor; auto. constructor; auto. apply one_app. split; auto. intros I. repeat (destruct I as [I|I]; [discriminate|]). auto.
  - cbn [app]. split.
    + apply A_diag; auto. intros Q. apply has_off_spec in Q. congruence.
    + constructor; auto.
Qed.

(** * the whole section *)
Definition phase_title (p : ophase) : text := chars " PHASE " ++ int_text (op_iphase p) ++ chars " : " ++ op_name p.
Definition corr_l (p : ophase) : list text :=
  match op_corr_max p with Some d => if Rlt_dec 0 (d_val d) then [chars " Correlation limit [A]  : " ++ num_text (op_corr_max p)] else [] | None => [] end.
Definition head_l (p : ophase) : list text :=
  [chars " Scale factor           : " ++ put f_plain (op_pscale p);
   chars "   Particle diameter    : " ++ unless_off (fst (op_spdiameter p)) (put f_plain (op_spdiameter p) ++ chars " A");
   chars "   Step cutoff          : " ++ unless_off (op_stepcut p) (put f_plain (op_stepcut p, Some d_zero) ++ chars " A")].
Definition cell_l (p : ophase) : list text :=
  [chars " Quad. corr. factor     : " ++ put f_plain (op_delta2 p);
   chars " Lin. corr. factor      : " ++ put f_plain (op_delta1 p);
   chars " Low r sigma ratio      : " ++ put f_plain (op_sratio p);
   chars " R cutoff [A]           : " ++ put f_plain (op_rcut p, Some d_zero);
   chars " Lattice parameters     :" ++ put3 (op_a0 p) 0;
   chars "           & angles     :" ++ put3 (op_win p) 0].
Definition phase_body (p : ophase) : list text :=
  head_l p ++ corr_l p ++ cell_l p ++ [] :: chars " Atom positions & occupancies :" :: map atom_l (op_atoms p) ++
  [] :: chars " Anisotropic temperature factors :" :: concat (map aniso_l (op_atoms p)).
Lemma concat_ln_app a b : concat (map ln (a ++ b)) = concat (map ln a) ++ concat (map ln b).
Proof. rewrite map_app, concat_app. auto. Qed.
Lemma phase_output_lines p : phase_output p = concat (map ln (rule :: phase_title p :: rule :: phase_body p)).
Proof.
  unfold phase_output, heading, phase_body. cbn [map concat]. rewrite !concat_ln_app. cbn [map concat]. rewrite !concat_ln_app. cbn [map concat].
  fold (phase_title p). rewrite <- !app_assoc. unfold head_l, cell_l. cbn [map concat]. rewrite <- !app_assoc. cbn [app].
  assert (concat (map ln (corr_l p)) = match op_corr_max p with Some d => if Rlt_dec 0 (d_val d) then ln (chars " Correlation limit [A]  : " ++ num_text (op_corr_max p)) else [] | None => [] end) as EC.
  { unfold corr_l. destruct (op_corr_max p); auto. destruct Rlt_dec; cbn [map concat]; auto. apply app_nil_r. }
  rewrite <- EC.
  assert (concat (map atom_line (op_atoms p)) = concat (map ln (map atom_l (op_atoms p)))) as EA.
  { rewrite map_map. f_equal. apply map_ext. intros a. apply atom_line_eq. }
  assert (concat (map aniso_lines (op_atoms p)) = concat (map ln (concat (map aniso_l (op_atoms p))))) as EN.
  { clear. induction (op_atoms p) as [|a l IH]; auto. cbn [map concat]. rewrite concat_ln_app, IH, aniso_eq. auto. }
  rewrite EA, EN. reflexivity.
Qed.
Lemma corr_cases p : opt_ok (op_corr_max p) ->
  ((exists d, op_corr_max p = Some d /\ 0 < d_val d) /\ corr_l p = [chars " Correlation limit [A]  : " ++ num_text (op_corr_max p)]) \/
  (~ (exists d, op_corr_max p = Some d /\ 0 < d_val d) /\ corr_l p = []).
Proof.
  intros _. unfold corr_l. destruct (op_corr_max p) as [d|]. destruct Rlt_dec as [L|L]. left; eauto. right. split; auto. intros (e & E & M). injection E as <-. auto.
  right. split; auto. intros (e & E & _). discriminate.
Qed.
Lemma Forall_concat {A} (P : A -> Prop) l : Forall (Forall P) l -> Forall P (concat l).
Proof. induction 1; simpl; auto. apply Forall_app; auto. Qed.
Definition blank3 (l : text) : Prop := exists t, l = chars "   " ++ t.
Lemma atom_l_blank a : blank3 (atom_l a).
Proof. unfold blank3, atom_l, put_sym. rewrite <- app_assoc. eauto. Qed.
Lemma aniso_l_blank ats : Forall blank3 (concat (map aniso_l ats)).
Proof.
  apply Forall_concat. apply Forall_forall. intros l I. apply in_map_iff in I as (a & <- & _). unfold aniso_l. constructor.
  unfold blank3, put_sym. rewrite <- app_assoc. eauto. destruct (has_off a); repeat constructor. exists (chars "    " ++ row (col3 (oa_u a) 3)). reflexivity.
Qed.
Lemma atoms_blank ats : Forall blank3 (map atom_l ats).
Proof. apply Forall_forall. intros l I. apply in_map_iff in I as (a & <- & _). apply atom_l_blank. Qed.

Lemma labelled_app x a r t : labelled x a = Some t -> labelled x (a ++ r) = Some t.
Proof. induction a as [|l a IH]; [discriminate|]. cbn [app labelled]. destruct (strip x l); auto. Qed.
Lemma phase_body_says p : phase_ok p -> phase_says p (phase_title p, phase_body p).
Proof.
  intros (N & V1 & V2 & V3 & V4 & V5 & V6 & V7 & V8 & V9 & V10 & A). unfold phase_says. split; [reflexivity|].
  assert (forall b, blanks [b] <-> is_space b = true) as BB. { intros b; split. inversion 1; auto. repeat constructor; auto. }
  assert (blanks [" "%char]) as B1 by repeat constructor.
  assert (word (chars "A")) as WA by (split; [repeat constructor|discriminate]).
  pose proof (certain_ok _ V3) as C3. pose proof (certain_ok _ V8) as C8.
  assert (forall q, corr_l p = q -> phase_body p = head_l p ++ q ++ cell_l p ++ [] :: chars " Atom positions & occupancies :" :: map atom_l (op_atoms p) ++
     [] :: chars " Anisotropic temperature factors :" :: concat (map aniso_l (op_atoms p))) as EB by (intros q <-; reflexivity).
  split. { apply (says_put _ _ [" "%char] f_plain); auto. }
  split. { eapply says_unless; [reflexivity|reflexivity|]. intros _ E. apply (says_put_unit _ _ [" "%char] f_plain _ (chars "A")); auto. }
  split. { eapply says_unless; [reflexivity|reflexivity|]. intros _ E. apply (says_put_unit _ _ [" "%char] f_plain _ (chars "A")); auto. }
  split.
  { intros H. destruct (corr_cases p V4) as [[_ E]|[H' _]]; [|contradiction]. rewrite (EB _ E). apply (says_num _ _ [" "%char]); auto. }
  split.
  { intros H. destruct (corr_cases p V4) as [[H' _]|[_ E]]; [contradiction|]. rewrite (EB _ E).
    assert (forall l, blank3 l -> strip (chars " Correlation limit [A]  :") l = None) as K by (intros l (t & ->); reflexivity).
    match goal with |- labelled ?x ?l = _ => rewrite <- (app_nil_r l); rewrite labelled_skip; [reflexivity|] end.
    cbn [head_l cell_l app]. repeat (apply Forall_cons; [reflexivity|]). apply Forall_app; split.
    pose proof (atoms_blank (op_atoms p)) as Q. revert Q. apply Forall_impl. auto.
    repeat (apply Forall_cons; [reflexivity|]). pose proof (aniso_l_blank (op_atoms p)) as Q. revert Q. apply Forall_impl. auto. }
  assert (forall x t, labelled x (cell_l p) = Some t -> Forall (fun l => strip x l = None) (head_l p) -> strip x (chars " Correlation limit [A]  : " ++ num_text (op_corr_max p)) = None ->
    labelled x (phase_body p) = Some t) as LB.
  { intros x t L H1 H2.
    assert (forall r, labelled x (cell_l p ++ r) = Some t) as L'.
    { intros r. apply labelled_app; auto. }
    destruct (corr_cases p V4) as [[_ E]|[_ E]]; rewrite (EB _ E); rewrite labelled_skip by auto.
    - rewrite labelled_skip. apply L'. constructor; auto.
    - apply L'. }
  split. { apply (says_put _ _ [" "%char] f_plain); auto. apply LB; [reflexivity|repeat (apply Forall_cons; [reflexivity|]); apply Forall_nil|reflexivity]. }
  split. { apply (says_put _ _ [" "%char] f_plain); auto. apply LB; [reflexivity|repeat (apply Forall_cons; [reflexivity|]); apply Forall_nil|reflexivity]. }
  split. { apply (says_put _ _ [" "%char] f_plain); auto. apply LB; [reflexivity|repeat (apply Forall_cons; [reflexivity|]); apply Forall_nil|reflexivity]. }
  split. { apply (says_put _ _ [" "%char] f_plain (certain (op_rcut p))); auto. apply LB; [reflexivity|repeat (apply Forall_cons; [reflexivity|]); apply Forall_nil|reflexivity]. }
  split. { apply (says_put3 _ _ (op_a0 p) 0); auto. apply LB; [reflexivity|repeat (apply Forall_cons; [reflexivity|]); apply Forall_nil|reflexivity]. }
  split. { apply (says_put3 _ _ (op_win p) 0); auto. apply LB; [reflexivity|repeat (apply Forall_cons; [reflexivity|]); apply Forall_nil|reflexivity]. }
  assert (forall x, ~ In x [[]] -> (forall t, x <> chars " Correlation limit [A]  : " ++ t) -> Forall (fun l => l <> x) (head_l p ++ cell_l p) ->
    ~ In x (head_l p ++ corr_l p ++ cell_l p ++ [[]])) as NI.
  { intros x X0 X1 F I. rewrite Forall_forall in F. rewrite !in_app_iff in I. destruct I as [I|[I|[I|I]]]; auto.
    - apply (F x); auto. apply in_or_app; auto.
    - destruct (corr_cases p V4) as [[_ E]|[_ E]]; rewrite E in I; [|destruct I]. destruct I as [I|[]]. apply (X1 (num_text (op_corr_max p))); auto.
    - apply (F x); auto. apply in_or_app; auto. }
  split.
  - unfold block. assert (phase_body p = (head_l p ++ corr_l p ++ cell_l p ++ [[]]) ++ chars " Atom positions & occupancies :" :: map atom_l (op_atoms p) ++
      [] :: chars " Anisotropic temperature factors :" :: concat (map aniso_l (op_atoms p))) as -> by (unfold phase_body; rewrite <- !app_assoc; reflexivity).
    rewrite after_skip. rewrite upto_app.
    + clear -A. induction A as [|a l O F IH]; constructor; auto. apply atom_l_ok; auto.
    + apply (Forall_ne _ _ _ (atoms_blank (op_atoms p))). intros (t & E). discriminate E.
    + apply NI. intros [I|[]]; discriminate I. intros t E. discriminate E. cbn [head_l cell_l app]. repeat (apply Forall_cons; [intros E; discriminate E|]). apply Forall_nil.
  - assert (phase_body p = ((head_l p ++ corr_l p ++ cell_l p ++ [[]]) ++ chars " Atom positions & occupancies :" :: map atom_l (op_atoms p) ++ [[]]) ++
      chars " Anisotropic temperature factors :" :: concat (map aniso_l (op_atoms p))) as ->.
    { unfold phase_body. rewrite <- !app_assoc. cbn [app]. rewrite <- !app_assoc. reflexivity. }
    rewrite after_skip. apply aniso_ok; auto. rewrite in_app_iff. intros [I|I].
    + revert I. apply NI. intros [I|[]]; discriminate I. intros t E. discriminate E. cbn [head_l cell_l app]. repeat (apply Forall_cons; [intros E; discriminate E|]). apply Forall_nil.
    + destruct I as [I|I]. discriminate I. apply in_app_or in I as [I|I].
      * revert I. apply (Forall_ne _ _ _ (atoms_blank (op_atoms p))). intros (t & E). discriminate E.
      * destruct I as [I|[]]. discriminate I.
Qed.

(** * no newlines and no rules inside *)
Definition lit (t : text) : Prop := Forall (fun c => c <> "010"%char) t.
Lemma lit_line t : lit t -> one_line t.
Proof. intros F. apply (Forall_ne _ _ _ F). auto. Qed.
Lemma one_chars s : forallb (fun c => negb (Ascii.eqb c "010")) (chars s) = true -> one_line (chars s).
Proof. intros H I. rewrite forallb_forall in H. specialize (H _ I). discriminate H. Qed.
Lemma put_line f v : f_std_precision f = 2%nat -> vstd_ok v -> one_line (put f v).
Proof. intros P V. destruct (put_words f v P V) as (_ & _ & _ & O & _). auto. Qed.
Lemma num_line x : opt_ok x -> one_line (num_text x).
Proof. intros V. apply word_line. apply (part_word x). apply num_text_part; auto. Qed.
Lemma unless_line x t : one_line t -> one_line (unless_off x t).
Proof. intros O. unfold unless_off. destruct (nonpos x); auto. apply one_chars. reflexivity. Qed.
Lemma put3_line v i : (forall i, vstd_ok (v i)) -> one_line (put3 v i).
Proof. intros V. unfold put3. rewrite !one_app. repeat split; apply put_line; auto. Qed.
Ltac line_parts := rewrite ?one_app; repeat split; try (apply one_chars; reflexivity); auto using put_line, num_line, unless_line, put3_line.
Lemma phase_title_line p : phase_ok p -> one_line (phase_title p).
Proof. intros (N & _). unfold phase_title. line_parts. apply word_line, int_text_word. Qed.
Lemma phase_body_lines p : phase_ok p -> Forall one_line (phase_body p).
Proof.
  intros (N & V1 & V2 & V3 & V4 & V5 & V6 & V7 & V8 & V9 & V10 & A). unfold phase_body.
  pose proof (certain_ok _ V3) as C3. pose proof (certain_ok _ V8) as C8.
  apply Forall_app; split; [|apply Forall_app; split; [|apply Forall_app; split]].
  - unfold head_l. repeat (apply Forall_cons; [|]); try apply Forall_nil; rewrite one_app; split; try (apply one_chars; reflexivity).
    + apply put_line; auto.
    + apply unless_line. rewrite one_app. split. apply put_line; auto. apply one_chars; reflexivity.
    + apply unless_line. rewrite one_app. split. apply put_line; auto. apply one_chars; reflexivity.
  - destruct (corr_cases p V4) as [[_ ->]|[_ ->]]; constructor. line_parts. constructor.
  - unfold cell_l. repeat (apply Forall_cons; [|]); try apply Forall_nil; rewrite one_app; split; try (apply one_chars; reflexivity); try (apply put_line; auto); apply put3_line; auto.
  - constructor. intros []. constructor. apply one_chars; reflexivity. apply Forall_app; split.
    + apply Forall_forall. intros l I. apply in_map_iff in I as (a & <- & I). rewrite Forall_forall in A. apply atom_l_ok. auto.
    + constructor. intros []. constructor. apply one_chars; reflexivity. apply aniso_ok; auto.
Qed.
Lemma phase_no_rule p : opt_ok (op_corr_max p) -> ~ In dashes (phase_body p).
Proof.
  intros V4. unfold phase_body. rewrite !in_app_iff. intros [I|[I|[I|I]]].
  - cbn [head_l In] in I. repeat (destruct I as [I|I]; [discriminate I|]). auto.
  - destruct (corr_cases p V4) as [[_ E]|[_ E]]; rewrite E in I; [|destruct I]. destruct I as [I|[]]. discriminate I.
  - cbn [cell_l In] in I. repeat (destruct I as [I|I]; [discriminate I|]). auto.
  - destruct I as [I|I]. discriminate I. destruct I as [I|I]. discriminate I. apply in_app_or in I as [I|I].
    + revert I. apply (Forall_ne _ _ _ (atoms_blank (op_atoms p))). intros (t & E). discriminate E.
    + destruct I as [I|I]. discriminate I. destruct I as [I|I]. discriminate I. revert I. apply (Forall_ne _ _ _ (aniso_l_blank (op_atoms p))). intros (t & E). discriminate E.
Qed.
