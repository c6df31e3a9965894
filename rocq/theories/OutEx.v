(** Cases for the theorems on the results text. *)
From Coq Require Import Ascii String List Arith ZArith Reals Bool Lia Lra.
From Verif Require Import Base ParserModel ParserLex DataModel DataSpec DataProof FmtModel FmtSpec FmtProof FmtGen FmtFinal ElementTable ScatModel SaveModel SaveSpec ReportModel ReportSpec ReportSel ReportFinal ReportEx OutModel OutSpec OutProof OutPhase OutData OutFinal.
Import ListNotations.
Local Open Scope R_scope.

(** 1234.5678 with deviation 0.001, and 0 *)
Definition v_ex : vstd := (Some x_ex, Some dx_ex).
Definition v_zero : vstd := (Some d_zero, Some d_zero).
Lemma v_ex_ok : vstd_ok v_ex. Proof. split; unfold opt_ok, dbl_ok, v_ex, x_ex, dx_ex; simpl; lra. Qed.
Lemma v_zero_ok : vstd_ok v_zero. Proof. split; unfold opt_ok, dbl_ok, v_zero, d_zero; simpl; lra. Qed.
Definition na : text := chars "Na".
Lemma na_symbol : symbol na.
Proof. pose proof nacl_symbols as F. rewrite Forall_forall in F. apply F. left; reflexivity. Qed.
(** an atom without off-diagonal displacements, with a deviation of the first one *)
Definition a_ex (d : val) : oatom := mkOa na (fun _ => v_ex) v_ex (fun i => if (i <? 3)%nat then v_ex else if (i =? 3)%nat then (Some d_zero, d) else v_zero).
Lemma a_ex_ok d : opt_ok d -> atom_ok (a_ex d).
Proof.
  intros O. split. apply na_symbol. split. intros i. apply v_ex_ok. split. apply v_ex_ok. intros i. cbn [a_ex oa_u].
  destruct (i <? 3)%nat. apply v_ex_ok. destruct (i =? 3)%nat. split; auto. apply v_zero_ok. apply v_zero_ok.
Qed.
Definition p_ex (d : val) : ophase := mkOp 1 (chars "NaCl") v_ex v_zero (Some x_ex) (Some x_ex) v_zero v_zero v_ex (Some d_zero) (fun _ => v_ex) (fun _ => v_ex) [a_ex d].
Lemma p_ex_ok d : opt_ok d -> phase_ok (p_ex d).
Proof.
  intros O. pose proof v_ex_ok as V. pose proof v_zero_ok as Z. unfold phase_ok. cbn [p_ex op_name op_pscale op_spdiameter op_stepcut op_corr_max op_delta2 op_delta1 op_sratio op_rcut op_a0 op_win op_atoms].
  split. apply one_chars; reflexivity. do 2 (split; [assumption|]). split; [apply V|]. split; [apply V|]. do 3 (split; [assumption|]). split; [apply Z|]. do 2 (split; [auto|]).
  constructor; [|constructor]. apply a_ex_ok; auto.
Qed.
Definition d_ex (tp : ascii) : odata := mkOd 1 (chars "Ni.dat") (Some d_zero) (Some x_ex) (Some dx_ex) (Some d_zero) (Some x_ex) (Some d_zero) (Some x_ex) 0 99 None (Some dx_ex) tp (Some x_ex) v_ex v_zero v_ex
  [Some (nacl, [1; 4]%nat, []); None] [v_ex; v_zero] [v_ex; v_zero] [v_ex; (None, None)].
Lemma d_ex_ok tp : data_ok (d_ex tp).
Proof.
  pose proof v_ex_ok as V. pose proof v_zero_ok as Z. destruct V as [V1 V2]. destruct Z as [Z1 Z2]. cbn [v_ex v_zero fst snd] in *. unfold data_ok.
  cbn [d_ex od_name od_rmin od_rmax od_deltar od_rcmin od_rcmax od_rfmin od_rfmax od_redchisq od_rw od_qmax od_qdamp od_qbroad od_dscale od_psel od_fatom od_fcell od_fmass].
  split. apply one_chars; reflexivity. do 7 (split; [assumption|]). split. exact I. do 2 (split; [assumption|]). split. exact v_ex_ok. split. exact v_zero_ok. split. exact v_ex_ok. split.
  - constructor. exact nacl_symbols. constructor. exact I. constructor.
  - pose proof v_ex_ok. pose proof v_zero_ok. repeat (apply Forall_cons; [split; [reflexivity|]|]); try apply Forall_nil; repeat (apply Forall_cons; [try assumption|]); try apply Forall_nil. split; exact I.
Qed.
Lemma ex_line : labelled (chars " Scale factor           :") (phase_body (p_ex None)) = Some (chars " 1234.57 (0.001)").
Proof.
  unfold phase_body, head_l. cbn [p_ex op_pscale app]. cbn [labelled].
  assert (put f_plain v_ex = chars "1234.57 (0.001)") as ->.
  { unfold put, v_ex, value_std. cbn [fst snd f_plain f_leading_blank f_std_precision f_width f_left]. rewrite x_text, dx_text.
    destruct Rlt_dec as [L|L]. reflexivity. exfalso. apply L. unfold d_val. cbn [x_ex dx_ex d_neg d_mag]. rewrite Rabs_right by lra. lra. }
  reflexivity.
Qed.

(** * off-diagonal deviations *)
Lemma offdiag_lost : exists p q a b, phase_ok p /\ phase_ok q /\ op_atoms p = [a] /\ op_atoms q = [b] /\ phase_output p = phase_output q /\
  exists d, snd (oa_u a 3) = Some d /\ matters (fst (oa_u a 3)) d /\ snd (oa_u b 3) = Some d_zero.
Proof.
  exists (p_ex (Some dx_ex)), (p_ex (Some d_zero)), (a_ex (Some dx_ex)), (a_ex (Some d_zero)).
  split. apply p_ex_ok. unfold opt_ok, dbl_ok, dx_ex; simpl; lra. split. apply p_ex_ok. unfold opt_ok, dbl_ok, d_zero; simpl; lra.
  split; [reflexivity|]. split; [reflexivity|]. split.
  - rewrite !phase_output_lines. unfold phase_body.
    assert (aniso_l (a_ex (Some dx_ex)) = aniso_l (a_ex (Some d_zero))) as E.
    { unfold aniso_l. assert (forall d, has_off (a_ex d) = false) as H.
      { intros d. unfold has_off. cbn [a_ex oa_u Nat.ltb Nat.leb Nat.eqb v_zero fst]. unfold nonzero. cbn [d_zero d_mag]. destruct (Req_EM_T 0 0) as [_|N]; [reflexivity|]. destruct N; reflexivity. }
      rewrite !H. reflexivity. }
    cbn [p_ex op_atoms map concat]. rewrite E. reflexivity.
  - exists dx_ex. split; [reflexivity|]. split; [|reflexivity]. exists d_zero. split; [reflexivity|]. unfold d_val, d_zero, dx_ex. cbn [d_neg d_mag]. rewrite Rabs_R0. lra.
Qed.
(** * lower case radiation *)
Lemma radiation_wrong : exists d t, data_ok d /\ data_output d = Ok t /\ (forall v, sf (od_type d) v = Ok (fst v)) /\
  exists pre post, t = pre ++ chars "   Radiation            : Neutrons" ++ post.
Proof.
  exists (d_ex "x"). rewrite data_output_lines by apply d_ex_ok. eexists. split. apply d_ex_ok. split; [reflexivity|]. split. reflexivity.
  unfold data_body, range_l. exists (concat (map ln (rule :: data_title (d_ex "x") :: rule :: firstn 8 (range_l (d_ex "x"))))). eexists.
  cbn [firstn range_l]. cbn [app map concat]. unfold ln at 12. rewrite <- !app_assoc. reflexivity.
Qed.
(** * two elements on one line *)
Lemma lines_ne t : t <> [] -> lines t <> [].
Proof. destruct t as [|c t]; [congruence|]. intros _. simpl. destruct (Ascii.eqb c "010"). discriminate. destruct (lines t); discriminate. Qed.
Lemma scat_joined : exists types t, length types = 2%nat /\ Forall (fun a => symbol (fst a)) types /\ scat_string "N" types = Ok t /\ length (lines t) = 1%nat.
Proof.
  exists [(na, (11, 363/100)); (chars "Cl", (17, 9577/1000))]. destruct (scat_text "N" false [(na, (11, 363/100)); (chars "Cl", (17, 9577/1000))]) as (t & ns & E & F & T). right; left; auto.
  exists t. split; auto. assert (Forall (fun a : text * (R * R) => symbol (fst a)) [(na, (11, 363/100)); (chars "Cl", (17, 9577/1000))]) as S by (repeat constructor; [apply na_symbol|pose proof nacl_symbols as Q; rewrite Forall_forall in Q; apply Q; right; right; left; reflexivity]).
  split; auto. split; auto. pose proof (scat_one_line _ _ S t E) as L. assert (lines t <> []) as N. { apply lines_ne. rewrite T. inversion F; subst. discriminate. }
  destruct (lines t); [congruence|simpl in *; lia].
Qed.
Lemma ex_case : Forall phase_ok [p_ex None; p_ex (Some d_zero)] /\ Forall data_ok [d_ex "X"; d_ex "N"] /\
  labelled (chars " Scale factor           :") (phase_body (p_ex None)) = Some (chars " 1234.57 (0.001)").
Proof.
  split; [|split]. repeat (apply Forall_cons; [apply p_ex_ok|]); try apply Forall_nil. exact I. unfold opt_ok, dbl_ok, d_zero; simpl; lra.
  repeat (apply Forall_cons; [apply d_ex_ok|]); apply Forall_nil. exact ex_line.
Qed.
