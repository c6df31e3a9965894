(** Exceptions of the engine and what the caller is told. *)
From Coq Require Import List Arith ZArith Reals Bool Ascii Lia Lra.
From Verif Require Import Base.
From Verif Require ParamModel ParserModel ConModel MetricModel MetricSpec MetricProof SphereModel PdfModel GaussModel LsModel SessModel SessSpec SessProof SessProof2 StruModel DataModel SaveModel ReportModel BondModel ScatModel ElementTable.
From Verif Require Import BindModel BindSpec BindErr.
Import ListNotations.
Local Open Scope R_scope.

(** ** the calculation *)
Lemma sphere_errs P fuel k : forall s, errs P (SphereModel.visit fuel k s).
Proof.
  assert (N : forall f s, errs P (SphereModel.next_n f k s)).
  { induction f; intros; cbn [SphereModel.next_n]; repeat (cbv zeta; first [apply IHf | e1]). }
  assert (O : forall f s, errs P (SphereModel.next_o f k s)).
  { induction f; intros; cbn [SphereModel.next_o]; repeat (cbv zeta; first [apply IHf | apply N | e1]). }
  induction fuel; intros; cbn [SphereModel.visit]; repeat (cbv zeta; first [apply IHfuel | apply O | apply N | e1]).
Qed.
Lemma points_errs P fuel a b l : errs P (SphereModel.points_in_sphere fuel a b l).
Proof. unfold SphereModel.points_in_sphere. cbv zeta. apply sphere_errs. Qed.
Lemma cutoff_errs P q d y : errs P (PdfModel.cutoff q d y).
Proof. unfold PdfModel.cutoff, PdfModel.cutoff_fin. et. Qed.
Lemma add_phase_errs P fuel d a b m n t e : errs P (PdfModel.add_phase fuel d a b m n t e).
Proof.
  unfold PdfModel.add_phase, PdfModel.phase_sums, PdfModel.add_peak.
  repeat (cbv zeta; first [apply points_errs | e1]).
Qed.
Lemma calc_range_errs P d : errs P (PdfModel.calc_range d).
Proof. unfold PdfModel.calc_range. et. Qed.
Lemma zfloor_ge x : 0 <= x -> (0 <= SphereModel.zfloor x)%Z.
Proof. intros H. unfold SphereModel.zfloor. destruct (archimed x) as [A _]. assert (0 < up x)%Z by (apply lt_IZR; lra). lia. Qed.
Lemma nint_ge x d z : 0 <= x -> 0 < d -> PdfModel.nint_div x d = Ok z -> (0 <= z)%Z.
Proof.
  unfold PdfModel.nint_div, PdfModel.to_int, PdfModel.rnd. intros H D. destruct (Req_EM_T d 0); [lra|].
  assert (0 <= x / d) by (apply Rmult_le_pos; [lra|left; apply Rinv_0_lt_compat; lra]).
  destruct (Rlt_dec (x / d) 0); [lra|]. destruct (_ && _); [|discriminate]. intros E. injection E as <-. apply zfloor_ge. lra.
Qed.
Lemma range_ncmax d a b m n : 0 < PdfModel.cd_deltar d -> PdfModel.cd_rmin d <= PdfModel.cd_rfmax d -> PdfModel.calc_range d = Ok (a, b, m, n) -> (0 <= n)%Z.
Proof.
  intros D L. unfold PdfModel.calc_range. cbv zeta.
  assert (K : forall x y q, PdfModel.cd_rmin d <= y -> obind (PdfModel.nint_div (x - PdfModel.cd_rmin d) (PdfModel.cd_deltar d)) (fun ncmin => obind (PdfModel.nint_div (y - PdfModel.cd_rmin d) (PdfModel.cd_deltar d)) (fun ncmax => Ok (x, y, ncmin, ncmax))) = Ok q -> (0 <= snd q)%Z).
  { intros x y q Y. destruct (PdfModel.nint_div (x - _) _); cbn; try discriminate. destruct (PdfModel.nint_div (y - _) _) eqn:E; cbn; try discriminate. intros H. injection H as <-. cbn. eapply nint_ge; [| |exact E]; lra. }
  intros H. destruct (obind (PdfModel.nint_div (PdfModel.cd_rfmin d - PdfModel.cd_rmin d) (PdfModel.cd_deltar d)) _) as [q| | |] eqn:E; cbn [obind] in H; try discriminate.
  destruct (Rlt_dec 0 (PdfModel.cd_qmax d)).
  - apply K in H; auto. assert (0 < 6 * 2 * PI / PdfModel.cd_qmax d). { apply Rmult_lt_0_compat. pose proof PI_RGT_0. lra. apply Rinv_0_lt_compat; lra. } lra.
  - injection H as ->. apply K in E; auto.
Qed.
Lemma check_ok tp atoms : radiation tp -> type_check tp atoms = Ok tt.
Proof. intros H. unfold type_check. destruct atoms; auto. cbn in H. destruct H as [<-|[<-|[<-|[<-|[]]]]]; reflexivity. Qed.
Definition isplain (e : err) : Prop := e = ErrPlain.
Lemma check_errs tp atoms : errs isplain (type_check tp atoms).
Proof. unfold type_check, ScatModel.sf. et; reflexivity. Qed.
Lemma determine_errs fuel d l : errs isplain (determine fuel d l).
Proof. unfold determine. repeat (cbv zeta; first [reflexivity | apply calc_range_errs | apply add_phase_errs | apply cutoff_errs | apply check_errs | e1]). Qed.
Lemma determine_fine fuel s l : set_ok s -> errs (fun _ => False) (determine fuel (PdfModel.cs_data s) l).
Proof.
  intros (R & D & L). unfold determine. apply errs_bind; [apply errs_nint|intros nfmin _]. apply errs_bind; [apply errs_nint|intros nfmax _].
  apply errs_bind; [apply calc_range_errs|]. intros [[[a b] m] n] E. apply range_ncmax in E; auto.
  destruct (Z.ltb_spec (n + 1) 0); [lia|]. apply errs_bind.
  - apply errs_fold. intros t [e|] _; [|exact I]. rewrite check_ok by auto. cbn. apply add_phase_errs.
  - intros. repeat (cbv zeta; first [apply cutoff_errs | e1]).
Qed.
Lemma determine_same fuel d l : radiation (PdfModel.cd_type d) -> determine fuel d l = PdfModel.determine fuel d l.
Proof.
  intros R. unfold determine, PdfModel.determine. destruct (PdfModel.nint_div _ _); cbn; auto. destruct (PdfModel.nint_div _ _); cbn; auto.
  destruct (PdfModel.calc_range d) as [[[[a' b] m] n]| | |]; cbn; auto. destruct (n + 1 <? 0)%Z; auto. f_equal.
  generalize (repeat (Some 0) (Z.to_nat (n + 1))). induction l as [|x l IH]; cbn; intros t; auto.
  destruct x as [e|]; [|cbn; auto]. rewrite check_ok by auto. cbn. destruct (PdfModel.add_phase _ _ _ _ _ _ _ _); cbn; auto.
Qed.

Lemma lat_errs p : errs (fun e => e = ErrStructure /\ ~ cell_ok p) (PdfModel.phase_lattice p).
Proof.
  unfold PdfModel.phase_lattice. apply errs_bind; [|intros; exact I].
  destruct (MetricModel.lattice (PdfModel.cp_a0 p) (PdfModel.cp_win p)) as [|e| |] eqn:E; cbn; auto.
  split. exact (MetricProof.lattice_rejects _ _ _ E).
  intros C. apply (MetricProof.lattice_accepts (PdfModel.cp_a0 p)) in C as [l C]. congruence.
Qed.
Lemma wrap_cell p : cell_ok (PdfModel.wrap_phase p) <-> cell_ok p.
Proof. reflexivity. Qed.
Definition theory_err (ph : list PdfModel.cphase) (sets : list PdfModel.cset) (e : err) : Prop :=
  (e = ErrStructure /\ exists p, In p ph /\ ~ cell_ok p) \/ (e = ErrPlain /\ exists s, In s sets /\ ~ set_ok s).
Lemma theory_errs fuel ph sets : errs (theory_err ph sets) (theory fuel ph sets).
Proof.
  unfold theory. cbv zeta. apply errs_bind.
  - apply errs_fold. intros acc p I1. apply errs_bind; [|intros; exact I]. eapply errs_weak; [|apply lat_errs].
    intros e [-> C]. left. split; auto. apply in_map_iff in I1 as (q & <- & I1). exists q. split; auto.
  - intros phd _. apply errs_fold. intros acc s I1. apply errs_bind; [|intros; exact I].
    pose proof (determine_errs fuel (PdfModel.cs_data s) (PdfModel.entries phd (PdfModel.cs_sel s))) as A.
    pose proof (determine_fine fuel s (PdfModel.entries phd (PdfModel.cs_sel s))) as B.
    destruct (determine _ _ _); cbn in *; auto. right. split; auto. exists s. auto.
Qed.

Section Calc.
Context (N : ParserModel.numops R) (builtins : list (ParserModel.builtin R)).
Variable view : (nat -> R) -> list PdfModel.cphase * list PdfModel.cset.
Local Notation after := (after N builtins view).
Definition calc_err (s : ConModel.cstate R) (e : err) : Prop := fill_err s e \/ theory_err (fst (after s)) (snd (after s)) e.
Lemma fit_theory_errs fuel s : errs (calc_err s) (snd (fit_theory N builtins view fuel s)).
Proof.
  unfold fit_theory, calc_err, after. pose proof (fill_errs N builtins s) as F. destruct (ConModel.fill_variables N builtins s) as [s' r]. cbn [fst snd] in *.
  apply errs_bind. eapply errs_weak; [|exact F]. auto. intros _ _. destruct (view (ConModel.cmem s')) as [ph sets]. eapply errs_weak; [|apply theory_errs]. auto.
Qed.
Lemma calc_errs fuel s : errs (fun e => e = ErrUnassigned \/ calc_err s e) (snd (calc N builtins view fuel s)).
Proof. unfold calc. destruct (snd (view (ConModel.cmem s))); [left; reflexivity|]. eapply errs_weak; [|apply fit_theory_errs]. auto. Qed.

Definition fine (s : ConModel.cstate R) : Prop :=
  Forall (refs_set (ConModel.ctab s)) (ConModel.cons_ s) /\ calculable N builtins view s.
Lemma fine_err s e : fine s -> calc_err s e -> e = ErrParse.
Proof.
  intros (F1 & F2 & F3). rewrite !Forall_forall in *. intros [[->|[-> (c & I1 & C)]]|[[-> (p & I1 & C)]|[-> (q & I1 & C)]]]; auto; exfalso; auto.
Qed.
Lemma calc_told fuel s : fine s -> told (omap (fun _ => tt) (snd (calc N builtins view fuel s))) (b_calc N builtins view fuel s).
Proof.
  intros F. unfold b_calc. eapply errs_told. apply errs_map. apply calc_errs. intros e [->|C]; [reflexivity|]. rewrite (fine_err s e F C). reflexivity.
Qed.
(** whatever it is that goes wrong, the other three causes end the process *)
Lemma calc_outcome fuel s :
  match snd (calc N builtins view fuel s) with
  | Ok _ => b_calc N builtins view fuel s = PVal tt
  | Err ErrUnassigned => b_calc N builtins view fuel s = PExc XUnassigned /\ snd (view (ConModel.cmem s)) = []
  | Err ErrParse => b_calc N builtins view fuel s = PExc XConstraint
  | Err ErrConstraint => b_calc N builtins view fuel s = PAbort /\ ~ Forall (refs_set (ConModel.ctab s)) (ConModel.cons_ s)
  | Err ErrStructure => b_calc N builtins view fuel s = PAbort /\ ~ Forall cell_ok (fst (after s))
  | Err ErrPlain => b_calc N builtins view fuel s = PAbort /\ ~ Forall set_ok (snd (after s))
  | Err _ => False
  | UB => b_calc N builtins view fuel s = PUndef
  | NoFuel => b_calc N builtins view fuel s = PHang
  end.
Proof.
  pose proof (calc_errs fuel s) as E. pose proof (fit_theory_errs fuel s) as G. unfold b_calc. unfold calc in *. destruct (snd (view (ConModel.cmem s))) as [|x l] eqn:V. cbn. auto.
  cbv iota in *.
  destruct (snd (fit_theory N builtins view fuel s)) as [r|e| |]; cbn; auto. cbn in G. clear E.
  destruct G as [[->|[-> (c & I1 & C)]]|[[-> (p & I1 & C)]|[-> (q & I1 & C)]]]; cbn; auto; split; auto; rewrite Forall_forall; auto.
Qed.
End Calc.

(** ** the refinement *)
Definition iscalc (e : err) : Prop := e = ErrCalculation.
Lemma gauss_errs n m a b : errs iscalc (GaussModel.gaussj n m a b).
Proof.
  unfold GaussModel.gaussj. apply errs_map, errs_fold. intros s i _. unfold GaussModel.gstep.
  destruct (GaussModel.search _ _ _ _ _) as [[x irow] icol]. cbv zeta. destruct (icol =? 0)%nat; [reflexivity|]. destruct (Req_EM_T _ 0); [reflexivity|].
  destruct (GaussModel.reduce _ _ _ _). exact I.
Qed.
(** an exception of the refinement is one of fit_setup, one of fit_theory for some
    parameter values or the singular matrix *)
Definition theory_of (o : LsModel.fobj) := LsModel.f_theory o.
Definition src (th : (nat -> R) -> outcome (list LsModel.dsval)) (su : outcome unit) (e : err) : Prop :=
  e = ErrCalculation \/ su = Err e \/ exists a, th a = Err e.
Definition keeps (o o' : LsModel.fobj) : Prop := LsModel.f_theory o' = LsModel.f_theory o /\ LsModel.f_setup o' = LsModel.f_setup o.
Definition esrc (o : LsModel.fobj) (e : err) : Prop := src (LsModel.f_theory o) (LsModel.f_setup o) e.
Lemma keeps_esrc o o' e : keeps o o' -> esrc o' e -> esrc o e.
Proof. intros [A B]. unfold esrc. rewrite A, B. auto. Qed.
Lemma mrqcof_errs o a al be : let '(o', _, _, r) := LsModel.mrqcof o a al be in keeps o o' /\ errs (esrc o) r.
Proof.
  unfold LsModel.mrqcof. destruct (LsModel.mrq_zero _ _ _) as [al' be']. cbn [LsModel.set_p LsModel.f_theory].
  destruct (LsModel.f_theory o a) as [ds|e| |] eqn:E.
  - destruct (LsModel.acc_all _ _ _ _) as [[[x y] z] w]. repeat split.
  - repeat split. right; right. eauto.
  - repeat split.
  - repeat split.
Qed.
Lemma mrqmin_errs st o : let '(_, o', r) := LsModel.mrqmin st o in keeps o o' /\ errs (esrc o) r.
Proof.
  unfold LsModel.mrqmin.
  assert (A : let '(_, o', r) := LsModel.mrq_init st o in keeps o o' /\ errs (esrc o) r).
  { unfold LsModel.mrq_init. destruct (Rlt_dec _ 0); [|repeat split]. cbv zeta.
    pose proof (mrqcof_errs (LsModel.set_lambda o (/ 1000)) (LsModel.f_p o) (LsModel.f_alpha (LsModel.set_lambda o (/ 1000))) (fun _ => 0)) as M.
    destruct (LsModel.mrqcof _ _ _ _) as [[[o1 al] be] r1]. destruct M as [[K1 K2] M]. destruct r1; cbn; repeat split; auto. }
  destruct (LsModel.mrq_init st o) as [[st' o'] r]. destruct A as [K A]. destruct r; auto.
  destruct st' as [st'|]; [|split; [auto|exact I]].
  assert (B : let '(_, o2, r2) := LsModel.mrq_main st' o' in keeps o' o2 /\ errs (esrc o') r2).
  { unfold LsModel.mrq_main. cbv zeta. destruct (negb _); [repeat split|].
    pose proof (gauss_errs (LsModel.s_mfit st') 1 (LsModel.augment (LsModel.s_mfit st') (LsModel.f_alpha o') (LsModel.f_covar o') (LsModel.f_alambda o')) (fun j _ => LsModel.s_beta st' j)) as G.
    destruct (GaussModel.gaussj _ _ _ _) as [[cv oneda]|e| |]; cbn in G; [|repeat split; left; auto|repeat split|repeat split].
    destruct (Req_EM_T _ 0); [repeat split|]. match goal with |- context[if ?b then _ else _] => destruct b end; [repeat split|].
    match goal with |- context[LsModel.mrqcof ?a ?b ?c ?d] => pose proof (mrqcof_errs a b c d) as M; destruct (LsModel.mrqcof a b c d) as [[[o2 al] be] r2] end.
    destruct M as [[K1 K2] M]. cbn in K1, K2.
    assert (M' : errs (esrc o') r2) by exact M.
    destruct r2; cbn [errs] in *; try (repeat split; cbn; auto; fail). destruct (Rlt_dec _ _); repeat split; cbn; auto. }
  destruct (LsModel.mrq_main st' o') as [[st2 o2] r2]. destruct B as [K' B]. split. destruct K, K'. split; congruence.
  eapply errs_weak; [|exact B]. intros e. apply keeps_esrc; auto.
Qed.
Definition lkeeps (s s' : LsModel.lst) : Prop := keeps (snd s) (snd s').
Lemma setup_errs s : lkeeps s (fst (LsModel.ls_setup s)) /\ errs (esrc (snd s)) (snd (LsModel.ls_setup s)).
Proof.
  destruct s as [st o]. unfold LsModel.ls_setup. cbn [LsModel.set_chisq LsModel.set_lambda LsModel.f_setup].
  destruct (LsModel.f_setup o) eqn:E; cbn; repeat split. right; left. exact E.
Qed.
Lemma iterate_errs toler s : lkeeps s (fst (LsModel.ls_iterate toler s)) /\ errs (esrc (snd s)) (snd (LsModel.ls_iterate toler s)).
Proof.
  destruct s as [st o]. unfold LsModel.ls_iterate. cbv zeta. pose proof (mrqmin_errs st (LsModel.set_ochisq o (LsModel.f_chisq o))) as M.
  destruct (LsModel.mrqmin _ _) as [[st' o'] r]. destruct M as [K M]. cbn [fst snd]. split. exact K. apply errs_map. exact M.
Qed.
Lemma finish_errs s : lkeeps s (fst (LsModel.ls_finish s)) /\ errs (esrc (snd s)) (snd (LsModel.ls_finish s)).
Proof.
  destruct s as [st o]. unfold LsModel.ls_finish. cbv zeta. pose proof (mrqmin_errs st (LsModel.set_lambda o 0)) as M.
  destruct (LsModel.mrqmin _ _) as [[st' o'] r]. destruct M as [K M]. cbn [fst snd]. split. exact K.
  apply errs_bind. exact M. intros _ _. apply errs_map. destruct K as [K1 K2]. cbn in K1. rewrite K1. destruct (LsModel.f_theory o (LsModel.f_p o')) eqn:E; cbn; auto. right; right. eauto.
Qed.
Lemma step_errs toler running c s : let '(_, _, s', r) := LsModel.ls_step toler running c s in lkeeps s s' /\ errs (esrc (snd s)) r.
Proof.
  unfold LsModel.ls_step, LsModel.refine_step. cbv zeta.
  assert (A : forall (c : LsModel.ctl) s1 r, lkeeps s s1 -> errs (esrc (snd s)) r -> let '(_, _, s', r') := (match r : outcome unit with
    | Ok _ => if LsModel.need_more c then let (s, r) := LsModel.ls_iterate toler s1 in match r with Ok stag => (true, LsModel.bump c stag, s, Ok false) | Err e => (true, c, s, Err e) | UB => (true, c, s, UB) | NoFuel => (true, c, s, NoFuel) end
              else let (s, r) := LsModel.ls_finish s1 in match r with Ok _ => (false, c, s, Ok true) | Err e => (true, c, s, Err e) | UB => (true, c, s, UB) | NoFuel => (true, c, s, NoFuel) end
    | Err e => (true, c, s1, Err e) | UB => (true, c, s1, UB) | NoFuel => (true, c, s1, NoFuel) end) in lkeeps s s' /\ errs (esrc (snd s)) r').
  { clear running c. intros c s1 r K E. destruct r; auto. destruct (LsModel.need_more c).
    - destruct (iterate_errs toler s1) as [K1 E1]. destruct (LsModel.ls_iterate toler s1) as [s2 r2]. cbn [fst snd] in *.
      assert (K2 : lkeeps s s2) by (destruct K, K1; split; congruence). assert (E2 : errs (esrc (snd s)) r2) by (eapply errs_weak; [|exact E1]; intros e; apply keeps_esrc; exact K).
      destruct r2; split; auto; exact I.
    - destruct (finish_errs s1) as [K1 E1]. destruct (LsModel.ls_finish s1) as [s2 r2]. cbn [fst snd] in *.
      assert (K2 : lkeeps s s2) by (destruct K, K1; split; congruence). assert (E2 : errs (esrc (snd s)) r2) by (eapply errs_weak; [|exact E1]; intros e; apply keeps_esrc; exact K).
      destruct r2; split; auto; exact I. }
  destruct (running && negb _)%bool.
  - apply (A c s (Ok tt)). split; reflexivity. exact I.
  - destruct (setup_errs s) as [K1 E1]. destruct (LsModel.ls_setup s) as [s1 r1]. cbn [fst snd] in *. apply A; auto.
Qed.
Lemma refine_errs toler fuel : forall running c s, errs (esrc (snd s)) (snd (LsModel.ls_refine toler fuel running c s)).
Proof.
  unfold LsModel.ls_refine. induction fuel as [|f IH]; intros; cbn [LsModel.refine]. exact I.
  pose proof (step_errs toler running c s) as S1. unfold LsModel.ls_step in S1. destruct (LsModel.refine_step _ _ _ _ _ _) as [[[r1 c1] s1] o]. destruct S1 as [K E].
  destruct o as [[|]|e| |]; cbn [snd]; auto; try exact I. eapply errs_weak; [|apply IH]. intros e. apply keeps_esrc. exact K.
Qed.
