(** What the caller of each function is told. *)
From Coq Require Import List Arith ZArith Reals Bool Ascii Lia Lra.
From Verif Require Import Base.
From Verif Require ParamModel ParserModel ConModel ConProof MetricModel MetricProof SphereModel PdfModel GaussModel LsModel SessModel SessSpec SessProof SessProof2 StruModel DataModel SaveModel ReportModel BondModel ScatModel ElementTable MatrixModel OrderModel ParamProof ParserSpec ConSpec MatrixProof.
From Verif Require Import BindModel BindSpec BindErr BindProof.
Import ListNotations.
Local Open Scope R_scope.

(** ** refinement *)
Section Ref.
Context (N : ParserModel.numops R) (builtins : list (ParserModel.builtin R)).
Variable view : (nat -> R) -> list PdfModel.cphase * list PdfModel.cset.
Variables (fuel : nat) (s : ConModel.cstate R) (mk : list (Z * Z * list PdfModel.num) -> list LsModel.dsval) (maxvar npar : Z).
Definition ref_err (e : err) : Prop := e = ErrCalculation \/ e = ErrConstraint \/ e = ErrParse \/
  (e = ErrStructure /\ exists a, ~ Forall cell_ok (fst (after N builtins view (set_pars a s)))) \/
  (e = ErrPlain /\ exists a, ~ Forall set_ok (snd (after N builtins view (set_pars a s)))).
Lemma src_err o e : LsModel.f_theory o = solver_theory N builtins view fuel s mk -> LsModel.f_setup o = solver_setup N builtins s maxvar npar -> esrc o e -> ref_err e.
Proof.
  unfold esrc. intros -> -> [->|[H|[a H]]]. left; auto.
  - unfold solver_setup in H. pose proof (fill_errs N builtins s) as F. destruct (snd (ConModel.fill_variables N builtins s)) as [u|e'| |]; cbn in *; try discriminate.
    + destruct (maxvar =? npar)%Z; inversion H. right; left; auto.
    + injection H as <-. destruct F as [->|[-> _]]; unfold ref_err; auto.
  - unfold solver_theory in H. pose proof (fit_theory_errs N builtins view fuel (set_pars a s)) as F.
    destruct (snd (fit_theory N builtins view fuel (set_pars a s))); cbn in *; try discriminate. injection H as <-.
    destruct F as [[->|[-> _]]|[[-> (p & I1 & C)]|[-> (q & I1 & C)]]]; unfold ref_err; auto.
    + right; right; right; left. split; auto. exists a. rewrite Forall_forall. auto.
    + right; right; right; right. split; auto. exists a. rewrite Forall_forall. auto.
Qed.
Lemma step_outcome toler running c st o : LsModel.f_theory o = solver_theory N builtins view fuel s mk -> LsModel.f_setup o = solver_setup N builtins s maxvar npar ->
  told (snd (LsModel.ls_step toler running c (st, o))) (b_refine_step toler running c (st, o)) \/
  (b_refine_step toler running c (st, o) = PNull /\ exists a, ~ calculable N builtins view (set_pars a s)).
Proof.
  intros T U. pose proof (step_errs toler running c (st, o)) as E. unfold b_refine_step. destruct (LsModel.ls_step toler running c (st, o)) as [[[r1 c1] s1] r]. cbn [snd] in *. destruct E as [_ E].
  destruct r as [b|e| |]; cbn; auto. apply (src_err o e T U) in E. destruct E as [->|[->|[->|[[-> [a A]]|[-> [a A]]]]]]; cbn; auto; right; split; auto; exists a; intros [B1 B2]; auto.
Qed.
Lemma step_told toler running c st o : LsModel.f_theory o = solver_theory N builtins view fuel s mk -> LsModel.f_setup o = solver_setup N builtins s maxvar npar ->
  (forall a, calculable N builtins view (set_pars a s)) -> told (snd (LsModel.ls_step toler running c (st, o))) (b_refine_step toler running c (st, o)).
Proof. intros T U A. destruct (step_outcome toler running c st o T U) as [H|[_ [a H]]]; auto. exfalso. auto. Qed.
(** which exceptions refine lets through *)
Lemma refine_outcome toler f running c st o : LsModel.f_theory o = solver_theory N builtins view fuel s mk -> LsModel.f_setup o = solver_setup N builtins s maxvar npar ->
  told (snd (LsModel.ls_refine toler f running c (st, o))) (b_refine toler f running c (st, o)) \/
  (b_refine toler f running c (st, o) = PAbort /\
   (snd (LsModel.ls_refine toler f running c (st, o)) = Err ErrParse \/ exists a, ~ calculable N builtins view (set_pars a s))).
Proof.
  intros T U. pose proof (refine_errs toler f running c (st, o)) as E. unfold b_refine. destruct (snd (LsModel.ls_refine toler f running c (st, o))) as [u|e| |]; cbn; auto.
  apply (src_err o e T U) in E. destruct E as [->|[->|[->|[[-> [a A]]|[-> [a A]]]]]]; cbn; auto; right; split; auto; right; exists a; intros [B1 B2]; auto.
Qed.
End Ref.

(** ** session *)
Definition vu (e : err) : Prop := e = ErrValue \/ e = ErrUnassigned.
Definition isvalue (e : err) : Prop := e = ErrValue.
Definition isunas (e : err) : Prop := e = ErrUnassigned.
Lemma setphase_e ip s : errs isunas (snd (SessModel.setphase ip s)).
Proof. unfold SessModel.setphase. destruct (SessModel.one_based _ _); [|reflexivity]. destruct (nth_error _ _); exact I. Qed.
Lemma setdata_e ip s : errs isunas (snd (SessModel.setdata ip s)).
Proof. unfold SessModel.setdata. destruct (SessModel.one_based _ _); [|reflexivity]. destruct (nth_error _ _); exact I. Qed.
Lemma alloc_e qmax qdamp rmin rmax bin s : errs vu (snd (SessModel.alloc qmax qdamp rmin rmax bin s)).
Proof.
  unfold SessModel.alloc. repeat match goal with |- context[if ?b then _ else _] => destruct b; [left; reflexivity|] end.
  unfold SessModel.add_set. eapply errs_weak; [|apply setdata_e]. right. auto.
Qed.
Lemma psel_e ip s : errs isunas (snd (SessModel.psel ip s)).
Proof. unfold SessModel.psel. repeat first [reflexivity | exact I | match goal with |- context[match ?x with _ => _ end] => destruct x end]. Qed.
Lemma pdesel_e ip s : errs isunas (snd (SessModel.pdesel ip s)).
Proof. unfold SessModel.pdesel. repeat first [reflexivity | exact I | match goal with |- context[match ?x with _ => _ end] => destruct x end]. Qed.
Lemma check_e ip ij a s : errs vu (SessModel.check_sel_args ip ij a s).
Proof.
  unfold SessModel.check_sel_args. destruct (SessModel.s_curset s); [|right; reflexivity]. destruct (SessModel.find_set s a0); [|exact I].
  destruct (SessModel.one_based _ _); [|right; reflexivity]. destruct (_ && _)%bool; [left; reflexivity|]. destruct (nth_error _ _) as [[q|]|]; try exact I.
  destruct (SessModel.find_phase s q); [|exact I]. destruct (_ || _)%bool; [left; reflexivity|exact I].
Qed.
Lemma args_e s ip ij a f : (forall p, errs vu (f p)) -> errs vu (snd (SessModel.with_args s ip ij a f)).
Proof.
  intros H. unfold SessModel.with_args. pose proof (check_e ip ij a s) as C. destruct (SessModel.check_sel_args ip ij a s) as [[d p]| | |]; auto.
  specialize (H p). destruct (f p); auto; exact I.
Qed.
Lemma range_all_e a b l : errs isvalue (snd (SessModel.range_all a b l)).
Proof. induction l; cbn. exact I. destruct (SessModel.ds_range a b a0); [|reflexivity]. destruct (SessModel.range_all a b l). exact IHl. Qed.
Lemma range_e is a b s : errs isvalue (snd (SessModel.range is a b s)).
Proof.
  unfold SessModel.range. destruct (Rle_dec b a); [reflexivity|]. destruct (is =? SessModel.ALL)%Z.
  - pose proof (range_all_e a b (firstn (Z.to_nat (SessModel.s_nset s)) (SessModel.s_sets s))) as H. destruct (SessModel.range_all _ _ _). exact H.
  - destruct (SessModel.one_based _ _); [|reflexivity]. destruct (nth_error _ _); [|exact I]. destruct (SessModel.ds_range _ _ _); [exact I|reflexivity].
Qed.
Lemma load_e P s a l : errs P (SessModel.load s a l).
Proof. unfold SessModel.load. et. Qed.
Lemma setvar_e h x s : errs isunas (snd (SessModel.setvar h x s)).
Proof.
  unfold SessModel.setvar. assert (E : errs (fun _ => False) (SessModel.ref_of h s)) by (unfold SessModel.ref_of; et).
  destruct (SessModel.ref_of h s) as [[[a l]|]| | |]; cbn in *; try reflexivity; try exact I; try contradiction.
  pose proof (load_e (fun _ => False) s a l) as L. destruct (SessModel.load s a l); cbn in *; auto. contradiction.
Qed.
Lemma get_ref_e v i s : errs vu (SessModel.get_ref v i s).
Proof. unfold SessModel.get_ref. repeat (cbv zeta; first [left; reflexivity | right; reflexivity | e1]). Qed.
Lemma session_told look o s : no_reading o -> told (snd (SessModel.step look o s)) (b_op look o s).
Proof.
  unfold b_op. intros NR. destruct o; cbn [no_reading SessModel.step c_op] in *; try contradiction.
  - eapply errs_told; [apply alloc_e|]. intros e [->| ->]; reflexivity.
  - reflexivity.
  - eapply errs_told; [apply setphase_e|]. intros e ->; reflexivity.
  - eapply errs_told; [apply setdata_e|]. intros e ->; reflexivity.
  - eapply errs_told; [apply psel_e|]. intros e ->; reflexivity.
  - eapply errs_told; [apply pdesel_e|]. intros e ->; reflexivity.
  - eapply errs_told; [apply args_e|]. intros p. destruct (look smb); [exact I|left; reflexivity]. intros e [->| ->]; reflexivity.
  - eapply errs_told; [apply args_e|]. intros p. exact I. intros e [->| ->]; reflexivity.
  - eapply errs_told; [apply args_e|]. intros p. exact I. intros e [->| ->]; reflexivity.
  - eapply errs_told; [apply args_e|]. intros p. exact I. intros e [->| ->]; reflexivity.
  - eapply errs_told; [apply range_e|]. intros e ->; reflexivity.
  - destruct v as [n|[n i]]; cbn [SessModel.setvar_now].
    + eapply errs_told; [apply setvar_e|]. intros e ->; reflexivity.
    + pose proof (get_ref_e n i s) as G. destruct (SessModel.get_ref n i s) as [h|e| |]; cbn [snd].
      * eapply errs_told; [apply setvar_e|]. intros e ->; reflexivity.
      * destruct G as [->| ->]; reflexivity.
      * reflexivity.
      * reflexivity.
Qed.

(** ** readers *)
Definition sv (e : err) : Prop := e = ErrStructure \/ e = ErrValue.
Lemma keyword_e cmd rest s : errs sv (StruModel.run_keyword cmd rest s).
Proof.
  unfold StruModel.run_keyword, StruModel.on_vals, StruModel.read_sharp, StruModel.read_shape.
  repeat (cbv zeta; first [left; reflexivity | e1 | apply errs_map; unfold StruModel.on_vals]).
  all: unfold StruModel.on_vals; repeat (cbv zeta; first [left; reflexivity | e1]).
Qed.
Lemma header_e fuel : forall s l h, errs sv (StruModel.read_header fuel s l h).
Proof.
  induction fuel; intros; cbn [StruModel.read_header]. exact I. destruct (DataModel.getline s l) as [[l' s'] ok]. destruct (negb ok); [exact I|]. apply errs_bind.
  - unfold StruModel.header_line. repeat (cbv zeta; first [apply keyword_e | e1]).
  - intros [h'|] _; [apply IHfuel|exact I].
Qed.
Lemma atoms_e fuel : forall d l, errs sv (StruModel.read_atoms fuel d l).
Proof.
  induction fuel; intros; cbn [StruModel.read_atoms]. exact I. destruct (StruModel.read_atom d l) as [[[w v] q]|]; [|exact I].
  destruct (ScatModel.pt_lookup _ w); [|right; reflexivity]. apply errs_map, IHfuel.
Qed.
Lemma lattice_e a w : errs sv (MetricModel.lattice a w).
Proof. destruct (MetricModel.lattice a w) as [|e| |] eqn:E; cbn; auto. left. exact (MetricProof.lattice_rejects _ _ _ E). Qed.
Lemma stru_e t : errs sv (StruModel.read_struct t).
Proof.
  unfold StruModel.read_struct. apply errs_bind; [apply header_e|]. intros [h s] _. apply errs_bind; [apply atoms_e|]. intros ats _. cbv zeta.
  apply errs_bind; [apply lattice_e|]. intros _ _. repeat (cbv zeta; first [left; reflexivity | e1]).
Qed.
Lemma read_struct_told mk t s look l : SessSpec.reachable look l s ->
  match StruModel.read_struct t with
  | Ok p => b_read_struct mk t s = PVal tt /\ snd (SessModel.read_struct (inr (mk p)) s) = Ok tt
  | Err _ => b_read_struct mk t s = PExc XStructure
  | UB => b_read_struct mk t s = PUndef
  | NoFuel => b_read_struct mk t s = PHang
  end.
Proof.
  intros R. apply SessProof2.reach_inv in R. unfold b_read_struct. pose proof (stru_e t) as E. destruct (StruModel.read_struct t) as [p|e| |]; cbn [content obind]; auto.
  - destruct (SessProof2.read_struct_new (mk p) s R) as (s' & q & A & _). rewrite A. auto.
  - destruct E as [->| ->]; reflexivity.
Qed.
Definition isdata (e : err) : Prop := e = ErrData.
Lemma history_e fuel : forall s l, errs isdata (DataModel.skip_history fuel s l).
Proof. induction fuel; intros; cbn [DataModel.skip_history]; repeat first [apply IHfuel | e1]. Qed.
Lemma comments_e fuel : forall s l, errs isdata (DataModel.skip_comments fuel s l).
Proof. induction fuel; intros; cbn [DataModel.skip_comments]; repeat first [apply IHfuel | e1]. Qed.
Lemma rows_e fuel n : forall s l w, errs isdata (DataModel.read_rows fuel n s l w).
Proof. induction fuel; intros; cbn [DataModel.read_rows]; repeat first [apply IHfuel | e1]. Qed.
Lemma data_e fuel t : errs isdata (DataModel.read_data_stream fuel t).
Proof.
  unfold DataModel.read_data_stream. destruct (DataModel.getline _ _) as [[l s] ok]. apply errs_bind. destruct (DataModel.text_eqb _ _); [apply history_e|exact I].
  intros [s1 l1] _. apply errs_bind; [apply comments_e|]. intros [s2 l2] _. cbv zeta. apply errs_bind; [apply rows_e|]. intros [rows w] _. cbv zeta. repeat (first [reflexivity | e1]).
Qed.
Lemma read_data_told mk fuel t s look l : SessSpec.reachable look l s ->
  match DataModel.read_data_stream fuel t with
  | Ok d => b_read_data mk fuel t s = PVal tt /\ snd (SessModel.read_data (inr (mk d)) s) = Ok tt
  | Err _ => b_read_data mk fuel t s = PExc XData
  | UB => b_read_data mk fuel t s = PUndef
  | NoFuel => b_read_data mk fuel t s = PHang
  end.
Proof.
  intros R. apply SessProof2.reach_inv in R. unfold b_read_data. pose proof (data_e fuel t) as E. destruct (DataModel.read_data_stream fuel t) as [p|e| |]; cbn [content obind]; auto.
  - destruct (SessProof2.read_data_new (mk p) s R) as (s' & q & A & _). rewrite A. auto.
  - rewrite E. reflexivity.
Qed.
Lemma arrays_e r gr dgr : errs isdata (DataModel.read_data_arrays r gr dgr).
Proof. unfold DataModel.read_data_arrays. repeat (cbv zeta; first [reflexivity | e1]). Qed.
Definition same_lengths (r gr : list R) (dgr : option (list R)) : Prop := length r = length gr /\ forall l, dgr = Some l -> length l = length gr.
Lemma read_arrays_told mk r gr dgr s look l : SessSpec.reachable look l s ->
  (~ same_lengths r gr dgr -> b_read_arrays mk r gr dgr s = PExc XValue) /\
  (same_lengths r gr dgr ->
  match DataModel.read_data_arrays r gr dgr with
  | Ok d => b_read_arrays mk r gr dgr s = PVal tt /\ snd (SessModel.read_data (inr (mk d)) s) = Ok tt
  | Err _ => b_read_arrays mk r gr dgr s = PExc XData
  | UB => b_read_arrays mk r gr dgr s = PUndef /\ r = []
  | NoFuel => False
  end).
Proof.
  intros R. apply SessProof2.reach_inv in R. unfold b_read_arrays, same_lengths.
  assert (D : ((length r =? length gr)%nat && match dgr with Some l => (length l =? length gr)%nat | None => true end)%bool = true <-> same_lengths r gr dgr).
  { unfold same_lengths. rewrite andb_true_iff, Nat.eqb_eq. destruct dgr as [q|]; [rewrite Nat.eqb_eq|]; split; intros [A B]; split; auto; try (intros ? [= <-]; auto); intros; discriminate. }
  destruct (_ && _)%bool; cbn [negb]; split; intros S1.
  - exfalso. apply S1, D. reflexivity.
  - pose proof (arrays_e r gr dgr) as E. assert (U : DataModel.read_data_arrays r gr dgr = UB -> r = []) by (unfold DataModel.read_data_arrays; destruct r; auto; cbv zeta; destruct (negb _); discriminate).
    assert (F : DataModel.read_data_arrays r gr dgr <> NoFuel) by (unfold DataModel.read_data_arrays; destruct r; cbv zeta; [discriminate|]; destruct (negb _); discriminate).
    destruct (DataModel.read_data_arrays r gr dgr) as [p|e| |]; cbn [content obind]; auto.
    + destruct (SessProof2.read_data_new (mk p) s R) as (s' & q & A & _). rewrite A. auto.
    + rewrite E. reflexivity.
  - reflexivity.
  - apply D in S1. discriminate.
Qed.

(** ** parameters, texts, distances, scattering, lists *)
Lemma getpar_told {T} (t : ParamModel.ptab T) n : told (ParamModel.getpar t n) (b_getpar t n).
Proof. eapply (errs_told isunas). unfold ParamModel.getpar. repeat first [reflexivity | e1]. intros e ->. reflexivity. Qed.
Lemma setflag_told {T} b (t : ParamModel.ptab T) n : told (snd (ParamModel.setflag b t n)) (b_setflag b t n).
Proof. eapply (errs_told isunas). unfold ParamModel.setflag. repeat first [reflexivity | exact I | match goal with |- context[match ?x with _ => _ end] => destruct x end]. intros e ->. reflexivity. Qed.
Lemma constrain_int_told {T} (s : ConModel.cstate T) a ipar ty :
  fst (b_constrain_int s (Some a) ipar ty) = fst (ConModel.constrain_int s a ipar ty) /\
  told (snd (ConModel.constrain_int s a ipar ty)) (snd (b_constrain_int s (Some a) ipar ty)) /\
  b_constrain_int s None ipar ty = (s, PExc XUnassigned).
Proof.
  unfold b_constrain_int. destruct (ConModel.constrain_int s a ipar ty) as [s' r] eqn:E. cbn. split; auto. split; auto.
  eapply (errs_told (fun e => e = ErrConstraint)); [|intros e ->; reflexivity]. unfold ConModel.constrain_int in E.
  repeat match type of E with context[if ?b then _ else _] => destruct b end; injection E as <- <-; cbn; auto.
Qed.
Lemma constrain_str_told {T} (s : ConModel.cstate T) a form : b_constrain_str s (Some a) form = (ConModel.constrain_str s a form, PVal tt).
Proof. reflexivity. Qed.
Lemma pdf_told sets is : told (SaveModel.save_pdf sets is) (b_save_pdf sets is).
Proof. eapply (errs_told isunas). unfold SaveModel.save_pdf, SaveModel.build_pdf_file, SaveModel.build_file, SaveModel.pdf_line. repeat (cbv zeta; first [reflexivity | e1]). intros e ->; reflexivity. Qed.
Lemma dif_told sets is : told (SaveModel.save_dif sets is) (b_save_dif sets is).
Proof. eapply (errs_told isunas). unfold SaveModel.save_dif, SaveModel.build_dif_file, SaveModel.build_file, SaveModel.dif_line. repeat (cbv zeta; first [reflexivity | e1]). intros e ->; reflexivity. Qed.
Lemma mx_get_e {T} P (m : MatrixModel.matrix T) i j : errs P (MatrixModel.mx_get m i j).
Proof. unfold MatrixModel.mx_get. et. Qed.
Lemma res_told {T} (f : ReportModel.fitdata T) : told (ReportModel.save_res f) (b_save_res f).
Proof.
  eapply (errs_told isunas); [|intros e ->; reflexivity]. unfold ReportModel.save_res. destruct (_ =? 0)%Z; [reflexivity|]. unfold ReportModel.fit_output. cbv zeta. destruct (_ =? 0)%nat; [exact I|].
  apply errs_bind. 
  - generalize (OrderModel.order_by_id (ReportModel.fd_tab f)). intros l. induction l; cbn. exact I. apply errs_bind. unfold ReportModel.par_item. et. intros. apply errs_map. auto.
  - intros ps _. apply errs_bind; [|intros; exact I]. generalize (OrderModel.order_by_id (ReportModel.fd_tab f)). intros l. induction l as [|i l IH]; cbn. exact I.
    apply errs_bind; [apply errs_rd|]. intros [|] _; auto. apply errs_bind; [|intros; apply errs_map; auto]. clear IH. induction l as [|j l IH]; cbn. exact I.
    apply errs_bind; [apply errs_rd|]. intros [|] _; auto. repeat (cbv zeta; first [apply IH | apply mx_get_e | e1]).
Qed.
Lemma loop_e P fuel : forall x c, errs P (BondModel.loop_vals fuel x c).
Proof. induction fuel; intros; cbn [BondModel.loop_vals]; repeat first [apply IHfuel | e1]. Qed.
Lemma nearest_e P fuel b x : errs P (BondModel.make_nearest fuel b x).
Proof. unfold BondModel.make_nearest. repeat (cbv zeta; first [apply loop_e | e1]). Qed.
Lemma angle_told fuel c i j k : told (BondModel.on_current (fun b => BondModel.bond_angle fuel b i j k) c) (b_bond_angle fuel c i j k).
Proof.
  eapply (errs_told vu); [|intros e [->| ->]; reflexivity]. unfold BondModel.on_current, BondModel.bond_angle.
  repeat (cbv zeta; first [left; reflexivity | right; reflexivity | apply nearest_e | e1]).
Qed.
Lemma length_told fuel c i j : told (BondModel.on_current (fun b => BondModel.bond_length_atoms fuel b i j) c) (b_bond_length_atoms fuel c i j).
Proof.
  eapply (errs_told vu); [|intros e [->| ->]; reflexivity]. unfold BondModel.on_current, BondModel.bond_length_atoms.
  repeat (cbv zeta; first [left; reflexivity | right; reflexivity | apply nearest_e | e1]).
Qed.
Lemma types_told fuel c si sj lo hi : told (BondModel.on_current (fun b => BondModel.bond_length_types fuel b si sj lo hi) c) (b_bond_length_types fuel c si sj lo hi).
Proof.
  eapply (errs_told vu); [|intros e [->| ->]; reflexivity]. unfold BondModel.on_current, BondModel.bond_length_types, BondModel.select_atoms.
  repeat (cbv zeta; first [left; reflexivity | right; reflexivity | apply points_errs | e1]).
Qed.
Lemma local_e tbl t p : errs isvalue (ScatModel.local_lookup tbl t p).
Proof. unfold ScatModel.local_lookup, ScatModel.local_symbol. repeat first [reflexivity | e1]. Qed.
Lemma get_scat_told tbl t tp p : told (ScatModel.get_scat tbl (match t with Some t => t | None => [] end) tp p) (b_get_scat tbl t tp p).
Proof. eapply (errs_told isvalue); [|intros e ->; reflexivity]. unfold ScatModel.get_scat. repeat first [reflexivity | e1]. Qed.
Lemma set_scat_told tbl t tp p v : told (snd (ScatModel.set_scat tbl t tp p v)) (b_set_scat tbl (Some t) tp p v) /\ b_set_scat tbl None tp p v = PExc XUnassigned.
Proof.
  split; auto. eapply (errs_told (fun e => e = ErrValue \/ e = ErrPlain)); [|intros e [->| ->]; reflexivity]. unfold ScatModel.set_scat.
  repeat first [left; reflexivity | right; reflexivity | exact I | match goal with |- context[match ?x with _ => _ end] => destruct x end].
Qed.
Lemma reset_scat_told tbl t p : told (snd (ScatModel.reset_scat tbl t p)) (b_reset_scat tbl (Some t) p) /\ b_reset_scat tbl None p = PExc XUnassigned.
Proof.
  split; auto. eapply (errs_told isvalue); [|intros e ->; reflexivity]. unfold ScatModel.reset_scat.
  repeat first [reflexivity | exact I | match goal with |- context[match ?x with _ => _ end] => destruct x end].
Qed.

(** lists: the only error is that of a negative length *)
Lemma py_list_e {A} f a b : (forall i, errs (fun _ => False) (f i)) -> errs isplain (DataModel.py_list (A:=A) f a b).
Proof. intros H. unfold DataModel.py_list. destruct (_ <? 0)%Z; [reflexivity|]. apply errs_fold. intros. apply errs_bind; [|intros; exact I]. eapply errs_weak; [|apply H]. intros; contradiction. Qed.
Definition list_call {A} (f : DataModel.view -> outcome (list A)) : Prop := forall v, errs isplain (f v).
Lemma list_told {A} (f : DataModel.view -> outcome (list A)) : list_call f -> forall cur,
  match cur with
  | None => b_list f cur = PExc XUnassigned
  | Some v => match f v with Ok l => b_list f cur = PVal l | Err _ => b_list f cur = PExc XSystem | UB => b_list f cur = PUndef | NoFuel => b_list f cur = PHang end
  end.
Proof. intros H [v|]; [|reflexivity]. specialize (H v). unfold b_list. destruct (f v); cbn in *; auto. rewrite H. reflexivity. Qed.
Lemma get_r_call : list_call DataModel.get_r.
Proof. intros v. unfold DataModel.get_r. cbv zeta. repeat first [exact I | apply py_list_e; intros; et | e1]. Qed.
Lemma get_r_map_call : list_call (fun v => omap (map Some) (DataModel.get_r v)).
Proof. intros v. apply errs_map, get_r_call. Qed.
Lemma fit_call : list_call DataModel.getpdf_fit.
Proof. intros v. apply py_list_e. intros. et. Qed.
Lemma obs_call : list_call DataModel.getpdf_obs.
Proof. intros v. apply py_list_e. intros. et. Qed.
Lemma diff_call : list_call DataModel.getpdf_diff.
Proof. intros v. apply py_list_e. intros. et. Qed.

Lemma sel_ok tp sel : (forall atoms, In (Some atoms) sel -> atoms = [] \/ radiation tp) -> ofold (fun _ p => match p with Some atoms => type_check tp atoms | None => Ok tt end) sel tt = Ok tt.
Proof.
  induction sel as [|[atoms|] sel IH]; intros H; cbn; auto.
  - assert (type_check tp atoms = Ok tt) as ->. { destruct (H atoms) as [->|Hr]. left; auto. reflexivity. apply check_ok; auto. } cbn. apply IH. intros. apply H. right; auto.
  - apply IH. intros. apply H. right; auto.
Qed.
Lemma check_bad tp a l : ~ radiation tp -> type_check tp (a :: l) = Err ErrPlain.
Proof.
  intros H. unfold type_check, ScatModel.sf. destruct (Ascii.eqb_spec tp "x"); [subst; exfalso; apply H; cbn; auto|]. destruct (Ascii.eqb_spec tp "X"); [subst; exfalso; apply H; cbn; auto|].
  destruct (Ascii.eqb_spec tp "n"); [subst; exfalso; apply H; cbn; auto|]. destruct (Ascii.eqb_spec tp "N"); [subst; exfalso; apply H; cbn; auto|]. reflexivity.
Qed.
Lemma sel_bad tp sel a l : ~ radiation tp -> In (Some (a :: l)) sel -> ofold (fun _ p => match p with Some atoms => type_check tp atoms | None => Ok tt end) sel tt = Err ErrPlain.
Proof.
  intros H. induction sel as [|x sel IH]; intros I1. destruct I1. cbn [ofold]. destruct I1 as [->|I1].
  - cbv beta iota. rewrite check_bad by auto. reflexivity.
  - destruct x as [[|b q]|]; cbn [obind type_check]; auto. destruct (type_check tp (b :: q)) eqn:E; rewrite check_bad in E by auto; try discriminate. injection E as <-. change (obind (type_check tp (b :: q)) (fun s1 => ofold (fun _ p => match p with Some atoms => type_check tp atoms | None => Ok tt end) sel s1) = Err ErrPlain). rewrite check_bad by auto. reflexivity.
Qed.
Lemma fractions_told {A} tp sel (fr : A) :
  ((forall atoms, In (Some atoms) sel -> atoms = [] \/ radiation tp) -> b_phase_fractions (Some (tp, sel)) fr = PVal fr) /\
  (forall a l, ~ radiation tp -> In (Some (a :: l)) sel -> b_phase_fractions (Some (tp, sel)) fr = PAbort) /\
  b_phase_fractions None fr = PExc XUnassigned.
Proof.
  unfold b_phase_fractions. repeat split.
  - intros H. rewrite sel_ok by auto. reflexivity.
  - intros a l H I1. rewrite (sel_bad tp sel a l) by auto. reflexivity.
Qed.

(** ** calculations that end the process, in general *)
Section Abort.
Context (N : ParserModel.numops R) (builtins : list (ParserModel.builtin R)).
Variable view : (nat -> R) -> list PdfModel.cphase * list PdfModel.cset.
Lemma calc_no_set fuel s : snd (view (ConModel.cmem s)) = [] -> b_calc N builtins view fuel s = PExc XUnassigned.
Proof. intros H. unfold b_calc, calc. rewrite H. reflexivity. Qed.
Lemma undefined_aborts fuel s cs1 a c cs2 n : snd (view (ConModel.cmem s)) <> [] ->
  ParamProof.wf (ConModel.ctab s) -> MatrixProof.mwf (ConModel.cdvdp s) -> ConSpec.table s (cs1 ++ (a, c) :: cs2) ->
  (forall a c, In (a, c) cs1 -> ConSpec.con_val N builtins (ParserSpec.env_of (ConModel.ctab s)) c <> None) ->
  In n (ConSpec.con_pars c) -> ParamModel.getpar (ConModel.ctab s) n = Err ErrUnassigned ->
  b_calc N builtins view fuel s = PAbort.
Proof.
  intros V W M T D I1 U. destruct (ConProof.fill_variables_undefined N builtins s cs1 a c cs2 n W M T D I1 U) as (s' & E & _).
  unfold b_calc, calc. destruct (snd (view (ConModel.cmem s))); [contradiction|]. unfold fit_theory. rewrite E. reflexivity.
Qed.
Lemma lat_flat p : ~ cell_ok p -> PdfModel.phase_lattice p = Err ErrStructure.
Proof.
  intros C. unfold PdfModel.phase_lattice. destruct (MetricModel.lattice (PdfModel.cp_a0 p) (PdfModel.cp_win p)) as [l|e| |] eqn:E.
  - exfalso. apply C. apply (MetricProof.lattice_accepts (PdfModel.cp_a0 p)). eauto.
  - rewrite (MetricProof.lattice_rejects _ _ _ E). reflexivity.
  - exfalso. exact (proj1 (MetricProof.lattice_total _ _) E).
  - exfalso. exact (proj2 (MetricProof.lattice_total _ _) E).
Qed.
Lemma fold_flat l : (exists p, In p l /\ ~ cell_ok p) -> forall acc, ofold (fun acc p => obind (PdfModel.phase_lattice p) (fun de => Ok (acc ++ [(p, de)]))) (map PdfModel.wrap_phase l) acc = Err ErrStructure.
Proof.
  induction l as [|q l IH]; intros (p & I1 & C) acc. destruct I1. cbn [map ofold]. 
  destruct (PdfModel.phase_lattice (PdfModel.wrap_phase q)) as [de|e| |] eqn:E; cbn [obind].
  - destruct I1 as [->|I1]. rewrite (lat_flat (PdfModel.wrap_phase p)) in E by exact C. discriminate. apply IH. eauto.
  - pose proof (lat_errs (PdfModel.wrap_phase q)) as L. rewrite E in L. destruct L as [-> _]. reflexivity.
  - exfalso. unfold PdfModel.phase_lattice in E. destruct (MetricModel.lattice _ _) eqn:E2; try discriminate. exact (proj1 (MetricProof.lattice_total _ _) E2).
  - exfalso. unfold PdfModel.phase_lattice in E. destruct (MetricModel.lattice _ _) eqn:E2; try discriminate. exact (proj2 (MetricProof.lattice_total _ _) E2).
Qed.
Lemma flat_aborts fuel s : snd (view (ConModel.cmem s)) <> [] -> snd (ConModel.fill_variables N builtins s) = Ok tt ->
  (exists p, In p (fst (after N builtins view s)) /\ ~ cell_ok p) -> b_calc N builtins view fuel s = PAbort.
Proof.
  intros V E C. unfold b_calc, calc. destruct (snd (view (ConModel.cmem s))); [contradiction|]. unfold fit_theory, after in *.
  destruct (ConModel.fill_variables N builtins s) as [s' r]. cbn [fst snd] in *. subst r. cbn [obind]. destruct (view (ConModel.cmem s')) as [ph sets]. cbn [fst snd] in *.
  unfold theory. cbv zeta. rewrite fold_flat by auto. reflexivity.
Qed.
End Abort.
