(** The derivative for a parameter is the derivative of the calculated PDF. *)
From Coq Require Import List Arith ZArith Reals Bool Lia Lra FunctionalExtensionality.
From Verif Require Import Base RSum Util ParamModel ParamProof ParserModel ParserSpec ParserDeriv ParserProof MathModel MathSpec MathProof MatrixModel MatrixProof ConModel ConSpec ConProof ConHist ConReal GaussSpec MetricModel PdfModel PdfSpec LayoutModel LayoutSpec LayoutProof DerivModel DerivSpec DerivCalc LsModel LsSpec TheoryModel TheorySpec TheoryMem ScaleSpec ScaleMem ScaleLoad ScaleFinal RunModel RunFinal GradSpec GradFill GradLoad GradSet.
Import ListNotations.
Local Open Scope R_scope.

(** ** lists *)
Lemma fold_all {A} (F : nat -> tset -> outcome A) : forall l, (forall is s, In (is, s) l -> exists r, F is s = Ok r) -> forall acc,
  exists rs, ofold (fun acc (x : nat * tset) => let (is, s) := x in omap (fun r => acc ++ [r]) (F is s)) l acc = Ok (acc ++ rs) /\ Forall2 (fun x r => F (fst x) (snd x) = Ok r) l rs.
Proof.
  induction l as [|[is s] l IH]; intros H acc. exists []. rewrite app_nil_r. split; [reflexivity|apply Forall2_nil]. destruct (H is s (or_introl eq_refl)) as (r & E).
  destruct (IH (fun i t I => H i t (or_intror I)) (acc ++ [r])) as (rs & ER & FR). exists (r :: rs). cbn [ofold]. rewrite E. cbn [omap obind]. split. rewrite ER, <- app_assoc. reflexivity. constructor; auto.
Qed.
Lemma uniform (P : nat -> nat * tset -> Prop) : (forall f f' x, (f <= f')%nat -> P f x -> P f' x) -> forall l, (forall x, In x l -> exists f, P f x) -> exists f0, forall x, In x l -> P f0 x.
Proof.
  intros M. induction l as [|x l IH]; intros H. exists 0%nat. intros ? []. destruct (H x (or_introl eq_refl)) as (f & F). destruct (IH (fun y I => H y (or_intror I))) as (f' & F').
  exists (Nat.max f f'). intros y [<-|I]. apply (M f); auto. lia. apply (M f'); auto. lia.
Qed.
Lemma uniform_eps (P : R -> nat * tset -> Prop) : (forall e e' x, e' <= e -> P e x -> P e' x) -> forall l, (forall x, In x l -> exists e, 0 < e /\ P e x) -> exists e, 0 < e /\ forall x, In x l -> P e x.
Proof.
  intros M. induction l as [|x l IH]; intros H. exists 1. split. lra. intros ? []. destruct (H x (or_introl eq_refl)) as (f & Pf & F). destruct (IH (fun y I => H y (or_intror I))) as (f' & Pf' & F').
  exists (Rmin f f'). split. apply Rmin_pos; auto. intros y [<-|I]. apply (M f); auto. apply Rmin_l. apply (M f'); auto. apply Rmin_r.
Qed.
Lemma numbered_in {A} (l : list A) i a : nth_error l i = Some a -> In (i, a) (combine (seq 0 (length l)) l).
Proof. intros H. apply (nth_error_In _ i). rewrite numbered_at, H. reflexivity. Qed.
Lemma numbered_nth {A} (l : list A) i a : In (i, a) (combine (seq 0 (length l)) l) -> nth_error l i = Some a.
Proof. intros H. apply In_nth_error in H as (k & H). rewrite numbered_at in H. destruct (nth_error l k) eqn:E; [|discriminate]. cbn in H. congruence. Qed.
Lemma moved_own p l : moved p l (p l) = p.
Proof. apply functional_extensionality. intros m. unfold moved. destruct (Nat.eqb_spec m l) as [->|]; auto. Qed.

(** ** calculus *)
Lemma dlim_near f g x l e : 0 < e -> (forall y, Rabs (y - x) < e -> f y = g y) -> derivable_pt_lim f x l -> derivable_pt_lim g x l.
Proof.
  intros P E H eps He. destruct (H eps He) as [dd K]. assert (M : 0 < Rmin dd e) by (apply Rmin_pos; auto; apply cond_pos). exists (mkposreal _ M). intros h Hh Hd. cbn in Hd.
  pose proof (Rmin_l dd e). pose proof (Rmin_r dd e). rewrite <- !E. apply K; auto. lra. rewrite Rminus_diag_eq by auto. rewrite Rabs_R0. auto. replace (x + h - x) with h by ring. lra.
Qed.
Lemma holds_times d lo hi V t k : holds_pdf d lo hi V t -> holds_pdf d lo hi (fun g => V g * k) (map (option_map (fun y => y * k)) t).
Proof.
  intros (A1 & A2 & A3 & A4). assert (EL : forall g y, el t g = Some y -> el (map (option_map (fun y => y * k)) t) g = Some (y * k)).
  { intros g y H. unfold el in *. exact (eq_trans (map_nth (option_map (fun y => y * k)) t None _) (f_equal (option_map (fun y => y * k)) H)). }
  split. rewrite map_length. auto. split. intros g Hg. rewrite (EL g 0) by auto. f_equal. ring. split. intros Q g Hg. apply EL. auto.
  intros Q. destruct (A4 Q) as (out & (P & H1 & H2 & H3) & H4). exists (map (fun y => y * k) out). split.
  - exists P. rewrite !map_length in *. split; auto. split; auto. intros m Hm. transitivity (nth m out 0 * k). { rewrite (nth_indep _ 0 (0 * k)) by (rewrite map_length; lia). apply (map_nth (fun y => y * k)). }
    rewrite (H3 m Hm). rewrite Rmult_assoc. f_equal. rewrite Rmult_comm, <- rsum_scal. apply rsum_ext. intros j Hj.
    replace (nth j (map (fun g => V g * k) (from_to lo hi)) 0) with (nth j (map V (from_to lo hi)) 0 * k). ring.
    rewrite <- (map_map V (fun y => y * k)). rewrite (nth_indep (map (fun y => y * k) (map V (from_to lo hi))) 0 (0 * k)) by (rewrite !map_length; auto). symmetry. apply (map_nth (fun y => y * k)).
  - intros g Hg. rewrite (EL _ _ (H4 g Hg)). f_equal. destruct (Nat.lt_ge_cases (Z.to_nat (g - lo)) (length out)) as [L|L].
    rewrite (nth_indep (map (fun y => y * k) out) 0 (0 * k)) by (rewrite map_length; lia). symmetry. apply (map_nth (fun y => y * k)). rewrite !nth_overflow by (try rewrite map_length; auto). ring.
Qed.

Section Final.
Variables (addr : rvar -> nat) (ph : list cphase) (sets : list tset) (cs : list (nat * con)).
Notation nset := (length sets).
Notation natoms := (atoms_in ph).
Hypothesis AP : apart addr natoms nset.
Hypothesis BO : blocks_ok ph.
Variables (st : cstate R) (p : nat -> R) (npar : nat) (o : fobj) (l : nat) (v : rvar) (c : con).
Hypothesis D : ConReal.dinv Nm st cs.
Hypothesis RG : regular addr ph sets st cs p.
Hypothesis EN : enters addr st cs p l v c.
Hypothesis NP : npar = (phase_size natoms + 3 * nset)%nat.
Let mem0 := mem_at st cs p.
Let ps := phases_in addr ph mem0.

Lemma val_st : exists q, forall a c, In (a, c) cs -> con_meaning (env_of (ctab (with_pars st q))) c <> None.
Proof. exists p. intros a c' I. destruct RG as (_ & _ & H). apply (H a c' I). Qed.
Hypothesis VE : exists_var natoms nset v.

(** ** the state left by fit_setup *)
Lemma setup_state : exists s0 ly, theory_setup addr Nm Rbuiltins ph nset npar st = (s0, Ok ly) /\ ConReal.dinv Nm s0 cs /\ ctab s0 = ctab st /\
  (forall q a, mem_at s0 cs q a = mem_at st cs q a) /\ map cvar (cons_ s0) = map fst cs /\ map cref (cons_ s0) = vflags s0 cs /\
  fit_setup (fun v => vfind (cons_ s0) (addr v)) natoms nset npar = Ok ly.
Proof.
  destruct (fill_any st cs D val_st (pars_of st)) as (s0 & F & FI & D0 & T & M & CV & CR & _). rewrite (with_own st (pars_of st)) in F, T by auto.
  destruct (proj1 (layout_ok (fun v => vfind (cons_ s0) (addr v)) natoms nset npar) NP) as (ly & EL & _).
  exists s0, ly. unfold theory_setup. rewrite F. cbn [obind]. split. { unfold atoms_in in EL. rewrite EL. reflexivity. }
  split; auto. split; auto. assert (CA : forall c q, con_at s0 c q = con_at st c q) by (intros; unfold con_at, with_pars; cbn [ctab]; rewrite T; reflexivity).
  split. { intros q a. unfold mem_at. destruct (last_con a cs) eqn:L; auto. rewrite M. unfold mem_at. rewrite L. reflexivity. }
  split; auto. split; auto. rewrite CR. unfold vflags. rewrite T. reflexivity.
Qed.

Lemma wrapped_data mem is t : (is < nset)%nat -> load_set addr (wrap_mem addr ph mem) is (ts_data t) = data_in addr mem is t.
Proof. intros H. unfold data_in, load_set. rewrite !(wrap_other addr ph sets AP BO); auto; intros; discriminate. Qed.

(** what is known of data set is with the derivatives *)
Definition good_at (s0 : cstate R) (ly : layout) (dv : matrix R) (des : list cderived) (dx : R) (f0 : nat) (x : nat * tset) : Prop :=
  let (is, t) := x in let d := data_in addr mem0 is t in let psel := entries (combine ps des) (ts_sel t) in
  exists lo hi f1 f2 W C, point_ranges d lo hi f1 f2 /\ right_limits d psel W C /\ forall fuel, (f0 <= fuel)%nat ->
  exists r, set_result fuel ly (vflags s0 cs) dv is d psel = Ok r /\ r_lo r = f1 /\ r_hi r = f2 /\
    frozen addr ph mem0 des is t lo hi f1 f2 W C v dx l r /\ outputs addr ph mem0 des is t fuel f1 f2 v dx l r.

(** ** the calculation for p *)
Lemma diff_at : exists s0 ly dx des f0, theory_setup addr Nm Rbuiltins ph nset npar st = (s0, Ok ly) /\
  derivable_pt_lim (fun x => con_at st c (moved p l x)) (p l) dx /\ Forall2 (fun q de => phase_lattice q = Ok de) ps des /\
  exists dv, (forall is t, nth_error sets is = Some t -> good_at s0 ly dv des dx f0 (is, t)) /\
  forall fuel, (f0 <= fuel)%nat -> exists rs, snd (theory_diff addr Nm Rbuiltins fuel ly ph sets (with_pars s0 p)) = Ok rs /\
    Forall2 (fun x r => set_result fuel ly (vflags s0 cs) dv (fst x) (data_in addr mem0 (fst x) (snd x)) (entries (combine ps des) (ts_sel (snd x))) = Ok r) (combine (seq 0 nset) sets) rs.
Proof.
  destruct setup_state as (s0 & ly & SE & D0 & T & M & CV & CR & LY). pose proof RG as (ND & RD & RC).
  assert (VAL0 : exists q, forall a c, In (a, c) cs -> con_meaning (env_of (ctab (with_pars s0 q))) c <> None). { destruct val_st as (q & V). exists q. intros a c' I. unfold with_pars. cbn [ctab]. rewrite T. exact (V a c' I). }
  assert (CA : forall c q, con_at s0 c q = con_at st c q) by (intros; unfold con_at, with_pars; cbn [ctab]; rewrite T; reflexivity).
  destruct (fill_any s0 cs D0 VAL0 p) as (s' & F & FI & D' & T' & M' & CV' & CR' & WD & MR & MC).
  assert (EN0 : enters addr s0 cs p l v c).
  { destruct EN as (E1 & E2 & E3 & E4 & E5 & E6). split; auto. split. unfold free_of. rewrite T. exact E2. split; auto. split. unfold uses. rewrite T. exact E4. split. unfold with_pars. cbn [ctab]. rewrite T. exact E5. intros a c'. unfold uses. rewrite T. apply E6. }
  destruct (column_at s0 cs D0 p s' l v c addr F FI D' T' MR MC ND) as (LL & dx & DX & COL); auto.
  { intros a c' I. destruct (RC a c' I) as (K1 & K2 & K3 & _). split; auto. split; auto. unfold with_pars. cbn [ctab]. rewrite T. exact K3. }
  destruct (lattices_all ps (proj1 RD)) as (des & DE).
  assert (VF : forall j, nth_error cs j = Some (addr v, c) -> nth j (vflags s0 cs) false = true).
  { intros j J. unfold vflags. rewrite (nth_error_nth _ _ _ (map_nth_error (fun ac => existsb (is_free (ctab s0)) (con_pars (snd ac))) _ _ J)). cbn [snd]. destruct EN as (E1 & E2 & _ & (n & N1 & N2) & _). apply existsb_exists. exists n. split; auto.
    rewrite T. unfold is_free. rewrite N2. unfold free_of in E2. destruct l as [|l']; [discriminate|]. replace (S l' - 1)%nat with l' by lia. destruct (nth_error (pfree (ctab st)) l') as [b|] eqn:E. rewrite (nth_error_nth _ _ _ E) in E2; auto. apply nth_error_None in E. rewrite nth_overflow in E2 by auto. discriminate. }
  assert (IC : In (addr v, c) cs) by apply EN.
  destruct (uniform (good_at s0 ly (cdvdp s') des dx)) with (l := combine (seq 0 nset) sets) as (f0 & G).
  { intros f f' [is t] L (lo & hi & f1 & f2 & W & C & H1 & H2 & H3). exists lo, hi, f1, f2, W, C. split; auto. split; auto. intros fuel Hf. apply H3. lia. }
  { intros [is t] I. apply numbered_nth in I.
    destruct (set_grad addr ph sets cs AP s0 mem0 ly npar ND RD CV CR LY des DE is t I) as (f0 & lo & hi & f1 & f2 & W & C & H1 & H2 & H3).
    { intros a c' J. destruct (RC a c' J) as (_ & _ & _ & w & W1 & W2 & W3). exists w. split; auto. split; auto. intros W C RL. apply (W3 is t _ W C I). exists des. split; auto. exact RL. }
    exists f0, lo, hi, f1, f2, W, C. split; auto. split; auto. intros fuel Hf. destruct (H3 fuel Hf (cdvdp s') l v c dx WD MR ltac:(lia) VE IC VF COL) as (r & R1 & R2 & R3 & _ & R4 & R5). exists r. auto. }
  exists s0, ly, dx, des, f0. split; auto. split. { eapply dlim_ext; [|exact DX]. intros x. apply CA. } split; auto.
  exists (cdvdp s'). split. { intros is t I. apply G. apply numbered_in. exact I. }
  intros fuel Hf. unfold theory_diff. rewrite F. cbv zeta. cbn [snd cons_ cdvdp ctab].
  assert (ME : cmem s' = mem0). { apply functional_extensionality. intros a. rewrite M'. apply M. } rewrite ME. change (load_phases addr (wrap_mem addr ph mem0) ph) with ps. rewrite (lattice_fold ps des DE []). cbn [obind app]. rewrite CR'.
  destruct (fold_all (fun is s => set_result fuel ly (vflags s0 cs) (cdvdp s') is (load_set addr (wrap_mem addr ph mem0) is (ts_data s)) (entries (combine ps des) (ts_sel s))) (combine (seq 0 nset) sets)) with (acc := @nil tres) as (rs & ER & FR).
  { intros is t I. pose proof (G _ I) as (lo & hi & f1 & f2 & W & C & _ & _ & H). destruct (H fuel Hf) as (r & R1 & _). apply numbered_nth in I. exists r. rewrite wrapped_data. exact R1. apply nth_error_Some. congruence. }
  exists rs. split. exact ER. clear - FR AP BO. assert (IN : forall x, In x (combine (seq 0 nset) sets) -> (fst x < nset)%nat). { intros [is t] I. apply numbered_nth in I. cbn. apply nth_error_Some. congruence. }
  revert IN FR. generalize (combine (seq 0 nset) sets) as L. intros L IN FR. induction FR as [|x r L rs E FR IH]; constructor. rewrite <- E. rewrite wrapped_data; auto. apply IN. left; auto. apply IH. intros; apply IN; right; auto.
Qed.

(** ** calculations next to p *)
Lemma con_same a c' x : In (a, c') cs -> a <> addr v -> con_at st c' (moved p l x) = con_at st c' p.
Proof.
  intros I NE. pose proof D as (W & _). apply (val_agree st W). intros n k In1 P. unfold moved. destruct (Nat.eqb_spec (S k) l) as [E|]; auto. exfalso. apply NE. destruct EN as (_ & _ & _ & _ & _ & ON). apply (ON a c' I). exists n. split; auto. rewrite P. f_equal. lia.
Qed.
Lemma mem_moved x a : mem_at st cs (moved p l x) a = if (a =? addr v)%nat then con_at st c (moved p l x) else mem0 a.
Proof.
  destruct RG as (ND & _). destruct EN as (_ & _ & IC & _). unfold mem0, mem_at. destruct (Nat.eqb_spec a (addr v)) as [->|NE].
  - rewrite (last_con_nodup cs (addr v) c ND IC). reflexivity.
  - destruct (last_con a cs) as [c'|] eqn:L; auto. apply last_con_in in L. apply (con_same a); auto.
Qed.
Lemma mem_v : mem0 (addr v) = con_at st c p.
Proof. destruct RG as (ND & _). destruct EN as (_ & _ & IC & _). unfold mem0, mem_at. rewrite (last_con_nodup cs (addr v) c ND IC). reflexivity. Qed.
Section Near.
Hypothesis PF : peaks_fixed v.
Lemma not_pos ip ia i : v <> AV ip ia (FPos i).
Proof. intros ->. exact PF. Qed.
Variable des : list cderived.
Hypothesis DE : Forall2 (fun q de => phase_lattice q = Ok de) ps des.
Variables (fuel : nat) (x : R).
Let X := con_at st c (moved p l x).
Hypothesis OKS : forall is t, nth_error sets is = Some t -> exists r, determine fuel (data_with is v X (data_in addr mem0 is t)) (refresh (phases_with v X (entries (combine ps des) (ts_sel t)))) = Ok r.
Lemma plain_at is t i : nth_error sets is = Some t ->
  calculated addr Nm Rbuiltins fuel ph sets st is i (moved p l x) = pdf_at fuel (data_with is v X (data_in addr mem0 is t)) (phases_with v X (entries (combine ps des) (ts_sel t))) (Z.of_nat i).
Proof.
  intros ET. destruct (fill_any st cs D val_st (moved p l x)) as (s' & F & FI & D' & T' & M' & _).
  unfold calculated, theory_plain. rewrite F. cbv zeta. cbn [snd].
  set (mA := wrap_mem addr ph (cmem s')). set (mB := wrap_mem addr ph mem0).
  assert (EQ : forall w, exists_var natoms nset w -> w <> v -> mA (addr w) = mB (addr w)).
  { intros w W NE. unfold mA, mB. rewrite !wrap_loop. apply wrap_local. rewrite M', mem_moved. destruct (Nat.eqb_spec (addr w) (addr v)) as [E|]; auto. exfalso. apply NE. apply AP; auto. }
  assert (EV : mA (addr v) = X). { unfold mA. rewrite (wrap_other addr ph sets AP BO); auto using not_pos. rewrite M', mem_moved, Nat.eqb_refl. reflexivity. }
  pose proof (load_phases_at addr ph nset mA mB v PF EQ) as LP. rewrite EV in LP. change (load_phases addr mB ph) with ps in LP. rewrite LP.
  destruct (lattice_set v X ps des PF DE) as (des' & DE'). rewrite (lattice_fold _ _ DE' []). cbn [obind app].
  assert (LD : length des = length (phases_set v X ps)) by (rewrite set_len; symmetry; clear -DE; induction DE; simpl; auto).
  assert (EE : forall sel, entries (combine (phases_set v X ps) des') sel = refresh (phases_with v X (entries (combine ps des) sel))). { intros sel. rewrite <- (refresh_to _ _ sel des DE' LD), entries_set. reflexivity. }
  assert (LS : forall is t, nth_error sets is = Some t -> load_set addr mA is (ts_data t) = data_with is v X (data_in addr mem0 is t)).
  { intros is' t' E'. assert (H : (is' < nset)%nat) by (apply nth_error_Some; congruence). rewrite (load_set_at addr ph nset mA mB v PF EQ is' (ts_data t') H), EV. unfold mB. rewrite wrapped_data by auto. reflexivity. }
  destruct (fold_all (fun is s => determine fuel (load_set addr mA is (ts_data s)) (entries (combine (phases_set v X ps) des') (ts_sel s))) (combine (seq 0 nset) sets)) with (acc := @nil (Z * Z * list num)) as (rs & ER & FR).
  { intros is' t' I. apply numbered_nth in I. destruct (OKS is' t' I) as (r & E). exists r. rewrite (LS is' t' I), EE. exact E. }
  rewrite ER. cbn [app]. destruct (Forall2_nth_l _ _ _ is (is, t) FR) as (r & Er & Hr). { rewrite numbered_at, ET. reflexivity. }
  rewrite Er. cbn [fst snd] in Hr. rewrite (LS is t ET), EE in Hr. unfold pdf_at. rewrite Hr. destruct r as [[a b] tt]. unfold el. rewrite Nat2Z.id. reflexivity.
Qed.
End Near.

(** v has the value of its constraint *)
Lemma value_at des is t : Forall2 (fun q de => phase_lattice q = Ok de) ps des -> nth_error sets is = Some t -> peaks_fixed v ->
  value_is is v (data_in addr mem0 is t) (entries (combine ps des) (ts_sel t)) (con_at st c p).
Proof.
  intros DE ET PF. pose proof mem_v as MV. pose proof (wrap_other addr ph sets AP BO mem0 v VE (not_pos PF)) as WV. rewrite MV in WV.
  assert (PN : forall ip e, nth_error (entries (combine ps des) (ts_sel t)) ip = Some (Some e) -> exists q, nth_error ph ip = Some q /\ en_ph e = load_phase addr (wrap_mem addr ph mem0) (ip, q)).
  { intros ip e H. destruct RG as (_ & (_ & RD) & _). destruct (RD is t ET) as (_ & _ & _ & LS & _).
    assert (L1 : length ps = length ph) by (unfold ps, phases_in, load_phases; rewrite map_length, combine_length, seq_length; lia).
    assert (L2 : length des = length ps) by (symmetry; clear -DE; induction DE; simpl; auto).
    rewrite entries_nth in H by (try congruence; lia). destruct (nth_error ps ip) as [q'|] eqn:E1; [|discriminate]. destruct (nth_error des ip); [|discriminate]. destruct (nth_error (ts_sel t) ip) as [[[gi gj]|]|]; try discriminate. inversion H; subst e. cbn.
    unfold ps, phases_in, load_phases in E1. rewrite nth_error_map, numbered_at in E1. destruct (nth_error ph ip) as [q|] eqn:E2; [|discriminate]. cbn [option_map] in E1. inversion E1; subst q'. exists q. auto. }
  destruct v as [ip f|ip ia f|k f]; cbn [value_is].
  - intros e H. destruct (PN ip e H) as (q & Q & ->). destruct f; destruct PF; cbn; auto.
  - intros e H. destruct (PN ip e H) as (q & Q & ->). destruct f; destruct PF. cbn [atom_value]. unfold atom_no. cbn [load_phase cp_atoms].
    destruct VE as (V1 & V2 & _). unfold atoms_in in V2. rewrite (nth_error_nth _ _ _ (map_nth_error (fun p => length (cp_atoms p)) _ _ Q)) in V2.
    destruct (nth_error (cp_atoms q) ia) as [a|] eqn:Ea. 2:{ apply nth_error_None in Ea. lia. }
    erewrite nth_error_nth. 2:{ rewrite nth_error_map, numbered_at, Ea. reflexivity. } cbn. auto.
  - intros ->. destruct f; destruct PF; cbn; auto.
Qed.

(** the PDF of the calculation with derivatives *)
Lemma result_pdf fuel ly vf dv is d psel r : set_result fuel ly vf dv is d psel = Ok r -> determine fuel d psel = Ok (r_lo r, r_hi r, r_pdf r).
Proof.
  unfold set_result. intros H. apply obind_ok in H as ([[a b] t] & E & H). apply obind_ok in H as (A & _ & H). apply omap_ok in H as (m & _ & ->). exact E.
Qed.
Lemma plain_own fuel des : Forall2 (fun q de => phase_lattice q = Ok de) ps des ->
  (forall is t, nth_error sets is = Some t -> exists r, determine fuel (data_in addr mem0 is t) (entries (combine ps des) (ts_sel t)) = Ok r) ->
  forall is t i a b tt, nth_error sets is = Some t -> determine fuel (data_in addr mem0 is t) (entries (combine ps des) (ts_sel t)) = Ok (a, b, tt) ->
  calculated addr Nm Rbuiltins fuel ph sets st is i p = nth i tt None.
Proof.
  intros DE OKS is t i a b tt ET DT. destruct (fill_any st cs D val_st p) as (s' & F & FI & D' & T' & M' & _).
  unfold calculated, theory_plain. rewrite F. cbv zeta. cbn [snd]. assert (ME : cmem s' = mem0) by (apply functional_extensionality; exact M'). rewrite ME. change (load_phases addr (wrap_mem addr ph mem0) ph) with ps. rewrite (lattice_fold ps des DE []). cbn [obind app].
  destruct (fold_all (fun is s => determine fuel (load_set addr (wrap_mem addr ph mem0) is (ts_data s)) (entries (combine ps des) (ts_sel s))) (combine (seq 0 nset) sets)) with (acc := @nil (Z * Z * list num)) as (rs & ER & FR).
  { intros is' t' I. apply numbered_nth in I. destruct (OKS is' t' I) as (r & E). exists r. rewrite wrapped_data. exact E. apply nth_error_Some. congruence. }
  rewrite ER. cbn [app]. destruct (Forall2_nth_l _ _ _ is (is, t) FR) as (r & Er & Hr). { rewrite numbered_at, ET. reflexivity. }
  rewrite Er. cbn [fst snd] in Hr. rewrite wrapped_data, DT in Hr. inversion Hr. reflexivity. apply nth_error_Some. congruence.
Qed.

(** data set is among the results *)
Lemma seen_at (rs : list tres) (P : nat * tset -> tres -> Prop) is d : Forall2 P (combine (seq 0 nset) sets) rs -> nth_error (map (fun x => see (fst x) (snd x)) (combine sets rs)) is = Some d ->
  exists t r, nth_error sets is = Some t /\ P (is, t) r /\ d = see t r.
Proof.
  intros F H. rewrite nth_error_map in H. destruct (nth_error (combine sets rs) is) as [[t r]|] eqn:E; [|discriminate]. cbn in H. inversion H; subst d. clear H.
  assert (Q : forall (A B : Type) (m : list A) (l' : list B) k a b, nth_error (combine m l') k = Some (a, b) -> nth_error m k = Some a /\ nth_error l' k = Some b).
  { clear. induction m as [|x m IH]; intros [|y l'] [|k] a b H; cbn in *; try discriminate. inversion H; auto. apply IH; auto. }
  apply Q in E as [E1 E2]. exists t, r. split; auto. split; auto. destruct (Forall2_nth_l _ _ _ is (is, t) F) as (r' & Er & Hr). { rewrite numbered_at, E1. reflexivity. } congruence.
Qed.

Lemma grad_output : peaks_fixed v -> exists f0, forall fuel, (f0 <= fuel)%nat -> exists ds0, f_theory (theory_object addr Nm Rbuiltins fuel ph sets npar st o) p = Ok ds0 /\ length ds0 = nset /\ exists eps, 0 < eps /\
  forall is d i, nth_error ds0 is = Some d -> (d_lo d <= i <= d_hi d)%nat -> let F x := calculated addr Nm Rbuiltins fuel ph sets st is i (moved p l x) in
  F (p l) = Some (d_pdf d i) /\ (forall x, Rabs (x - p l) < eps -> F x <> None) /\ derivable_pt_lim (fun x => real_of (F x)) (p l) (dpar d i l).
Proof.
  intros PF. destruct diff_at as (s0 & ly & dx & des & f0 & SE & DX & DE & dv & GA & X). exists f0. intros fuel Hf. destruct (X fuel Hf) as (rs & ER & FR).
  exists (map (fun x => see (fst x) (snd x)) (combine sets rs)). split. { unfold theory_object. rewrite SE. cbn [f_theory]. unfold theory_values. rewrite ER. reflexivity. }
  split. { rewrite map_length, combine_length. pose proof (Forall2_length _ _ _ FR) as L. rewrite combine_length, seq_length in L. lia. }
  set (x0 := con_at st c p). assert (EX : con_at st c (moved p l (p l)) = x0) by (rewrite moved_own; reflexivity).
  set (psel t := entries (combine ps des) (ts_sel t)).
  destruct (uniform_eps (fun e (y : nat * tset) => let (is, t) := y in (forall x, Rabs (x - x0) < e -> exists r, determine fuel (data_with is v x (data_in addr mem0 is t)) (refresh (phases_with v x (psel t))) = Ok r) /\
      forall x r g, Rabs (x - x0) < e -> set_result fuel ly (vflags s0 cs) dv is (data_in addr mem0 is t) (psel t) = Ok r -> (r_lo r <= g <= r_hi r)%Z -> exists z, pdf_at fuel (data_with is v x (data_in addr mem0 is t)) (phases_with v x (psel t)) g = Some z)) with (l := combine (seq 0 nset) sets) as (e0 & P0 & H0).
  { intros e e' [is t] L [H H']. split. intros x Hx. apply H. lra. intros x r g Hx. apply H'. lra. }
  { intros [is t] I. apply numbered_nth in I. destruct (GA is t I) as (lo & hi & f1 & f2 & W & C & _ & _ & H). destruct (H fuel Hf) as (r & SR & R1 & R2 & _ & HO). destruct (HO PF x0 (value_at des is t DE I PF)) as (e & P & H1 & H2). exists e. split; auto. split; auto. intros x r' g Hx SR' Hg. assert (r' = r) by (unfold psel in *; congruence). subst r'. destruct (H2 g) as [H3 _]. lia. apply H3. exact Hx. }
  assert (CT : continuity_pt (fun x => con_at st c (moved p l x)) (p l)) by (eapply dcont; exact DX).
  destruct (CT e0 P0) as (dl & PD & NE). assert (NEAR : forall x, Rabs (x - p l) < dl -> Rabs (con_at st c (moved p l x) - x0) < e0).
  { intros x Hx. destruct (Req_dec x (p l)) as [->|N]. rewrite EX, Rminus_diag_eq by auto. rewrite Rabs_R0. auto. rewrite <- EX. apply (NE x). split. split. exact I. auto. exact Hx. }
  assert (CALC : forall is t i x, nth_error sets is = Some t -> Rabs (x - p l) < dl -> calculated addr Nm Rbuiltins fuel ph sets st is i (moved p l x) = pdf_at fuel (data_with is v (con_at st c (moved p l x)) (data_in addr mem0 is t)) (phases_with v (con_at st c (moved p l x)) (psel t)) (Z.of_nat i)).
  { intros is t i x I Hx. apply plain_at; auto. intros is' t' I'. apply (proj1 (H0 (is', t') (numbered_in _ _ _ I'))). apply NEAR; auto. }
  exists dl. split; auto. intros is d i Ed Hi. destruct (seen_at rs _ is d FR Ed) as (t & r & ET & SR & ->). cbn [fst snd] in SR. cbn [see d_lo d_hi] in Hi.
  destruct (GA is t ET) as (lo & hi & f1 & f2 & W & C & PR & _ & H). destruct (H fuel Hf) as (r' & SR' & R1 & R2 & _ & HO). assert (r' = r) by (unfold psel in *; congruence). subst r'.
  assert (HG : (f1 <= Z.of_nat i <= f2)%Z) by (destruct PR as (_ & _ & _ & _ & Q1 & Q2); lia).
  destruct (HO PF x0 (value_at des is t DE ET PF)) as (e1 & P1 & _ & H1). destruct (H1 _ HG) as (HN & y & EY & DY).
  cbv zeta. split; [|split].
  - rewrite moved_own. rewrite (plain_own fuel des DE) with (t := t) (a := r_lo r) (b := r_hi r) (tt := r_pdf r); auto.
    2:{ intros is' t' I'. destruct (GA is' t' I') as (lo' & hi' & f1' & f2' & W' & C' & _ & _ & H'). destruct (H' fuel Hf) as (r' & SR'' & _). eexists. eapply result_pdf; eauto. }
    2:{ eapply result_pdf; eauto. }
    cbn [see d_pdf]. assert (Q : exists z, nth i (r_pdf r) None = Some z). 2:{ destruct Q as (z & Q). rewrite Q. reflexivity. }
    destruct (HN x0) as (z & Ez). rewrite Rminus_diag_eq by auto. rewrite Rabs_R0. auto. 
    assert (ZZ : Rabs (p l - p l) < dl) by (rewrite Rminus_diag_eq by auto; rewrite Rabs_R0; auto). pose proof (CALC is t i (p l) ET ZZ) as CC. rewrite EX in CC. pose proof (eq_trans CC Ez) as CZ. clear CC. rename CZ into CC. rewrite moved_own in CC. rewrite (plain_own fuel des DE) with (t := t) (a := r_lo r) (b := r_hi r) (tt := r_pdf r) in CC; auto.
    2:{ intros is' t' I'. destruct (GA is' t' I') as (lo' & hi' & f1' & f2' & W' & C' & _ & _ & H'). destruct (H' fuel Hf) as (r' & SR'' & _). eexists. eapply result_pdf; eauto. }
    2:{ eapply result_pdf; eauto. } exists z. exact CC.
  - intros x Hx. rewrite (CALC is t i x ET Hx). intros Q. 
    destruct (proj2 (H0 (is, t) (numbered_in _ _ _ ET)) _ r (Z.of_nat i) (NEAR x Hx) SR) as (z & Ez). lia. congruence.
  - replace (dpar (see t r) i l) with (y * dx). 2:{ unfold dpar. cbn [see d_fb]. rewrite Nat2Z.id in EY. rewrite EY. reflexivity. }
    apply (dlim_near (fun x => real_of (pdf_at fuel (data_with is v (con_at st c (moved p l x)) (data_in addr mem0 is t)) (phases_with v (con_at st c (moved p l x)) (psel t)) (Z.of_nat i))) _ _ _ dl PD).
    { intros x Hx. rewrite (CALC is t i x ET Hx). reflexivity. }
    apply (derivable_pt_lim_comp (fun x => con_at st c (moved p l x)) (fun x => real_of (pdf_at fuel (data_with is v x (data_in addr mem0 is t)) (phases_with v x (psel t)) (Z.of_nat i))) (p l) dx y DX). rewrite EX. exact DY.
Qed.

Lemma grad_frozen : exists f0, forall fuel, (f0 <= fuel)%nat -> exists ds0, f_theory (theory_object addr Nm Rbuiltins fuel ph sets npar st o) p = Ok ds0 /\ length ds0 = nset /\
  forall is s d, nth_error sets is = Some s -> nth_error ds0 is = Some d -> exists psel lo hi W C G t,
    let dd := data_in addr mem0 is s in
    seen_by addr ph mem0 s psel /\ point_ranges dd lo hi (Z.of_nat (d_lo d)) (Z.of_nat (d_hi d)) /\ right_limits dd psel W C /\
    (forall x0 g, value_is is v dd psel x0 -> (lo <= g <= hi)%Z ->
       let X x := x0 + (con_at st c (moved p l x) - con_at st c p) in derivable_pt_lim (fun x => fixed_pdf (data_with is v (X x) dd) (phases_with v (X x) psel) W C g) (p l) (G g)) /\
    holds_pdf dd lo hi G t /\ forall i, (d_lo d <= i <= d_hi d)%nat -> nth i t None = Some (dpar d i l).
Proof.
  destruct diff_at as (s0 & ly & dx & des & f0 & SE & DX & DE & dv & GA & X). exists f0. intros fuel Hf. destruct (X fuel Hf) as (rs & ER & FR).
  exists (map (fun x => see (fst x) (snd x)) (combine sets rs)). split. { unfold theory_object. rewrite SE. cbn [f_theory]. unfold theory_values. rewrite ER. reflexivity. }
  split. { rewrite map_length, combine_length. pose proof (Forall2_length _ _ _ FR) as L. rewrite combine_length, seq_length in L. lia. }
  intros is s d ES Ed. destruct (seen_at rs _ is d FR Ed) as (t & r & ET & SR & ->). cbn [fst snd] in SR. assert (t = s) by congruence. subst t.
  destruct (GA is s ES) as (lo & hi & f1 & f2 & W & C & PR & RL & H). destruct (H fuel Hf) as (r' & SR' & R1 & R2 & (G & t & DG & HT & HB) & _). assert (r' = r) by congruence. subst r'.
  exists (entries (combine ps des) (ts_sel s)), lo, hi, W, C, (fun g => G g * dx), (map (option_map (fun y => y * dx)) t). cbv zeta.
  assert (NN : (0 <= f1)%Z /\ (0 <= f2)%Z) by (destruct PR as (_ & _ & _ & _ & Q1 & Q2); lia). cbn [see d_lo d_hi]. rewrite R1, R2, !Z2Nat.id by lia.
  split. { exists des. split; auto. } split; auto. split; auto. split.
  { intros x0 g VI Hg. apply (derivable_pt_lim_comp (fun x => x0 + (con_at st c (moved p l x) - con_at st c p)) (fun x => fixed_pdf (data_with is v x (data_in addr mem0 is s)) (phases_with v x (entries (combine ps des) (ts_sel s))) W C g) (p l) dx (G g)).
    - replace dx with (0 + (dx - 0)) by ring. apply dp. apply dlim_const. apply dmi. exact DX. apply dlim_const.
    - rewrite moved_own. replace (x0 + (con_at st c p - con_at st c p)) with x0 by ring. apply DG; auto. }
  split. apply holds_times; auto. intros i Hi. destruct (HB (Z.of_nat i)) as (y & Ey & Eb). lia. rewrite Nat2Z.id in Eb. unfold el in Ey. rewrite Nat2Z.id in Ey.
  unfold dpar. cbn [see d_fb]. rewrite Eb. exact (eq_trans (map_nth (option_map (fun y => y * dx)) t None _) (f_equal (option_map (fun y => y * dx)) Ey)).
Qed.
End Final.

(** sessions *)
Theorem session_output addr ph sets mem (h : list (uop R)) npar o p l v c : let st := crun Nm Rbuiltins (cinit mem) (map to_cop h) in
  apart addr (atoms_in ph) (length sets) -> blocks_ok ph -> regular addr ph sets st (ucons h) p -> exists_var (atoms_in ph) (length sets) v -> enters addr st (ucons h) p l v c -> peaks_fixed v ->
  npar = (phase_size (atoms_in ph) + 3 * length sets)%nat ->
  exists f0, forall fuel, (f0 <= fuel)%nat -> exists ds0, f_theory (theory_object addr Nm Rbuiltins fuel ph sets npar st o) p = Ok ds0 /\ length ds0 = length sets /\ exists eps, 0 < eps /\
  forall is d i, nth_error ds0 is = Some d -> (d_lo d <= i <= d_hi d)%nat -> let F x := calculated addr Nm Rbuiltins fuel ph sets st is i (moved p l x) in
  F (p l) = Some (d_pdf d i) /\ (forall x, Rabs (x - p l) < eps -> F x <> None) /\ derivable_pt_lim (fun x => real_of (F x)) (p l) (dpar d i l).
Proof.
  intros st AP BO RG VE EN PF NP. apply (grad_output addr ph sets (ucons h) AP BO st p npar o l v c); auto. pose proof RG as (ND & _ & H). apply dinv_run; auto. apply Forall_forall. intros [a k] I. cbn. apply (H a k I).
Qed.
Theorem session_frozen addr ph sets mem (h : list (uop R)) npar o p l v c : let st := crun Nm Rbuiltins (cinit mem) (map to_cop h) in
  apart addr (atoms_in ph) (length sets) -> blocks_ok ph -> regular addr ph sets st (ucons h) p -> exists_var (atoms_in ph) (length sets) v -> enters addr st (ucons h) p l v c ->
  npar = (phase_size (atoms_in ph) + 3 * length sets)%nat ->
  exists f0, forall fuel, (f0 <= fuel)%nat -> exists ds0, f_theory (theory_object addr Nm Rbuiltins fuel ph sets npar st o) p = Ok ds0 /\ length ds0 = length sets /\
  forall is s d, nth_error sets is = Some s -> nth_error ds0 is = Some d -> exists psel lo hi W C G t,
    let mem0 := mem_at st (ucons h) p in let dd := data_in addr mem0 is s in
    seen_by addr ph mem0 s psel /\ point_ranges dd lo hi (Z.of_nat (d_lo d)) (Z.of_nat (d_hi d)) /\ right_limits dd psel W C /\
    (forall x0 g, value_is is v dd psel x0 -> (lo <= g <= hi)%Z ->
       let X x := x0 + (con_at st c (moved p l x) - con_at st c p) in derivable_pt_lim (fun x => fixed_pdf (data_with is v (X x) dd) (phases_with v (X x) psel) W C g) (p l) (G g)) /\
    holds_pdf dd lo hi G t /\ forall i, (d_lo d <= i <= d_hi d)%nat -> nth i t None = Some (dpar d i l).
Proof.
  intros st AP BO RG VE EN NP. apply (grad_frozen addr ph sets (ucons h) AP BO st p npar o l v c); auto. pose proof RG as (ND & _ & H). apply dinv_run; auto. apply Forall_forall. intros [a k] I. cbn. apply (H a k I).
Qed.
