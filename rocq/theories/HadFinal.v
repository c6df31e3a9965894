(** The derivative for a parameter used in any number of constraints. *)
From Coq Require Import List Arith ZArith Reals Bool Lia Lra FunctionalExtensionality.
From Verif Require Import Base RSum Util ParamModel ParamProof ParserModel ParserSpec ParserDeriv ParserProof MathModel MathSpec MathProof MatrixModel MatrixProof ConModel ConSpec ConProof ConHist ConReal GaussSpec MetricModel PdfModel PdfSpec LayoutModel LayoutSpec LayoutProof DerivModel DerivSpec DerivCalc DerivOut LsModel LsSpec TheoryModel TheorySpec TheoryMem ScaleSpec ScaleMem ScaleLoad ScaleFinal RunModel RunFinal GradSpec GradFill GradLoad GradFinal HadSpec HadCalc HadLoad HadAlike HadNear HadSet.
Import ListNotations.
Local Open Scope R_scope.

Lemma assign : forall cs : list (nat * con), NoDup (map fst cs) -> forall Y : nat -> R, exists dg, forall j a c, nth_error cs j = Some (a, c) -> dg a = Y j.
Proof.
  induction cs as [|[b k] cs IH]; intros ND Y. exists (fun _ => 0). intros [|j]; discriminate. inversion ND as [|? ? NI ND']; subst. destruct (IH ND' (fun j => Y (S j))) as (dg & H).
  exists (fun a => if (a =? b)%nat then Y 0%nat else dg a). intros [|j] a c E; cbn in E. inversion E; subst. rewrite Nat.eqb_refl. reflexivity.
  destruct (Nat.eqb_spec a b) as [->|N]. exfalso. apply NI. apply (in_map fst) with (x := (b, c)). eapply nth_error_In; eauto. apply (H j a c E).
Qed.

Section Final.
Variables (addr : rvar -> nat) (ph : list cphase) (sets : list tset) (cs : list (nat * con)).
Notation nset := (length sets).
Notation natoms := (atoms_in ph).
Hypothesis AP : apart addr natoms nset.
Hypothesis BO : blocks_ok ph.
Variables (st : cstate R) (p : nat -> R) (npar : nat) (o : fobj) (l : nat).
Hypothesis D : ConReal.dinv Nm st cs.
Hypothesis RG : regular addr ph sets st cs p.
Hypothesis SM : smooth_in st cs p l.
Hypothesis NP : npar = (phase_size natoms + 3 * nset)%nat.
Let mem0 := mem_at st cs p.
Let e := wrap_mem addr ph mem0.
Let ps := phases_in addr ph mem0.
Let al := along addr ph st cs p l.

(** ** the path of the variables *)
Lemma unused a c x : In (a, c) cs -> ~ uses st c l -> con_at st c (moved p l x) = con_at st c p.
Proof.
  intros _ U. pose proof D as (W & _). apply (val_agree st W). intros n k In1 P. unfold moved. destruct (Nat.eqb_spec (S k) l) as [E|]; auto. exfalso. apply U. exists n. split; auto. rewrite P. f_equal. lia.
Qed.
Lemma along_path Y : (forall j a c, nth_error cs j = Some (a, c) -> derivable_pt_lim (fun x => con_at st c (moved p l x)) (p l) (Y j)) ->
  exists dg, path (map fst cs) e al (p l) dg /\ forall j a c, nth_error cs j = Some (a, c) -> dg a = Y j.
Proof.
  intros H. destruct RG as (ND & _). destruct (assign cs ND Y) as (dg & G). exists dg. split; auto. unfold al, along. split; [|split].
  - intros a. rewrite moved_own. fold mem0 e. ring.
  - intros a I. apply in_map_iff in I as ((a' & c) & <- & I). cbn [fst]. apply In_nth_error in I as (j & J). rewrite (G j a' c J).
    replace (Y j) with (0 + (Y j - 0)) by ring. apply dp. apply dlim_const. apply dmi; [|apply dlim_const]. eapply dlim_ext; [|exact (H j a' c J)]. intros x. unfold mem_at. rewrite (last_con_nodup cs a' c ND (nth_error_In _ _ J)). reflexivity.
  - intros a N x. fold mem0 e. assert (Q : mem_at st cs (moved p l x) a = mem0 a). { unfold mem0, mem_at. destruct (last_con a cs) as [c|] eqn:L; auto. exfalso. apply last_con_in in L. apply N. apply (in_map fst) in L. exact L. } rewrite Q. ring.
Qed.

Definition good_at (s0 : cstate R) (ly : layout) (dv : matrix R) (des : list cderived) (f0 : nat) (x : nat * tset) : Prop :=
  let (is, t) := x in let d := data_in addr mem0 is t in let psel := entries (combine ps des) (ts_sel t) in
  exists lo hi f1 f2 W C, point_ranges d lo hi f1 f2 /\ right_limits d psel W C /\ forall fuel, (f0 <= fuel)%nat ->
  (forall d' psel', alike_data d d' -> alike_entries psel psel' -> (forall ip x, nth_error psel' ip = Some (Some x) -> sane_phase d' (en_ph x)) ->
     exists tt, determine fuel d' psel' = Ok (f1, f2, tt) /\ holds_pdf d lo hi (fixed_pdf d' psel' W C) tt) /\
  exists r G tt, set_result fuel ly (vflags s0 cs) dv is d psel = Ok r /\ r_lo r = f1 /\ r_hi r = f2 /\ holds_pdf d lo hi G tt /\
    (forall g, (f1 <= g <= f2)%Z -> exists y, el tt g = Some y /\ mx_get (r_b r) (Z.to_nat g) (l - 1) = Ok (Some y)) /\
    forall g, (lo <= g <= hi)%Z -> derivable_pt_lim (fun x => point_of addr ph is (ts_data t) des (ts_sel t) W C g (al x)) (p l) (G g).

(** ** the calculation for p *)
Lemma diff_at : exists s0 ly des f0, theory_setup addr Nm Rbuiltins ph nset npar st = (s0, Ok ly) /\ Forall2 (fun q de => phase_lattice q = Ok de) ps des /\
  (exists dg, path (map fst cs) e al (p l) dg) /\
  exists dv, (forall is t, nth_error sets is = Some t -> good_at s0 ly dv des f0 (is, t)) /\
  forall fuel, (f0 <= fuel)%nat -> exists rs, snd (theory_diff addr Nm Rbuiltins fuel ly ph sets (with_pars s0 p)) = Ok rs /\
    Forall2 (fun x r => set_result fuel ly (vflags s0 cs) dv (fst x) (data_in addr mem0 (fst x) (snd x)) (entries (combine ps des) (ts_sel (snd x))) = Ok r) (combine (seq 0 nset) sets) rs.
Proof.
  destruct (setup_state addr ph sets cs st p npar D RG NP) as (s0 & ly & SE & D0 & T & M & CV & CR & LY). pose proof RG as (ND & RD & RC). fold mem0 in RD.
  assert (VAL0 : exists q, forall a c, In (a, c) cs -> con_meaning (env_of (ctab (with_pars s0 q))) c <> None). { destruct (val_st addr ph sets cs st p RG) as (q & V). exists q. intros a c' I. unfold with_pars. cbn [ctab]. rewrite T. exact (V a c' I). }
  assert (CA : forall c q, con_at s0 c q = con_at st c q) by (intros; unfold con_at, with_pars; cbn [ctab]; rewrite T; reflexivity).
  destruct (fill_any s0 cs D0 VAL0 p) as (s' & F & FI & D' & T' & M' & CV' & CR' & WD & MR & MC).
  assert (SM0 : smooth_in s0 cs p l). { destruct SM as (S1 & S2 & S3). unfold smooth_in, free_of, uses, with_pars in *. cbn [ctab] in *. rewrite T. auto. }
  destruct (HadSet.columns_at s0 cs D0 p s' l FI D' T' MR MC) as (Y & YY); auto.
  { intros a c' I. destruct (RC a c' I) as (K1 & K2 & K3 & _). split; auto. split; auto. unfold with_pars. cbn [ctab]. rewrite T. exact K3. }
  destruct (along_path Y) as (dg & PA & DG). { intros j a c J. destruct (YY j a c J) as (_ & H & _). eapply dlim_ext; [|exact H]. intros x. apply CA. }
  destruct (lattices_all ps (proj1 RD)) as (des & DE).
  assert (VF : forall j a c, nth_error cs j = Some (a, c) -> uses st c l -> nth j (vflags s0 cs) false = true).
  { intros j a c J (n & N1 & N2). unfold vflags. rewrite (nth_error_nth _ _ _ (map_nth_error (fun ac => existsb (is_free (ctab s0)) (con_pars (snd ac))) _ _ J)). cbn [snd]. apply existsb_exists. exists n. split; auto. destruct SM as (E1 & E2 & _).
    rewrite T. unfold is_free. rewrite N2. unfold free_of in E2. destruct l as [|l']; [discriminate|]. replace (S l' - 1)%nat with l' by lia. destruct (nth_error (pfree (ctab st)) l') as [b|] eqn:E. rewrite (nth_error_nth _ _ _ E) in E2; auto. apply nth_error_None in E. rewrite nth_overflow in E2 by auto. discriminate. }
  assert (LC : (l - 1 < mcols (cdvdp s'))%nat). { rewrite MC, T. destruct SM as (E1 & _). lia. }
  destruct (uniform (good_at s0 ly (cdvdp s') des)) with (l := combine (seq 0 nset) sets) as (f0 & G).
  { intros f f' [is t] L (lo & hi & f1 & f2 & W & C & H1 & H2 & H3). exists lo, hi, f1, f2, W, C. split; auto. split; auto. intros fuel Hf. apply H3. lia. }
  { intros [is t] I. apply numbered_nth in I.
    destruct (set_had addr ph sets cs AP BO s0 mem0 ly npar ND RD CV CR LY des DE is t I) as (f0 & lo & hi & f1 & f2 & W & C & H1 & H2 & H3).
    { intros a c' J. destruct (RC a c' J) as (_ & _ & _ & w & W1 & W2 & W3). exists w. split; auto. split; auto. intros W C RL. apply (W3 is t _ W C I). exists des. split; auto. exact RL. }
    exists f0, lo, hi, f1, f2, W, C. split; auto. split; auto. intros fuel Hf. destruct (H3 fuel Hf) as (H4 & H5). split; auto.
    assert (ALL : forall j, (j < length cs)%nat -> exists a c, nth_error cs j = Some (a, c)). { intros j Hj. destruct (nth_error cs j) as [[a c]|] eqn:J. exists a, c; auto. apply nth_error_None in J. lia. }
    destruct (H5 (cdvdp s') l Y WD MR LC) as (r & G & tt & R1 & R2 & R3 & R4 & R5 & R6).
    { intros j Hj. destruct (ALL j Hj) as (a & c & J). apply (YY j a c J). }
    { intros j Hj V. destruct (ALL j Hj) as (a & c & J). apply (YY j a c J). intros U. rewrite (VF j a c J) in V. discriminate. unfold uses in *. rewrite T in U. exact U. }
    exists r, G, tt. repeat (split; auto). intros g Hg. apply (R6 al (p l) dg PA DG g Hg). }
  exists s0, ly, des, f0. split; auto. split; auto. split. exists dg; auto.
  exists (cdvdp s'). split. { intros is t I. apply G. apply numbered_in. exact I. }
  intros fuel Hf. unfold theory_diff. rewrite F. cbv zeta. cbn [snd cons_ cdvdp ctab].
  assert (ME : cmem s' = mem0). { apply functional_extensionality. intros a. rewrite M'. apply M. } rewrite ME. change (load_phases addr (wrap_mem addr ph mem0) ph) with ps. rewrite (lattice_fold ps des DE []). cbn [obind app]. rewrite CR'.
  destruct (fold_all (fun is s => set_result fuel ly (vflags s0 cs) (cdvdp s') is (load_set addr (wrap_mem addr ph mem0) is (ts_data s)) (entries (combine ps des) (ts_sel s))) (combine (seq 0 nset) sets)) with (acc := @nil tres) as (rs & ER & FR).
  { intros is t I. pose proof (G _ I) as (lo & hi & f1 & f2 & W & C & _ & _ & H). destruct (H fuel Hf) as (_ & r & _ & _ & R1 & _). apply numbered_nth in I. exists r. rewrite (wrapped_data addr ph sets AP BO). exact R1. apply nth_error_Some. congruence. }
  exists rs. split. exact ER. clear - FR AP BO. assert (IN : forall x, In x (combine (seq 0 nset) sets) -> (fst x < nset)%nat). { intros [is t] I. apply numbered_nth in I. cbn. apply nth_error_Some. congruence. }
  revert IN FR. generalize (combine (seq 0 nset) sets) as L. intros L IN FR. induction FR as [|x r L rs E FR IH]; constructor. rewrite <- E. rewrite (wrapped_data addr ph sets AP BO); auto. apply IN. left; auto. apply IH. intros; apply IN; right; auto.
Qed.

Lemma had_frozen : exists f0, forall fuel, (f0 <= fuel)%nat -> exists ds0, f_theory (theory_object addr Nm Rbuiltins fuel ph sets npar st o) p = Ok ds0 /\ length ds0 = nset /\
  forall is s d, nth_error sets is = Some s -> nth_error ds0 is = Some d -> exists des lo hi W C G t,
    let dd := data_in addr mem0 is s in
    Forall2 (fun q de => phase_lattice q = Ok de) (phases_in addr ph mem0) des /\ point_ranges dd lo hi (Z.of_nat (d_lo d)) (Z.of_nat (d_hi d)) /\
    right_limits dd (entries (combine (phases_in addr ph mem0) des) (ts_sel s)) W C /\
    (forall g, (lo <= g <= hi)%Z -> derivable_pt_lim (fun x => let m := along addr ph st cs p l x in
       fixed_pdf (load_set addr m is (ts_data s)) (entries (combine (load_phases addr m ph) des) (ts_sel s)) W C g) (p l) (G g)) /\
    holds_pdf dd lo hi G t /\ forall i, (d_lo d <= i <= d_hi d)%nat -> nth i t None = Some (dpar d i l).
Proof.
  destruct diff_at as (s0 & ly & des & f0 & SE & DE & _ & dv & GA & X). exists f0. intros fuel Hf. destruct (X fuel Hf) as (rs & ER & FR).
  exists (map (fun x => see (fst x) (snd x)) (combine sets rs)). split. { unfold theory_object. rewrite SE. cbn [f_theory]. unfold theory_values. rewrite ER. reflexivity. }
  split. { rewrite map_length, combine_length. pose proof (Forall2_length _ _ _ FR) as L. rewrite combine_length, seq_length in L. lia. }
  intros is s d ES Ed. destruct (seen_at sets rs _ is d FR Ed) as (t & r & ET & SR & ->). cbn [fst snd] in SR. assert (t = s) by congruence. subst t.
  destruct (GA is s ES) as (lo & hi & f1 & f2 & W & C & PR & RL & H). destruct (H fuel Hf) as (_ & r' & G & t & SR' & R1 & R2 & HT & HB & DG). assert (r' = r) by congruence. subst r'.
  exists des, lo, hi, W, C, G, t. cbv zeta.
  assert (NN : (0 <= f1)%Z /\ (0 <= f2)%Z) by (destruct PR as (_ & _ & _ & _ & Q1 & Q2); lia). cbn [see d_lo d_hi]. rewrite R1, R2, !Z2Nat.id by lia.
  split; auto. split; auto. split; auto. split. { intros g Hg. exact (DG g Hg). }
  split; auto. intros i Hi. destruct (HB (Z.of_nat i)) as (y & Ey & Eb). lia. rewrite Nat2Z.id in Eb. unfold el in Ey. rewrite Nat2Z.id in Ey.
  unfold dpar. cbn [see d_fb]. rewrite Eb. exact Ey.
Qed.

(** ** calculations next to p *)
Section Output.
Hypothesis KP : keeps_peaks addr ph sets st cs l.
Lemma mem_keeps w x : exists_var natoms nset w -> ~ peaks_fixed w -> mem_at st cs (moved p l x) (addr w) = mem0 (addr w).
Proof.
  intros V N. unfold mem0, mem_at. destruct (last_con (addr w) cs) as [c|] eqn:L; auto. apply last_con_in in L. destruct (uses_dec st c l) as [U|U]. 2: apply (unused (addr w)); auto.
  exfalso. destruct (KP _ _ L U) as (v & V1 & V2 & V3). assert (w = v) by (apply AP; auto). subst w. contradiction.
Qed.
Lemma along_keeps x : keeps addr ph nset e (al x).
Proof. intros w V N. unfold al, along. rewrite (mem_keeps w x V N). fold mem0 e. ring. Qed.
Lemma along_loads x w : exists_var natoms nset w -> wrap_mem addr ph (mem_at st cs (moved p l x)) (addr w) = al x (addr w).
Proof.
  intros V. assert (Q : (exists ip ia i, w = AV ip ia (FPos i)) \/ forall ip ia i, w <> AV ip ia (FPos i)). { destruct w as [ip f|ip ia f|k f]; [right; discriminate| |right; discriminate]. destruct f as [i|i|]; [left; eauto|right; discriminate..]. }
  destruct Q as [(ip & ia & i & E)|Q].
  - assert (NF : ~ peaks_fixed w) by (subst w; exact (fun H => H)). rewrite (along_keeps x w V NF). unfold e. rewrite !wrap_loop. apply wrap_local. apply mem_keeps; auto.
  - unfold al, along. fold mem0. rewrite !(wrap_other addr ph sets AP BO) by auto. ring.
Qed.
Variable des : list cderived.
Hypothesis DE : Forall2 (fun q de => phase_lattice q = Ok de) ps des.
Definition outs (fuel : nat) (is : nat) (x : R) : list num :=
  match snd (theory_plain addr Nm Rbuiltins fuel ph sets (with_pars st (moved p l x))) with Ok ts => match nth_error ts is with Some (_, _, t) => t | None => [] end | _ => [] end.
Lemma outs_at fuel is x i : calculated addr Nm Rbuiltins fuel ph sets st is i (moved p l x) = nth i (outs fuel is x) None.
Proof. unfold calculated, outs. destruct (snd _) as [ts| | |]; try (destruct i; reflexivity). destruct (nth_error ts is) as [[[a b] t]|]; auto. destruct i; reflexivity. Qed.
Lemma outs_near fuel x des' : Forall2 (fun q de => phase_lattice q = Ok de) (load_phases addr (al x) ph) des' ->
  (forall is t, nth_error sets is = Some t -> exists r, determine fuel (load_set addr (al x) is (ts_data t)) (entries (combine (load_phases addr (al x) ph) des') (ts_sel t)) = Ok r) ->
  forall is t a b tt, nth_error sets is = Some t -> determine fuel (load_set addr (al x) is (ts_data t)) (entries (combine (load_phases addr (al x) ph) des') (ts_sel t)) = Ok (a, b, tt) -> outs fuel is x = tt.
Proof.
  intros DE' OKS is t a b tt ET DT. destruct (fill_any st cs D (val_st addr ph sets cs st p RG) (moved p l x)) as (s' & F & FI & D' & T' & M' & _).
  unfold outs, theory_plain. rewrite F. cbv zeta. cbn [snd]. assert (ME : cmem s' = mem_at st cs (moved p l x)) by (apply functional_extensionality; exact M'). rewrite ME.
  destruct (load_ext addr ph nset _ (al x) (along_loads x)) as (LP & LS). rewrite LP. rewrite (lattice_fold _ _ DE' []). cbn [obind app].
  set (mA := wrap_mem addr ph (mem_at st cs (moved p l x))) in *.
  destruct (fold_all (fun is s => determine fuel (load_set addr mA is (ts_data s)) (entries (combine (load_phases addr (al x) ph) des') (ts_sel s))) (combine (seq 0 nset) sets)) with (acc := @nil (Z * Z * list num)) as (rs & ER & FR).
  { intros is' t' I. apply numbered_nth in I. destruct (OKS is' t' I) as (r & E). exists r. rewrite LS. exact E. apply nth_error_Some. congruence. }
  rewrite ER. cbn [app]. destruct (Forall2_nth_l _ _ _ is (is, t) FR) as (r & Er & Hr). { rewrite numbered_at, ET. reflexivity. }
  rewrite Er. cbn [fst snd] in Hr. rewrite LS, DT in Hr. inversion Hr. reflexivity. apply nth_error_Some. congruence.
Qed.
End Output.

Lemma had_output : keeps_peaks addr ph sets st cs l -> exists f0, forall fuel, (f0 <= fuel)%nat -> exists ds0, f_theory (theory_object addr Nm Rbuiltins fuel ph sets npar st o) p = Ok ds0 /\ length ds0 = nset /\ exists eps, 0 < eps /\
  forall is d i, nth_error ds0 is = Some d -> (d_lo d <= i <= d_hi d)%nat -> let F x := calculated addr Nm Rbuiltins fuel ph sets st is i (moved p l x) in
  F (p l) = Some (d_pdf d i) /\ (forall x, Rabs (x - p l) < eps -> F x <> None) /\ derivable_pt_lim (fun x => real_of (F x)) (p l) (dpar d i l).
Proof.
  intros KP. destruct diff_at as (s0 & ly & des & f0 & SE & DE & (dg & PA) & dv & GA & X). exists f0. intros fuel Hf. destruct (X fuel Hf) as (rs & ER & FR).
  exists (map (fun x => see (fst x) (snd x)) (combine sets rs)). split. { unfold theory_object. rewrite SE. cbn [f_theory]. unfold theory_values. rewrite ER. reflexivity. }
  split. { rewrite map_length, combine_length. pose proof (Forall2_length _ _ _ FR) as L. rewrite combine_length, seq_length in L. lia. }
  pose proof RG as (ND & (_ & RDS) & _). fold mem0 in RDS. pose proof (along_keeps KP) as K.
  assert (LD : length des = length ph). { pose proof (Forall2_length _ _ _ DE) as L. unfold ps, phases_in in L. rewrite loaded_len in L. auto. }
  destruct (uniform_eps (fun eps (y : nat * tset) => let (is, t) := y in forall x, Rabs (x - p l) < eps -> forall ip q gi gj, nth_error ph ip = Some q -> nth_error (ts_sel t) ip = Some (Some (gi, gj)) -> sane_phase (load_set addr (al x) is (ts_data t)) (load_phase addr (al x) (ip, q)))) with (l := combine (seq 0 nset) sets) as (eps & EP & SN).
  { intros a b [is t] L H x Hx. apply H. lra. }
  { intros [is t] I. apply numbered_nth in I. apply (near_sane addr ph nset e (map fst cs) ND al (p l) dg is (ts_data t) (ts_sel t) PA K). intros ip q gi gj E1 E2. destruct (RDS is t I) as (_ & _ & _ & _ & SP).
    unfold e. rewrite (wrapped_data addr ph sets AP BO) by (apply nth_error_Some; congruence). apply (SP ip gi gj _ E2). unfold phases_in. rewrite phases_nth, E1. reflexivity. }
  (* the calculation at x *)
  assert (CALC : forall x, Rabs (x - p l) < eps -> exists des', Forall2 (fun q de => phase_lattice q = Ok de) (load_phases addr (al x) ph) des' /\ length des' = length ph /\
    forall is t, nth_error sets is = Some t -> alike_data (data_in addr mem0 is t) (load_set addr (al x) is (ts_data t)) /\ alike_entries (entries (combine ps des) (ts_sel t)) (entries (combine (load_phases addr (al x) ph) des') (ts_sel t)) /\
      forall ip y, nth_error (entries (combine (load_phases addr (al x) ph) des') (ts_sel t)) ip = Some (Some y) -> sane_phase (load_set addr (al x) is (ts_data t)) (en_ph y)).
  { intros x Hx. destruct (near_lattices addr ph nset e (al x) des (K x) DE) as (des' & DE'). pose proof (Forall2_length _ _ _ DE') as L'. rewrite loaded_len in L'. exists des'. split; auto. split; auto. intros is t I. assert (IS : (is < nset)%nat) by (apply nth_error_Some; congruence). destruct (RDS is t I) as (_ & _ & _ & LS & _). unfold phases_in in LS. try rewrite loaded_len in LS.
    split; [|split].
    - rewrite <- (wrapped_data addr ph sets AP BO mem0 is t IS). apply (near_data addr ph nset e); auto.
    - apply (near_entries addr ph nset e); auto.
    - intros ip y E. rewrite entries_nth in E by (rewrite ?loaded_len; congruence). rewrite phases_nth in E. destruct (nth_error ph ip) as [q|] eqn:E1; [|discriminate]. cbn [option_map] in E. destruct (nth_error des' ip) as [de|] eqn:E2; [|discriminate].
      destruct (nth_error (ts_sel t) ip) as [[[gi gj]|]|] eqn:E3; try discriminate. inversion E; subst y. cbn [en_ph]. exact (SN (is, t) (numbered_in _ _ _ I) x Hx ip q gi gj E1 E3). }
  assert (OUT : forall is t, nth_error sets is = Some t -> exists lo hi f1 f2 W C, point_ranges (data_in addr mem0 is t) lo hi f1 f2 /\
     (forall x, Rabs (x - p l) < eps -> holds_pdf (data_in addr mem0 is t) lo hi (fun g => point_of addr ph is (ts_data t) des (ts_sel t) W C g (al x)) (outs fuel is x)) /\
     exists r G tt, set_result fuel ly (vflags s0 cs) dv is (data_in addr mem0 is t) (entries (combine ps des) (ts_sel t)) = Ok r /\ r_lo r = f1 /\ r_hi r = f2 /\ holds_pdf (data_in addr mem0 is t) lo hi G tt /\
      (forall g, (f1 <= g <= f2)%Z -> exists y, el tt g = Some y /\ mx_get (r_b r) (Z.to_nat g) (l - 1) = Ok (Some y)) /\
      forall g, (lo <= g <= hi)%Z -> derivable_pt_lim (fun x => point_of addr ph is (ts_data t) des (ts_sel t) W C g (al x)) (p l) (G g)).
  { intros is t I. destruct (GA is t I) as (lo & hi & f1 & f2 & W & C & PR & RL & H). destruct (H fuel Hf) as (AK & REST). exists lo, hi, f1, f2, W, C. split; auto. split; auto.
    intros x Hx. destruct (CALC x Hx) as (des' & DE' & L' & CC). destruct (CC is t I) as (A1 & A2 & A3). destruct (AK _ _ A1 A2 A3) as (tt & DT & HT).
    rewrite (outs_near KP fuel x des' DE') with (t := t) (a := f1) (b := f2) (tt := tt); auto.
    - destruct (RDS is t I) as (_ & _ & _ & LS & _). unfold phases_in in LS. try rewrite loaded_len in LS.
      assert (V : (fun g => point_of addr ph is (ts_data t) des (ts_sel t) W C g (al x)) = fixed_pdf (load_set addr (al x) is (ts_data t)) (entries (combine (load_phases addr (al x) ph) des') (ts_sel t)) W C).
      { apply functional_extensionality. intros g. unfold point_of. apply fixed_des; congruence. } rewrite V. exact HT.
    - intros is' t' I'. destruct (GA is' t' I') as (lo' & hi' & f1' & f2' & W' & C' & _ & _ & H'). destruct (H' fuel Hf) as (AK' & _). destruct (CC is' t' I') as (B1 & B2 & B3). destruct (AK' _ _ B1 B2 B3) as (tt' & DT' & _). eexists. exact DT'. }
  assert (SOME : forall is t lo hi (V : Z -> R) tt i f1 f2, point_ranges (data_in addr mem0 is t) lo hi f1 f2 -> holds_pdf (data_in addr mem0 is t) lo hi V tt -> (Z.of_nat i <= f2)%Z -> exists z, nth i tt None = Some z).
  { intros is t lo hi V tt i f1 f2 PR (_ & Z0 & N0 & C0) Hi. assert (Hh : (Z.of_nat i <= hi)%Z) by (destruct PR as (_ & _ & _ & _ & _ & Q2); lia). assert (EL : el tt (Z.of_nat i) = nth i tt None) by (unfold el; rewrite Nat2Z.id; reflexivity). rewrite <- EL.
    destruct (Z.lt_ge_cases (Z.of_nat i) lo) as [L|L]. exists 0. apply Z0; lia. destruct (Rlt_dec 0 (cd_qmax (data_in addr mem0 is t))) as [Q|Q]. destruct (C0 Q) as (out & _ & EO). eexists. apply EO; lia. eexists. apply N0; try lia. lra. }
  exists eps. split; auto. intros is d i Ed Hi. destruct (seen_at sets rs _ is d FR Ed) as (t & r & ET & SR & ->). cbn [fst snd] in SR. cbn [see d_lo d_hi] in Hi.
  destruct (OUT is t ET) as (lo & hi & f1 & f2 & W & C & PR & HO & r' & G & tt & SR' & R1 & R2 & HG & HB & DG). assert (r' = r) by congruence. subst r'.
  assert (HI : (f1 <= Z.of_nat i <= f2)%Z) by (destruct PR as (_ & _ & _ & _ & Q1 & Q2); lia).
  assert (ZZ : Rabs (p l - p l) < eps) by (rewrite Rminus_diag_eq by auto; rewrite Rabs_R0; auto).
  cbv zeta. split; [|split].
  - assert (PO : calculated addr Nm Rbuiltins fuel ph sets st is i (moved p l (p l)) = nth i (r_pdf r) None).
    { rewrite moved_own. apply (plain_own addr ph sets cs AP BO st p D RG fuel des DE) with (t := t) (a := r_lo r) (b := r_hi r); auto.
      2: eapply result_pdf; eauto. intros is' t' I'. destruct (GA is' t' I') as (lo' & hi' & f1' & f2' & W' & C' & _ & _ & H'). destruct (H' fuel Hf) as (_ & r' & _ & _ & SR'' & _). eexists. eapply result_pdf; eauto. }
    destruct (SOME is t lo hi _ _ i f1 f2 PR (HO (p l) ZZ)) as (z & Ez). lia. rewrite <- outs_at in Ez. rewrite Ez in PO. rewrite Ez. cbn [see d_pdf]. rewrite <- PO. reflexivity.
  - intros x Hx. rewrite outs_at. destruct (SOME is t lo hi _ _ i f1 f2 PR (HO x Hx)) as (z & ->). lia. discriminate.
  - assert (LH : (0 <= lo)%Z /\ (0 <= Z.of_nat i <= hi)%Z) by (destruct PR as (_ & _ & _ & _ & Q1 & Q2); lia).
    destruct (cutoff_derivative (data_in addr mem0 is t) lo hi (fun x g => point_of addr ph is (ts_data t) des (ts_sel t) W C g (al x)) G (outs fuel is) tt (p l) eps EP (proj1 LH) HO HG DG (Z.of_nat i) (proj2 LH)) as (y & Ey & DY).
    destruct (HB (Z.of_nat i) HI) as (y' & Ey' & Eb). assert (y' = y) by congruence. subst y'. rewrite Nat2Z.id in Eb.
    replace (dpar (see t r) i l) with y. 2:{ unfold dpar. cbn [see d_fb]. rewrite Eb. reflexivity. }
    eapply dlim_ext; [|exact DY]. intros x. cbv beta. rewrite outs_at. unfold el. rewrite Nat2Z.id. reflexivity.
Qed.
End Final.

(** sessions *)
Theorem had_session_output addr ph sets mem (h : list (uop R)) npar o p l : let st := crun Nm Rbuiltins (cinit mem) (map to_cop h) in
  apart addr (atoms_in ph) (length sets) -> blocks_ok ph -> regular addr ph sets st (ucons h) p -> smooth_in st (ucons h) p l -> keeps_peaks addr ph sets st (ucons h) l ->
  npar = (phase_size (atoms_in ph) + 3 * length sets)%nat ->
  exists f0, forall fuel, (f0 <= fuel)%nat -> exists ds0, f_theory (theory_object addr Nm Rbuiltins fuel ph sets npar st o) p = Ok ds0 /\ length ds0 = length sets /\ exists eps, 0 < eps /\
  forall is d i, nth_error ds0 is = Some d -> (d_lo d <= i <= d_hi d)%nat -> let F x := calculated addr Nm Rbuiltins fuel ph sets st is i (moved p l x) in
  F (p l) = Some (d_pdf d i) /\ (forall x, Rabs (x - p l) < eps -> F x <> None) /\ derivable_pt_lim (fun x => real_of (F x)) (p l) (dpar d i l).
Proof.
  intros st AP BO RG SM KP NP. apply (had_output addr ph sets (ucons h) AP BO st p npar o l); auto. pose proof RG as (ND & _ & H). apply dinv_run; auto. apply Forall_forall. intros [a k] I. cbn. apply (H a k I).
Qed.
Theorem had_session_frozen addr ph sets mem (h : list (uop R)) npar o p l : let st := crun Nm Rbuiltins (cinit mem) (map to_cop h) in
  apart addr (atoms_in ph) (length sets) -> blocks_ok ph -> regular addr ph sets st (ucons h) p -> smooth_in st (ucons h) p l ->
  npar = (phase_size (atoms_in ph) + 3 * length sets)%nat ->
  exists f0, forall fuel, (f0 <= fuel)%nat -> exists ds0, f_theory (theory_object addr Nm Rbuiltins fuel ph sets npar st o) p = Ok ds0 /\ length ds0 = length sets /\
  forall is s d, nth_error sets is = Some s -> nth_error ds0 is = Some d -> exists des lo hi W C G t,
    let mem0 := mem_at st (ucons h) p in let dd := data_in addr mem0 is s in
    Forall2 (fun q de => phase_lattice q = Ok de) (phases_in addr ph mem0) des /\ point_ranges dd lo hi (Z.of_nat (d_lo d)) (Z.of_nat (d_hi d)) /\
    right_limits dd (entries (combine (phases_in addr ph mem0) des) (ts_sel s)) W C /\
    (forall g, (lo <= g <= hi)%Z -> derivable_pt_lim (fun x => let m := along addr ph st (ucons h) p l x in
       fixed_pdf (load_set addr m is (ts_data s)) (entries (combine (load_phases addr m ph) des) (ts_sel s)) W C g) (p l) (G g)) /\
    holds_pdf dd lo hi G t /\ forall i, (d_lo d <= i <= d_hi d)%nat -> nth i t None = Some (dpar d i l).
Proof.
  intros st AP BO RG SM NP. apply (had_frozen addr ph sets (ucons h) AP BO st p npar o l); auto. pose proof RG as (ND & _ & H). apply dinv_run; auto. apply Forall_forall. intros [a k] I. cbn. apply (H a k I).
Qed.
