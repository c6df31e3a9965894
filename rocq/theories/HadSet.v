(** One data set: the column of a parameter used in any number of constraints. *)
From Coq Require Import List Arith ZArith Reals Bool Lia Lra FunctionalExtensionality.
From Verif Require Import Base RSum Util ParamModel ParamProof ParserModel ParserSpec ParserDeriv ParserProof MathModel MathSpec MathProof MatrixModel MatrixProof ConModel ConSpec ConProof ConHist ConReal GaussSpec MetricModel PdfModel PdfSpec PdfSum PdfProof PdfFinal LayoutModel LayoutSpec LayoutProof DerivModel DerivSpec DerivCalc DerivRow DerivFinal DerivOut LsModel TheoryModel TheorySpec TheoryMem ScaleCols ScaleSpec ScaleMem ScaleLoad ScaleFinal RunFinal GradSpec GradFill GradLoad GradFinal GradSet HadSpec HadCalc HadPdf HadLoad HadAlike PdfFft.
Import ListNotations.
Local Open Scope R_scope.

(** ** the derivatives of the constraints *)
Section Fill.
Variable s : cstate R.
Variable cs : list (nat * con).
Hypothesis D : ConReal.dinv Nm s cs.
Let np := length (pval (ctab s)).
Lemma uses_dec c l : uses s c l \/ ~ uses s c l.
Proof.
  set (f := fun n => match parfind (ctab s) n with Some k => (k =? l - 1)%nat | None => false end). destruct (existsb f (con_pars c)) eqn:E.
  - left. apply existsb_exists in E as (n & I & F). exists n. split; auto. unfold f in F. destruct (parfind (ctab s) n) as [k|]; [|discriminate]. apply Nat.eqb_eq in F. congruence.
  - right. intros (n & I & P). assert (X : existsb f (con_pars c) = true). { apply existsb_exists. exists n. split; auto. unfold f. rewrite P. apply Nat.eqb_refl. } congruence.
Qed.
Lemma columns_at p s' l : filled Nm Rbuiltins (with_pars s p) s' cs -> ConReal.dinv Nm s' cs -> ctab s' = ctab (with_pars s p) ->
  mrows (cdvdp s') = length cs -> mcols (cdvdp s') = np -> (forall a c, In (a, c) cs -> con_ok c /\ numbers_ok c /\ con_meaning (env_of (ctab (with_pars s p))) c <> None) ->
  smooth_in s cs p l ->
  exists Y, forall j a c, nth_error cs j = Some (a, c) -> mx_get (cdvdp s') j (l - 1) = Ok (Y j) /\ derivable_pt_lim (fun x => con_at s c (moved p l x)) (p l) (Y j) /\ (~ uses s c l -> Y j = 0).
Proof.
  intros FI D' T1 MR MC OK ((L1 & L2) & Fr & SM). pose proof D as (W & _). fold np in L2. pose proof (pars_dinv s cs D p) as (Wp & _).
  assert (COA : Forall (fun ac => con_ok (snd ac)) cs). { apply Forall_forall. intros [a k] J. apply (OK a k J). }
  exists (fun j => match mx_get (cdvdp s') j (l - 1) with Ok y => y | _ => 0 end). intros j a c J.
  assert (Lj : (j < length cs)%nat) by (apply nth_error_Some; congruence). pose proof D' as (_ & WD & _ & C' & _). destruct (mx_get_ok (cdvdp s') j (l - 1) WD) as (y & Ey); try lia. rewrite Ey. split; auto.
  pose proof (nth_error_In _ _ J) as IC. destruct (OK _ _ IC) as (CO & NO & VA). destruct (uses_dec c l) as [U|U].
  - split; [|contradiction]. pose proof U as (n & In1 & P).
    assert (P' : parfind (ctab (with_pars s p)) n = Some (l - 1)%nat) by exact P.
    assert (FR : is_free (ctab (with_pars s p)) n = true).
    { unfold is_free. rewrite P'. unfold with_pars. cbn [ctab pfree]. unfold free_of in Fr. destruct l as [|l]; [discriminate|]. replace (S l - 1)%nat with l by lia. destruct (nth_error (pfree (ctab s)) l) as [b|] eqn:E. rewrite (nth_error_nth _ _ _ E) in Fr; auto. apply nth_error_None in E. rewrite nth_overflow in Fr by auto. discriminate. }
    assert (G : getpar (ctab (with_pars s p)) n = Ok (p l)).
    { pose proof (pars_env s W p n) as E. unfold env_of in E. rewrite P in E. cbn [option_map] in E. replace (S (l - 1)) with l in E by lia. destruct (getpar _ n); congruence. }
    destruct (filled_gradient (with_pars s p) s' cs Wp FI COA j a c n (l - 1) (p l) J) as (dx & E1 & E2); auto. { apply (SM a c IC U). }
    assert (dx = y) by congruence. subst dx. apply (dlim_ext (con_fun (env_of (ctab (with_pars s p))) c n)); auto. intros x. rewrite (con_moves s cs D c n (l - 1) p x NO In1 P). replace (S (l - 1)) with l by lia. reflexivity.
  - assert (Z : y = 0). { apply (C' j a c (l - 1)%nat y J Ey). rewrite T1. intros m M Q. apply U. exists m. split; auto. } split; auto. rewrite Z.
    apply (dlim_ext (fun _ => con_at s c p)); [|apply dlim_const]. intros x. symmetry. apply (val_agree s W). intros n k In1 P. unfold moved. destruct (Nat.eqb_spec (S k) l) as [E|]; auto. exfalso. apply U. exists n. split; auto. rewrite P. f_equal. lia.
Qed.
End Fill.

(** ** the cutoff *)
Definition cut_list (d : cdata) (lo hi : Z) (V : Z -> R) : list num := map (fun i => Some (if (Z.of_nat i <? lo)%Z then 0 else fin d lo hi V (Z.of_nat i))) (seq 0 (Z.to_nat (hi + 1))).
Lemma cut_at d lo hi V g : (0 <= g <= hi)%Z -> el (cut_list d lo hi V) g = Some (if (g <? lo)%Z then 0 else fin d lo hi V g).
Proof.
  intros H. unfold el, cut_list. apply nth_error_nth. rewrite nth_error_map. rewrite (nth_error_nth' _ 0%nat) by (rewrite seq_length; lia). rewrite seq_nth by lia. cbn [option_map Nat.add]. rewrite Z2Nat.id by lia. reflexivity.
Qed.
Lemma cut_holds d lo hi V : (0 <= lo <= hi)%Z -> holds_pdf d lo hi V (cut_list d lo hi V).
Proof.
  intros L. split. unfold cut_list. rewrite map_length, seq_length. auto. split. { intros g Hg. rewrite cut_at by lia. destruct (Z.ltb_spec g lo); [reflexivity|lia]. }
  split. { intros Q g Hg. rewrite cut_at by lia. destruct (Z.ltb_spec g lo); [lia|]. unfold fin. destruct (Rlt_dec 0 (cd_qmax d)); [lra|reflexivity]. }
  intros Q. exists (map (fin d lo hi V) (from_to lo hi)). split.
  - set (n := Z.to_nat (hi - lo + 1)). exists (2 ^ Nat.log2_up (2 * n))%nat. rewrite !map_length, from_to_len. fold n. split. apply pad_ok. unfold n; lia. split; auto. intros m Hm.
    rewrite nth_zloop by auto. unfold fin. destruct (Rlt_dec 0 (cd_qmax d)); [|contradiction]. cbv zeta. fold n. replace (Z.to_nat (lo + Z.of_nat m - lo)) with m by lia. unfold fil. f_equal. apply rsum_ext. intros j Hj. rewrite nth_zloop by auto. reflexivity.
  - intros g Hg. rewrite cut_at by lia. destruct (Z.ltb_spec g lo); [lia|]. rewrite nth_zloop by lia. do 2 f_equal. lia.
Qed.

Section Set_.
Variables (addr : rvar -> nat) (ph : list cphase) (sets : list tset) (cs : list (nat * con)).
Notation nset := (length sets).
Notation natoms := (atoms_in ph).
Hypothesis AP : apart addr natoms nset.
Hypothesis BO : blocks_ok ph.
Variables (s : cstate R) (mem0 : nat -> R) (ly : layout) (npar : nat).
Hypothesis ND : NoDup (map fst cs).
Hypothesis RD : ready addr ph sets mem0.
Hypothesis CV : map cvar (cons_ s) = map fst cs.
Hypothesis CR : map cref (cons_ s) = vflags s cs.
Let find v := vfind (cons_ s) (addr v).
Hypothesis LY : fit_setup find natoms nset npar = Ok ly.
Let nc := length cs.
Let vf := vflags s cs.
Let ps := phases_in addr ph mem0.
Variable des : list cderived.
Hypothesis DE : Forall2 (fun q de => phase_lattice q = Ok de) ps des.
Variables (is : nat) (t : tset).
Hypothesis ET : nth_error sets is = Some t.
Let d := data_in addr mem0 is t.
Let psel := entries (combine ps des) (ts_sel t).
Hypothesis CL : forall a c, In (a, c) cs -> exists v, exists_var natoms nset v /\ a = addr v /\ forall W C, right_limits d psel W C -> claimed is d psel W v.
Let e := wrap_mem addr ph mem0.
Let vs := map fst cs.

Lemma set_had : exists f0 lo hi f1 f2 W C, point_ranges d lo hi f1 f2 /\ right_limits d psel W C /\ forall fuel, (f0 <= fuel)%nat ->
  (forall d' psel', alike_data d d' -> alike_entries psel psel' -> (forall ip x, nth_error psel' ip = Some (Some x) -> sane_phase d' (en_ph x)) ->
     exists tt, determine fuel d' psel' = Ok (f1, f2, tt) /\ holds_pdf d lo hi (fixed_pdf d' psel' W C) tt) /\
  forall dv l Y, mwf dv -> mrows dv = nc -> (l - 1 < mcols dv)%nat ->
  (forall j, (j < nc)%nat -> mx_get dv j (l - 1) = Ok (Y j)) -> (forall j, (j < nc)%nat -> nth j vf false = false -> Y j = 0) ->
  exists r G tt, set_result fuel ly vf dv is d psel = Ok r /\ r_lo r = f1 /\ r_hi r = f2 /\ holds_pdf d lo hi G tt /\
    (forall g, (f1 <= g <= f2)%Z -> exists y, el tt g = Some y /\ mx_get (r_b r) (Z.to_nat g) (l - 1) = Ok (Some y)) /\
    forall ga x0 dg, path vs e ga x0 dg -> (forall j a c, nth_error cs j = Some (a, c) -> dg a = Y j) ->
    forall g, (lo <= g <= hi)%Z -> derivable_pt_lim (fun x => point_of addr ph is (ts_data t) des (ts_sel t) W C g (ga x)) x0 (G g).
Proof.
  pose proof RD as [_ RDS]. destruct (RDS is t ET) as (GG & O & GF & LS & SP). fold d in GG, O, GF, SP. fold ps in SP.
  pose proof (GradSet.phases_len addr ph cs mem0) as PL. fold ps in PL. pose proof (GradSet.des_len addr ph mem0 des DE) as LD. fold ps in LD. assert (LS' : length (ts_sel t) = length ps) by congruence.
  assert (EN : forall i x, nth_error psel i = Some (Some x) -> up_to_date x /\ sane_phase d (en_ph x)).
  { intros i x I. unfold psel in I. rewrite entries_nth in I by auto. destruct (nth_error ps i) as [p|] eqn:E1; [|discriminate]. destruct (nth_error des i) as [de|] eqn:E2; [|discriminate].
    destruct (nth_error (ts_sel t) i) as [[[gi gj]|]|] eqn:E3; try discriminate. inversion I; subst x. split. unfold up_to_date. cbn. eapply (GradSet.des_nth addr ph mem0 des DE); eauto. cbn. eapply SP; eauto. }
  assert (AR : forall x, In x (selected_entries psel) -> up_to_date x /\ sane_phase d (en_ph x)). { intros x I. apply selected_nth in I as (i & I). eauto. }
  assert (CF : DerivSpec.counts_fit psel natoms).
  { intros ip x I. unfold psel in I. rewrite entries_nth in I by auto. destruct (nth_error ps ip) as [p|] eqn:E1; [|discriminate]. destruct (nth_error des ip) as [de|] eqn:E2; [|discriminate].
    destruct (nth_error (ts_sel t) ip) as [[[gi gj]|]|] eqn:E3; try discriminate. inversion I; subst x. cbn. destruct (GradSet.phases_at addr ph cs mem0 ip p E1) as (q & Q1 & Q2). rewrite Q2. unfold atoms_in. apply (map_nth_error (fun p => length (cp_atoms p)) _ _ Q1). }
  assert (IS : (is < nset)%nat) by (apply nth_error_Some; congruence).
  assert (CFI : columns_fit find natoms nset vf) by (eapply GradSet.cols_fit; eauto).
  destruct (derivatives_more d psel find natoms nset npar ly vf is GG O GF AR CF IS LY CFI) as (lo & hi & f1 & f2 & f0 & W & C & PR & RL & X).
  exists f0, lo, hi, f1, f2, W, C. split; auto. split; auto. intros fuel Hf. destruct (X fuel Hf) as (ALK & (tt0 & E1 & H1) & A & E2 & HA). split; [exact ALK|]. intros dv l Y WD MR MC DV DZ.
  assert (VL : length vf = nc) by (unfold vf, vflags; apply map_length).
  assert (GA : good_rows vf ly (Z.to_nat (hi + 1)) A).
  { eapply diff_shape; [apply (calc_range_ok d GG)| |exact E2]. f_equal. f_equal. apply (nearest_fun d (calc_hi d)); [apply GG|apply (proj1 (proj2 PR)) || apply (proj1 (proj2 (ranges_ok d GG)))|apply (proj1 (proj2 PR)) || apply (proj1 (proj2 (ranges_ok d GG)))]. }
  unfold set_result. rewrite E1. cbn [obind]. rewrite E2. cbn [obind].
  destruct (product vf ly (Z.to_nat (hi + 1)) A dv GA WD ltac:(rewrite VL; auto)) as (B & EB & HB). rewrite EB. cbn [omap].
  pose proof PR as (_ & _ & _ & _ & PR1 & PR2).
  (* the derivatives for the refined variables *)
  assert (COLS : exists Dj : nat -> Z -> R, forall j a c, nth_error cs j = Some (a, c) -> nth j vf false = true -> exists v, exists_var natoms nset v /\ a = addr v /\ holds_pdf d lo hi (Dj j) (DerivSpec.column A j) /\
     forall g x0, (lo <= g <= hi)%Z -> value_is is v d psel x0 -> derivable_pt_lim (fun x => fixed_pdf (data_with is v x d) (phases_with v x psel) W C g) x0 (Dj j g)).
  { assert (ONE : forall j a c, nth_error cs j = Some (a, c) -> nth j vf false = true -> exists Dk v, exists_var natoms nset v /\ a = addr v /\ holds_pdf d lo hi Dk (DerivSpec.column A j) /\
       forall g x0, (lo <= g <= hi)%Z -> value_is is v d psel x0 -> derivable_pt_lim (fun x => fixed_pdf (data_with is v x d) (phases_with v x psel) W C g) x0 (Dk g)).
    { intros j a c J V. destruct (CL a c (nth_error_In _ _ J)) as (v & V1 & -> & V3). assert (FJ : find v = Some j) by (eapply GradSet.find_con; eauto). destruct (HA v j V1 FJ (V3 W C RL)) as (Dk & HD & DD). exists Dk, v. auto. }
    clear - ONE. assert (Q : forall n, exists Dj : nat -> Z -> R, forall j a c, (j < n)%nat -> nth_error cs j = Some (a, c) -> nth j vf false = true -> exists v, exists_var natoms nset v /\ a = addr v /\ holds_pdf d lo hi (Dj j) (DerivSpec.column A j) /\
       forall g x0, (lo <= g <= hi)%Z -> value_is is v d psel x0 -> derivable_pt_lim (fun x => fixed_pdf (data_with is v x d) (phases_with v x psel) W C g) x0 (Dj j g)).
    { induction n as [|n (Dj & IH)]. exists (fun _ _ => 0). intros; lia. destruct (nth_error cs n) as [[a c]|] eqn:E. 2:{ exists Dj. intros j a c Hj J. apply (IH j a c); auto. destruct (Nat.eq_dec j n) as [->|]; [congruence|lia]. }
      destruct (nth n vf false) eqn:V. 2:{ exists Dj. intros j a' c' Hj J V'. apply (IH j a' c'); auto. destruct (Nat.eq_dec j n) as [->|]; [congruence|lia]. }
      destruct (ONE n a c E V) as (Dk & H). exists (fun j => if (j =? n)%nat then Dk else Dj j). intros j a' c' Hj J V'. destruct (Nat.eqb_spec j n) as [->|NE]. assert (a' = a) by congruence. subst a'. exact H. apply (IH j a' c'); auto. lia. }
    destruct (Q (length cs)) as (Dj & H). exists Dj. intros j a c J V. apply (H j a c); auto. apply nth_error_Some. congruence. }
  destruct COLS as (Dj & COLS).
  set (G := fun g => lsum (fun j => Y j * Dj j g) (seq 0 nc)).
  exists (mkRes f1 f2 tt0 B), G, (cut_list d lo hi G). split; auto. split; auto. split; auto. split. { apply cut_holds. lia. } split.
  - (* the entry of fit_b *)
    intros g Hg. exists (fin d lo hi G g). split. { rewrite cut_at by lia. destruct (Z.ltb_spec g lo); [lia|reflexivity]. } cbn [r_b].
    set (row := nth (Z.to_nat g) A []). destruct GA as [LA GA]. assert (NR : nth_error A (Z.to_nat g) = Some row) by (apply nth_error_nth'; lia).
    assert (EC : forall k, el (DerivSpec.column A k) g = nth k row None). { intros k. unfold el, DerivSpec.column. apply nth_error_nth. apply (map_nth_error (fun row => nth k row None) _ _ NR). }
    set (a := fun k => match nth k row None with Some y => y | None => 0 end).
    assert (NUM : forall k, (k < nc)%nat -> nth k row None = Some (a k) /\ a k * Y k = Y k * fin d lo hi (Dj k) g).
    { intros k Hk. destruct (nth_error cs k) as [[ak ck]|] eqn:K. 2:{ apply nth_error_None in K. unfold nc in Hk. lia. } destruct (nth k vf false) eqn:Vk.
      - destruct (COLS k ak ck K Vk) as (v & _ & _ & HD & _). pose proof (holds_fin d lo hi _ _ g ltac:(lia) ltac:(lia) HD) as E. rewrite EC in E. unfold a. rewrite E. split; auto. ring.
      - assert (Q : nth k row None = Some 0). { apply nth_error_nth. apply (GA row). eapply nth_error_In; eauto. eapply GradSet.fixed_unused; eauto. } unfold a. rewrite Q. split; auto. rewrite (DZ k Hk Vk). ring. }
    refine (eq_trans (HB (Z.to_nat g) (l - 1)%nat a Y _ MC _) _). lia.
    + intros k Hk. rewrite VL in Hk. split. apply NUM; auto. apply DV; auto.
    + f_equal. f_equal. unfold G. rewrite fin_sum, VL. apply lsum_ext. intros k I. apply in_seq in I. apply NUM. lia.
  - (* along the path *)
    intros ga x0 dg PA DG g Hg.
    assert (DD : load_set addr e is (ts_data t) = d) by (unfold e; apply (wrapped_data addr ph sets AP BO); auto).
    assert (GP : 0 < grid (load_set addr e is (ts_data t)) g). { eapply (grid_pos addr e is (ts_data t)). rewrite DD; exact GG. rewrite DD; exact O. rewrite DD; exact PR. lia. }
    assert (HD : Had vs e (point_of addr ph is (ts_data t) des (ts_sel t) W C g)).
    { apply (had_point addr ph nset AP e vs ND is (ts_data t) des (ts_sel t) W C); auto; try (rewrite DD).
      - congruence.
      - intros ip x I. apply (EN ip x I).
      - exact RL.
      - intros a I. apply in_map_iff in I as ((a' & c) & <- & I). destruct (CL a' c I) as (v & V1 & V2 & V3). exists v. split; auto. split; auto. exact (V3 W C RL). }
    destruct HD as (k & K). eapply dl_eq. apply (K ga x0 dg PA).
    assert (KD : forall j a c, nth_error cs j = Some (a, c) -> nth j vf false = true -> k a = Dj j g).
    { intros j a c J V. destruct (COLS j a c J V) as (v & V1 & -> & _ & DV'). 
      assert (I : In (addr v) vs) by (apply (in_map fst) in J || (unfold vs; apply in_map_iff; exists (addr v, c); split; auto; eapply nth_error_In; eauto)).
      pose proof (grad_part vs ND e _ k (addr v) K I) as P1. assert (VI : value_is is v d psel (e (addr v))). { rewrite <- DD. unfold psel, ps, phases_in. fold e. eapply value_of; eauto; congruence. }
      pose proof (DV' g (e (addr v)) Hg VI) as P2. refine (uniqueness_limite _ _ _ _ P1 _). eapply dlim_ext; [|exact P2]. intros x. rewrite (point_var addr ph nset AP e is (ts_data t) des (ts_sel t) W C IS g v x V1), DD. reflexivity. }
    unfold vs, G. rewrite PdfSum.lsum_map.
    assert (SQ : forall (f : nat * con -> R) l', lsum f l' = lsum (fun j => match nth_error l' j with Some ac => f ac | None => 0 end) (seq 0 (length l'))).
    { clear. intros f. induction l' as [|b l' IH]; auto. cbn [length seq]. rewrite !lsum_cons. cbn [nth_error]. f_equal. rewrite IH. rewrite <- seq_shift. rewrite PdfSum.lsum_map. reflexivity. }
    rewrite SQ. fold nc. apply lsum_ext. intros j I. apply in_seq in I. destruct (nth_error cs j) as [[a c]|] eqn:J. 2:{ apply nth_error_None in J. unfold nc in I. lia. } cbn [fst]. rewrite (DG j a c J).
    destruct (nth j vf false) eqn:V. rewrite (KD j a c J V). ring. rewrite (DZ j ltac:(lia) V). ring.
Qed.
End Set_.
