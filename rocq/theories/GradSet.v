(** One data set: the column of a parameter. *)
From Coq Require Import List Arith ZArith Reals Bool Lia Lra FunctionalExtensionality.
From Verif Require Import Base RSum Util ParamModel ParamProof ParserModel ParserSpec ParserDeriv MathModel MathSpec MathProof MatrixModel MatrixProof ConModel ConSpec ConProof ConReal GaussSpec MetricModel PdfModel PdfSpec LayoutModel LayoutSpec LayoutProof DerivModel DerivSpec DerivCalc DerivRow DerivFinal DerivOut PdfFinal PdfProof LsModel TheoryModel TheorySpec TheoryMem ScaleCols ScaleSpec ScaleMem ScaleLoad ScaleFinal GradSpec GradFill GradLoad.
Import ListNotations.
Local Open Scope R_scope.

Lemma nearest_fun d r n m : 0 < cd_deltar d -> nearest d r n -> nearest d r m -> n = m.
Proof.
  intros P [A1 A2] [B1 B2]. unfold grid in *. assert (L : forall a b : Z, IZR a * cd_deltar d - cd_deltar d / 2 < IZR b * cd_deltar d + cd_deltar d / 2 -> (a < b + 1)%Z).
  { intros a b H. apply lt_IZR. rewrite plus_IZR. nra. }
  assert (n < m + 1)%Z by (apply L; lra). assert (m < n + 1)%Z by (apply L; lra). lia.
Qed.

Section Set_.
Variables (addr : rvar -> nat) (ph : list cphase) (sets : list tset) (cs : list (nat * con)).
Notation nset := (length sets).
Notation natoms := (atoms_in ph).
Hypothesis AP : apart addr natoms nset.
Hypothesis BO : blocks_ok ph.
Variables (s : cstate R) (mem0 : nat -> R) (ly : layout) (npar : nat).
Hypothesis ND : NoDup (map fst cs).
Hypothesis RD : ready addr ph sets mem0.
Hypothesis CV : map cvar (cons_ s) = map fst cs.
Hypothesis CR : map cref (cons_ s) = vflags s cs.
Let find v := vfind (cons_ s) (addr v).
Hypothesis LY : fit_setup find natoms nset npar = Ok ly.
Let nc := length cs.
Let vf := vflags s cs.

Lemma vf_len : length vf = nc. Proof. unfold vf, vflags. apply map_length. Qed.
Lemma find_con j v c : nth_error cs j = Some (addr v, c) -> nth j vf false = true -> find v = Some j.
Proof.
  intros H V. assert (Hj : (j < nc)%nat) by (apply nth_error_Some; congruence). assert (L : length (cons_ s) = nc) by (rewrite <- (map_length cvar), CV, map_length; auto).
  destruct (nth_error (cons_ s) j) as [e|] eqn:E. 2:{ apply nth_error_None in E. lia. }
  assert (A : cvar e = addr v). { pose proof (map_nth_error cvar _ _ E) as Q. rewrite CV, (map_nth_error fst _ _ H) in Q. cbn in Q. congruence. }
  unfold find. rewrite <- A. rewrite (vfind_at (cons_ s) j e); auto. 2: rewrite CV; auto. assert (B : cref e = true). { rewrite <- V. unfold vf. rewrite <- CR. symmetry. apply nth_error_nth. apply (map_nth_error cref _ _ E). } rewrite B. reflexivity.
Qed.
Lemma cols_fit : columns_fit find natoms nset vf.
Proof.
  split.
  - intros v w c V W' F1 F2. apply vfind_inv in F1 as (e & E1 & E2 & _). apply vfind_inv in F2 as (e' & E1' & E2' & _). apply AP; auto. congruence.
  - intros v c V F1. apply vfind_inv in F1 as (e & E1 & E2 & E3). unfold vf. rewrite <- CR. rewrite (map_nth_error cref _ _ E1), E3. reflexivity.
Qed.
Lemma layout_is : layout_right find natoms nset ly.
Proof.
  destruct (Nat.eq_dec npar (phase_size natoms + 3 * nset)) as [E|E].
  - destruct (proj1 (layout_ok find natoms nset npar) E) as (ly' & E' & R). congruence.
  - pose proof (proj2 (layout_ok find natoms nset npar) E). congruence.
Qed.
Lemma fixed_unused j : (j < nc)%nat -> nth j vf false = false -> unused vf ly j.
Proof.
  intros H V. assert (NE : nth_error vf j = Some false) by (rewrite <- V; apply nth_error_nth'; rewrite vf_len; auto).
  split. rewrite vf_len; auto. split. congruence. intros I. apply In_nth_error in I as (k & K). pose proof layout_is as LR.
  destruct (ref_var find natoms nset (ly_refvar ly) ltac:(apply LR) ltac:(intros v V'; destruct LR as (_ & _ & X & _); apply X; auto) k j K) as (v & V1 & _ & V3).
  destruct cols_fit as [_ C2]. rewrite (C2 v j V1 V3) in NE. discriminate.
Qed.

Let ps := phases_in addr ph mem0.
Variable des : list cderived.
Hypothesis DE : Forall2 (fun q de => phase_lattice q = Ok de) ps des.
Lemma des_len : length des = length ps.
Proof. symmetry. clear -DE. induction DE; simpl; auto. Qed.
Lemma des_nth i p de : nth_error ps i = Some p -> nth_error des i = Some de -> phase_lattice p = Ok de.
Proof. intros A B. destruct (Forall2_nth_l _ _ _ _ _ DE A) as (de' & E & H). congruence. Qed.
Lemma phases_len : length ps = length ph.
Proof. unfold ps, phases_in, load_phases. rewrite map_length, combine_length, seq_length. lia. Qed.
Lemma phases_at i p : nth_error ps i = Some p -> exists q, nth_error ph i = Some q /\ length (cp_atoms p) = length (cp_atoms q).
Proof.
  unfold ps, phases_in, load_phases. rewrite nth_error_map, numbered_at. destruct (nth_error ph i) as [q|] eqn:E; cbn [option_map]; [|discriminate]. intros H. inversion H; subst p. exists q. split; auto.
  cbn. rewrite map_length, combine_length, seq_length. lia.
Qed.

Section One.
Variables (is : nat) (t : tset).
Hypothesis ET : nth_error sets is = Some t.
Let d := data_in addr mem0 is t.
Let psel := entries (combine ps des) (ts_sel t).
Hypothesis CL : forall a c, In (a, c) cs -> exists v, exists_var natoms nset v /\ a = addr v /\ forall W C, right_limits d psel W C -> claimed is d psel W v.

(** what the derivative pass gives for parameter l, which enters through v alone *)
Definition frozen (lo hi f1 f2 : Z) (W : nat -> list pairT) (C : nat -> pairT -> Z -> bool) (v : rvar) (dx : R) (l : nat) (r : tres) : Prop :=
  exists D tt, (forall g x0, (lo <= g <= hi)%Z -> value_is is v d psel x0 -> derivable_pt_lim (fun x => fixed_pdf (data_with is v x d) (phases_with v x psel) W C g) x0 (D g)) /\
  holds_pdf d lo hi D tt /\ forall g, (f1 <= g <= f2)%Z -> exists y, el tt g = Some y /\ mx_get (r_b r) (Z.to_nat g) (l - 1) = Ok (Some (y * dx)).
Definition outputs (fuel : nat) (f1 f2 : Z) (v : rvar) (dx : R) (l : nat) (r : tres) : Prop :=
  peaks_fixed v -> forall x0, value_is is v d psel x0 -> exists eps, 0 < eps /\
  (forall x, Rabs (x - x0) < eps -> exists o, determine fuel (data_with is v x d) (refresh (phases_with v x psel)) = Ok o) /\
  forall g, (f1 <= g <= f2)%Z ->
  (forall x, Rabs (x - x0) < eps -> exists z, pdf_at fuel (data_with is v x d) (phases_with v x psel) g = Some z) /\
  exists y, mx_get (r_b r) (Z.to_nat g) (l - 1) = Ok (Some (y * dx)) /\ derivable_pt_lim (fun x => real_of (pdf_at fuel (data_with is v x d) (phases_with v x psel) g)) x0 y.

Lemma set_grad : exists f0 lo hi f1 f2 W C, point_ranges d lo hi f1 f2 /\ right_limits d psel W C /\ forall fuel, (f0 <= fuel)%nat -> forall dv l v c dx, mwf dv -> mrows dv = nc -> (l - 1 < mcols dv)%nat ->
  exists_var natoms nset v -> In (addr v, c) cs -> (forall j, nth_error cs j = Some (addr v, c) -> nth j vf false = true) ->
  (forall j a c', nth_error cs j = Some (a, c') -> mx_get dv j (l - 1) = Ok (if (a =? addr v)%nat then dx else 0)) ->
  exists r, set_result fuel ly vf dv is d psel = Ok r /\ r_lo r = f1 /\ r_hi r = f2 /\ (exists tt, r_pdf r = tt /\ holds_pdf d lo hi (fixed_pdf d psel W C) tt) /\ frozen lo hi f1 f2 W C v dx l r /\ outputs fuel f1 f2 v dx l r.
Proof.
  destruct RD as [_ R]. destruct (R is t ET) as (G & O & GF & LS & SP). fold d in G, O, GF, SP. fold ps in SP.
  pose proof phases_len as PL. pose proof des_len as LD. assert (LS' : length (ts_sel t) = length ps) by congruence.
  assert (AR : forall e, In e (selected_entries psel) -> up_to_date e /\ sane_phase d (en_ph e)).
  { intros e I. apply selected_nth in I as (i & I). unfold psel in I. rewrite entries_nth in I by auto. destruct (nth_error ps i) as [p|] eqn:E1; [|discriminate]. destruct (nth_error des i) as [de|] eqn:E2; [|discriminate].
    destruct (nth_error (ts_sel t) i) as [[[gi gj]|]|] eqn:E3; try discriminate. inversion I; subst e. split. unfold up_to_date. cbn. eapply des_nth; eauto. cbn. eapply SP; eauto. }
  assert (CF : DerivSpec.counts_fit psel natoms).
  { intros ip e I. unfold psel in I. rewrite entries_nth in I by auto. destruct (nth_error ps ip) as [p|] eqn:E1; [|discriminate]. destruct (nth_error des ip) as [de|] eqn:E2; [|discriminate].
    destruct (nth_error (ts_sel t) ip) as [[[gi gj]|]|] eqn:E3; try discriminate. inversion I; subst e. cbn. destruct (phases_at ip p E1) as (q & Q1 & Q2). rewrite Q2. unfold atoms_in. apply (map_nth_error (fun p => length (cp_atoms p)) _ _ Q1). }
  assert (IS : (is < nset)%nat) by (apply nth_error_Some; congruence).
  destruct (derivatives_hold d psel find natoms nset npar ly vf is G O GF AR CF IS LY cols_fit) as (lo & hi & f1 & f2 & f0 & W & C & PR & RL & X).
  destruct (outputs_derive d psel find natoms nset npar ly vf is G O GF AR CF IS LY cols_fit) as (hi' & f0' & NH & Y).
  assert (hi' = hi). { apply (nearest_fun d (calc_hi d)); auto. apply G. apply PR. } subst hi'.
  exists (Nat.max f0 f0'), lo, hi, f1, f2, W, C. split; auto. split; auto. intros fuel Hf dv l v c dx WD MR MC V IC VF DV.
  destruct (X fuel ltac:(lia)) as ((tt & E1 & H1) & A & E2 & HA). destruct (Y fuel ltac:(lia)) as (A' & E2' & HA'). rewrite E2 in E2'. inversion E2'; subst A'. clear E2'.
  assert (GA : good_rows vf ly (Z.to_nat (hi + 1)) A).
  { eapply diff_shape; [apply (calc_range_ok d G)| |exact E2]. f_equal. f_equal. apply (nearest_fun d (calc_hi d)); auto. apply G. apply (proj1 (proj2 (ranges_ok d G))). }
  unfold set_result. rewrite E1. cbn [obind]. rewrite E2. cbn [obind].
  destruct (product vf ly (Z.to_nat (hi + 1)) A dv GA WD ltac:(rewrite vf_len; auto)) as (B & EB & HB). rewrite EB. cbn [omap].
  exists (mkRes f1 f2 tt B). split; auto. split; auto. split; auto. split. { exists tt. split; auto. }
  pose proof PR as (_ & _ & _ & _ & PR1 & PR2).
  apply In_nth_error in IC as (j & J). assert (Hj : (j < nc)%nat) by (apply nth_error_Some; congruence). pose proof (find_con j v c J (VF j J)) as FJ.
  destruct (CL (addr v) c) as (v' & V' & AV & CLv). { eapply nth_error_In; eauto. } assert (v' = v) by (apply AP; auto). subst v'.
  destruct (HA v j V FJ (CLv W C RL)) as (D & HD & DD).
  (* the entry of fit_b *)
  assert (ENT : forall g, (f1 <= g <= f2)%Z -> exists y, el (DerivSpec.column A j) g = Some y /\ mx_get B (Z.to_nat g) (l - 1) = Ok (Some (y * dx))).
  { intros g Hg. set (row := nth (Z.to_nat g) A []). destruct GA as [LA GA]. assert (NR : nth_error A (Z.to_nat g) = Some row) by (apply nth_error_nth'; lia).
    assert (EC : forall k, el (DerivSpec.column A k) g = nth k row None). { intros k. unfold el, DerivSpec.column. apply nth_error_nth. apply (map_nth_error (fun row => nth k row None) _ _ NR). }
    set (a := fun k => match nth k row None with Some y => y | None => 0 end).
    assert (NUM : forall k, (k < nc)%nat -> nth k row None = Some (a k)).
    { intros k Hk. assert (Q : exists y, nth k row None = Some y). 2:{ destruct Q as (y & Q). unfold a. rewrite Q. auto. }
      destruct (nth k vf false) eqn:Vk.
      - destruct (nth_error cs k) as [[ak ck]|] eqn:K. 2:{ apply nth_error_None in K. unfold nc in Hk. lia. } destruct (CL ak ck) as (vk & Vk1 & -> & CLk). { eapply nth_error_In; eauto. }
        destruct (HA vk k Vk1 (find_con k vk ck K Vk) (CLk W C RL)) as (Dk & HDk & _). exists (fin d lo hi Dk g). rewrite <- EC. apply holds_fin; auto; lia.
      - exists 0. apply nth_error_nth. apply (GA row). eapply nth_error_In; eauto. apply fixed_unused; auto. }
    exists (a j). split. rewrite EC. auto.
    rewrite (HB (Z.to_nat g) (l - 1)%nat a (fun k => if (fst (nth k cs (0%nat, c)) =? addr v)%nat then dx else 0)); auto; try lia.
    - f_equal. f_equal. rewrite vf_len. rewrite (lsum_once (fun k => k) _ j). rewrite (nth_error_nth _ _ _ J). cbn [fst]. rewrite Nat.eqb_refl. reflexivity.
      rewrite map_id. apply seq_NoDup. apply in_seq. lia. intros k I NE. apply in_seq in I. destruct (Nat.eqb_spec (fst (nth k cs (0%nat, c))) (addr v)) as [Q|Q]; [|ring]. exfalso. apply NE.
      rewrite NoDup_nth_error in ND. apply ND. rewrite map_length. fold nc. lia. rewrite (map_nth_error fst _ _ J). cbn [fst]. rewrite nth_error_map. rewrite (nth_error_nth' cs (0%nat, c)) by (fold nc; lia). cbn [option_map]. congruence.
    - intros k Hk. rewrite vf_len in Hk. split. fold row. auto. destruct (nth_error cs k) as [[ak ck]|] eqn:K. 2:{ apply nth_error_None in K. unfold nc in Hk. lia. } rewrite (nth_error_nth _ _ _ K). cbn [fst]. eapply DV; eauto. }
  split.
  - exists D, (DerivSpec.column A j). split. exact DD. split. exact HD. exact ENT.
  - intros PF x0 VI. assert (CLo : claimed is d psel (fun _ => []) v). { specialize (CLv W C RL). clear - CLv PF. destruct v as [ip f|ip ia f|k f]; destruct f; try destruct PF; exact CLv. }
    destruct (HA' v j x0 V FJ PF CLo VI) as (eps & EP & HE). exists eps. split; auto. split.
    + intros x Hx. destruct (HE 0%Z ltac:(lia)) as [H0 _]. destruct (H0 x Hx) as (z & Z). unfold pdf_at in Z. destruct (determine fuel (data_with is v x d) (refresh (phases_with v x psel))) as [o|e| |]; try discriminate. eauto.
    + intros g Hg. destruct (HE g ltac:(lia)) as [H0 (y & Ey & Dy)]. split; auto. exists y. split; auto. destruct (ENT g Hg) as (y' & Ey' & Eb). cbn [r_b]. refine (eq_trans Eb _). rewrite Ey in Ey'. inversion Ey'; subst. reflexivity.
Qed.
End One.
End Set_.
