(** Steps of sessions.  In the last one a scale factor is the square of a parameter and
    the first trial is rejected. *)
From Coq Require Import List Arith ZArith Reals Bool Lia Lra FunctionalExtensionality.
From Verif Require Import Base RSum Util ParamModel ParamProof ParserModel ParserSpec ParserDeriv MathModel MathSpec MathProof MatrixModel MatrixProof ConModel ConSpec ConProof ConHist ConReal GaussModel GaussSpec GaussProof MetricModel PdfModel PdfSpec PdfProof PdfEx PdfFinal LayoutModel LayoutSpec LayoutProof DerivModel DerivSpec BondEx LsModel LsSpec LsProof CtlProof LsStep LsRun LsRaw LsMore LsCases LsCases2 TheoryModel TheorySpec TheoryMem ScaleCols ScaleSpec ScaleMem ScaleLoad ScaleFinal ScaleEx RunModel RunSpec RunFinal RunEx BetwSpec BetwProof BetwFinal.
Import ListNotations.
Local Open Scope R_scope.

Theorem session_between addr fuel ph sets npar mem (h : list (uop R)) toler running c tx pdf0 ly0 o : let st := crun Nm Rbuiltins (cinit mem) (map to_cop h) in
  apart addr (atoms_in ph) (length sets) -> blocks_ok ph -> Forall (fun ac => con_ok (snd ac)) (ucons h) -> NoDup (map fst (ucons h)) -> solvable Nm Rbuiltins st (ucons h) -> fresh running c ->
  let O := theory_object addr Nm Rbuiltins fuel ph sets npar st o in
  (forall n running1 c1 tx1 o1 w1, world_steps addr Nm Rbuiltins fuel ph sets npar toler (S n) running c (tx, O, mkW st ly0 pdf0) = Some (running1, c1, (tx1, o1, w1)) ->
  ls_steps toler (S n) running c (tx, O) = Some (running1, c1, (tx1, o1)) /\ getpar_is (w_st w1) (f_p o1) /\
  exists running0 c0 tx0 o0 w0, world_steps addr Nm Rbuiltins fuel ph sets npar toler n running c (tx, O, mkW st ly0 pdf0) = Some (running0, c0, (tx0, o0, w0)) /\
    exists q, shows addr Nm Rbuiltins fuel ph sets (ucons h) st w1 q /\ trial_of o0 o1 q) /\
  (forall n running1 c1 tx1 o1, ls_steps toler n running c (tx, O) = Some (running1, c1, (tx1, o1)) ->
    exists w1, world_steps addr Nm Rbuiltins fuel ph sets npar toler n running c (tx, O, mkW st ly0 pdf0) = Some (running1, c1, (tx1, o1, w1))).
Proof.
  intros st AP BO CO ND V FR. destruct (dinv_run Nm Rbuiltins mem h CO ND) as (W & M & T & _). fold st in W, M, T. apply between; auto.
Qed.

Definition h6 : list (uop R) := [UPar (PSet 1 (1 / 10)); UCon 8 (KPar KSqr 1)].
Definition st6 : cstate R := crun Nm Rbuiltins (cinit mem2) (map to_cop h6).
Definition at6 (x : R) (dv : matrix R) (m : nat -> R) : cstate R := mkCst (mkPtab [x] [true] [1%Z]) [mkCon 8 [] 1 FSQR true] dv m.
Lemma st6_is : st6 = at6 (1 / 10) mx_empty mem2.
Proof. reflexivity. Qed.
Lemma cons6 : ucons h6 = [(8%nat, KPar KSqr 1)]. Proof. reflexivity. Qed.
Lemma fill6 x dv m : mwf dv -> fill_variables Nm Rbuiltins (at6 x dv m) = (at6 x (mkMx 1 1 [(1 + 1) * x]) (mem_set m 8 (x * x)), Ok tt).
Proof.
  intros W. destruct (mx_resize_spec 0 dv 1 1 W) as (b & E & WB & B1 & B2 & _). destruct b as [r c l]. unfold mwf in WB. cbn in WB, B1, B2. subst r c. destruct l as [|z [|z' l]]; cbn in WB; try lia.
  unfold fill_variables. change (mx_resize (n_zero Nm) (cdvdp (at6 x dv m)) (length (cons_ (at6 x dv m))) (length (pval (ctab (at6 x dv m))))) with (mx_resize 0 dv 1 1). rewrite E. reflexivity.
Qed.
Lemma with6 x dv m p : with_pars (at6 x dv m) p = at6 (p 1%nat) dv m. Proof. reflexivity. Qed.
Lemma mem_twice (m : nat -> R) a u v : mem_set (mem_set m a u) a v = mem_set m a v.
Proof. apply functional_extensionality. intros b. unfold mem_set. destruct (b =? a)%nat; auto. Qed.
Lemma wrap6 v : wrap_mem row2 [half_empty] (mem_set mem2 8 v) = mem_set mem2 8 v.
Proof.
  assert (W : forall l m, (forall ip ia i icc, In (ip, ia, i, icc) l -> let a := row2 (AV ip ia (FPos i)) in a <> 8%nat /\ fmod (mem2 a) (IZR icc) = mem2 a) -> (forall a, m a = mem_set mem2 8 v a) ->
    forall a, fold_left (fun mem x => let '(ip, ia, i, icc) := x in let a := row2 (AV ip ia (FPos i)) in mem_set mem a (fmod (mem a) (IZR icc))) l m a = mem_set mem2 8 v a).
  { induction l as [|[[[ip ia] i] icc] l IH]; intros m H E a. apply E. cbn [fold_left]. apply IH. intros; apply H; right; auto. intros b. unfold mem_set at 1. destruct (Nat.eqb_spec b (row2 (AV ip ia (FPos i)))) as [->|N]; auto.
    rewrite E. destruct (H ip ia i icc (or_introl eq_refl)) as [H1 H2]. unfold mem_set. destruct (Nat.eqb_spec (row2 (AV ip ia (FPos i))) 8); [contradiction|auto]. }
  apply functional_extensionality. apply W; auto. intros ip ia i icc I. cbn in I. destruct I as [E|[E|[E|[E|[E|[E|[]]]]]]]; inversion E; subst; (split; [cbn; lia|]); cbn - [fmod IZR Rdiv]; apply fmod_small; lra.
Qed.
Lemma phases6 v : load_phases row2 (mem_set mem2 8 v) [half_empty] = [scale_ph v half_empty].
Proof.
  unfold load_phases. cbn [length seq combine map]. f_equal. unfold load_phase, scale_ph, half_empty, cub. cbn [cp_atoms length seq combine map load_atom cp_a0 cp_win cp_icc cp_stepcut cp_rcut cp_delta2 cp_delta1 cp_spd cp_sratio]. f_equal.
  - apply functional_extensionality. intros [|[|[|k]]]; reflexivity.
  - apply functional_extensionality. intros [|[|[|k]]]; reflexivity.
  - unfold xatom. f_equal; [f_equal|f_equal; f_equal]; apply functional_extensionality; intros [|[|[|[|[|[|k]]]]]]; reflexivity.
Qed.
(** what a calculation for the value x of the parameter gives *)
Definition good6 (y : nat -> R) (x : R) (d : dsval) : Prop :=
  d_lo d = 2%nat /\ d_hi d = 3%nat /\ d_obs d = y /\ d_w d = (fun _ => 1) /\ forall i, (2 <= i <= 3)%nat -> d_pdf d i = x * x * y i /\ dpar d i 1 = 2 * x * y i.
Lemma theory6 : exists f0 y, y 2%nat <> 0 /\ forall fuel o, (f0 <= fuel)%nat -> let O := theory_object row2 Nm Rbuiltins fuel [half_empty] [set2 y] 34 st6 o in
  f_setup O = Ok tt /\ f_ma O = 1%nat /\ f_p O = pars_of st6 /\ f_ia O = free_of st6 /\ forall p, exists d, f_theory O p = Ok [d] /\ good6 y (p 1%nat) d.
Proof.
  destruct (cub_lat [xatom 0 (1 / 2) 1; xatom (1 / 2) (1 / 2) 0]) as (de & LT). destruct (lonely_value none none de LT) as (f1 & t1 & D1 & E1).
  set (psel := [Some (mkEnt half_empty de none none)]).
  destruct (scale_set xdata psel xgrid xoff xfilter) as (f0 & lo & hi & g1 & g2 & F & PR & X).
  { intros e [<-|[]]. split. exact LT. split. apply cub_cell. split. apply cub_tiny. split. intros; cbn; lia.
    split. unfold occ_sum. cbn. lra. split. unfold mean_sf, occ_sum. cbn. lra. split. cbn. lra. split; [|cbn; lra].
    intros i j h Hi Hj. cbn in Hi, Hj. destruct i as [|[|i]], j as [|[|j]]; try lia; apply cub_msd_nn; lra. }
  set (ents := [mkCon 8 [] 1 FSQR true]). set (find := fun v => vfind ents (row2 v)).
  destruct (proj1 (layout_ok find [2%nat] 1 34) eq_refl) as (ly & LY & _).
  assert (CF : DerivSpec.counts_fit psel [2%nat]). { intros [|[|ip]] e E; inversion E; subst. reflexivity. }
  assert (CO : columns_fit find [2%nat] 1 [true]).
  { split.
    - intros v w c V W' F1 F2. apply vfind_inv in F1 as (e & A1 & A2 & _). apply vfind_inv in F2 as (e' & A1' & A2' & _). apply row2_apart; auto. congruence.
    - intros v c V F1. apply vfind_inv in F1 as (e & A1 & A2 & A3). destruct c as [|[|c]]; try discriminate. reflexivity. }
  specialize (X find [2%nat] 1%nat 34%nat ly [true] 0%nat CF ltac:(lia) LY CO).
  assert (S1 : scaled (fun _ => 1) 0 psel = psel) by reflexivity.
  destruct (X (fun _ => 1) (Nat.max f0 f1) ltac:(lia)) as (t & A & ET & HT & _). rewrite S1 in ET. unfold psel in ET. rewrite (D1 (Nat.max f0 f1) ltac:(lia)) in ET. inversion ET; subst. clear ET.
  destruct PR as (_ & _ & _ & _ & R1 & R2).
  exists f0, (fun i => F 0%nat (Z.of_nat i)). split.
  { rewrite HT in E1 by lia. cbn in E1. inversion E1 as [E2]. intros Z0. apply lonely_not0. rewrite <- E2. cbn in Z0. rewrite Z0. ring. }
  intros fuel o Hf O. set (y := fun i => F 0%nat (Z.of_nat i)) in *.
  assert (TS : theory_setup row2 Nm Rbuiltins [half_empty] 1 34 st6 = (at6 (1 / 10) (mkMx 1 1 [(1 + 1) * (1 / 10)]) (mem_set mem2 8 (1 / 10 * (1 / 10))), Ok ly)).
  { unfold theory_setup. rewrite st6_is, fill6 by reflexivity. cbn [obind]. f_equal. exact LY. }
  assert (EO : O = mkF 1 (pars_of st6) (free_of st6) (fun p => theory_values row2 Nm Rbuiltins fuel ly [half_empty] [set2 y] (at6 (1 / 10) (mkMx 1 1 [(1 + 1) * (1 / 10)]) (mem_set mem2 8 (1 / 10 * (1 / 10)))) p) (Ok tt)
    (f_covar o) (f_alpha o) (f_dim o) (f_chisq o) (f_ochisq o) (f_alambda o) (f_cum o)).
  { unfold O, theory_object. change (length [set2 y]) with 1%nat. rewrite TS. reflexivity. }
  rewrite EO. split; auto. split; auto. split; auto. split; auto. intros p. cbn [f_theory]. unfold theory_values, theory_diff. rewrite with6, fill6 by reflexivity. cbn [cmem ctab cons_ cdvdp at6]. rewrite mem_twice, wrap6, phases6.
  set (x := p 1%nat). assert (LX : phase_lattice (scale_ph (x * x) half_empty) = Ok de) by exact LT. cbn [ofold obind]. rewrite LX. cbn [ofold obind app length seq combine].
  change (load_set row2 (mem_set mem2 8 (x * x)) 0 (ts_data (set2 y))) with xdata.
  change (entries [(scale_ph (x * x) half_empty, de)] (ts_sel (set2 y))) with (scaled (fun _ => x * x) 0 psel).
  destruct (X (fun _ => x * x) fuel Hf) as (t' & A' & ET & HT' & EA & GA & HA). unfold set_result. rewrite ET. cbn [obind map cref]. rewrite EA. cbn [obind].
  destruct (product [true] ly (Z.to_nat (hi + 1)) A' (mkMx 1 1 [(1 + 1) * x]) GA eq_refl eq_refl) as (B & EB & HB). rewrite EB. cbn [omap obind snd ofold app combine map fst].
  eexists. split. reflexivity. unfold good6. cbn [see d_lo d_hi d_obs d_w d_pdf set2 ts_obs ts_w r_lo r_hi r_pdf r_b]. split. reflexivity. split. reflexivity. split. reflexivity. split. reflexivity.
  intros i Hi. split.
  - specialize (HT' (Z.of_nat i) ltac:(lia)). unfold el in HT'. rewrite Nat2Z.id in HT'. rewrite HT'. cbn [number]. unfold psel, y. cbn. unfold lsum. cbn. ring.
  - unfold dpar. cbn [d_fb see r_b Nat.sub]. pose proof (HA 0%nat 0%nat (Z.of_nat i) ltac:(cbn; lia) eq_refl ltac:(lia)) as Q. unfold el, DerivSpec.column in Q. rewrite Nat2Z.id in Q.
    destruct GA as [LA GA]. assert (NR : nth_error A' i = Some (nth i A' [])) by (apply nth_error_nth'; lia).
    rewrite (nth_error_nth _ _ _ (map_nth_error (fun row => nth 0 row None) _ _ NR)) in Q.
    assert (HQ : mx_get B i 0 = Ok (Some (lsum (fun c => F 0%nat (Z.of_nat i) * ((1 + 1) * x)) (seq 0 1)))).
    { apply (HB i 0%nat (fun _ => F 0%nat (Z.of_nat i)) (fun _ => (1 + 1) * x)). lia. cbn; lia. intros c Hc. cbn in Hc. assert (c = 0%nat) by lia. subst c. split; auto. }
    transitivity (number (match mx_get B i 0 with Ok v => v | _ => None end)). reflexivity. rewrite HQ. cbn [number]. unfold y, lsum. cbn. ring.
Qed.
Lemma sum_free_ia ia f : ia 1%nat = true -> sum_free ia 1 f = f 1%nat.
Proof. intros H. unfold sum_free, S1. simpl. rewrite H. lra. Qed.
Section Six.
Variables (y : nat -> R) (x : R) (d : dsval).
Hypothesis G : good6 y x d.
Let K := y 2%nat * y 2%nat + y 3%nat * y 3%nat.
Lemma pts6 : points d = [2; 3]%nat. Proof. destruct G as (A & B & _). unfold points. rewrite A, B. reflexivity. Qed.
Lemma chisq6 : chisq_of [d] = (1 - x * x) * (1 - x * x) * K.
Proof.
  unfold chisq_of, ds_chisq, resid, lsum. cbn [map fold_right]. rewrite pts6. cbn [map fold_right]. destruct G as (_ & _ & O & W & H). rewrite O, W. destruct (H 2%nat ltac:(lia)) as [-> _]. destruct (H 3%nat ltac:(lia)) as [-> _]. unfold K. cbn. ring.
Qed.
Lemma curv6 : curvature [d] 1 1 = 4 * (x * x) * K.
Proof.
  unfold curvature, lsum. cbn [map fold_right]. rewrite pts6. cbn [map fold_right]. destruct G as (_ & _ & O & W & H). rewrite W. destruct (H 2%nat ltac:(lia)) as [_ ->]. destruct (H 3%nat ltac:(lia)) as [_ ->]. unfold K. cbn. ring.
Qed.
Lemma grad6 : gradient [d] 1 = 2 * x * (1 - x * x) * K.
Proof.
  unfold gradient, resid, lsum. cbn [map fold_right]. rewrite pts6. cbn [map fold_right]. destruct G as (_ & _ & O & W & H). rewrite O, W. destruct (H 2%nat ltac:(lia)) as [-> ->]. destruct (H 3%nat ltac:(lia)) as [-> ->]. unfold K. cbn. ring.
Qed.
End Six.
Lemma con_ok6 : Forall (fun ac => con_ok (snd ac)) (ucons h6).
Proof. rewrite cons6. repeat constructor. Qed.
Lemma nodup6 : NoDup (map fst (ucons h6)).
Proof. rewrite cons6. repeat constructor. intros []. Qed.
Lemma solv6 : solvable Nm Rbuiltins st6 (ucons h6).
Proof. rewrite st6_is, cons6. intros a c [E|[]]. inversion E; subst. cbn. discriminate. Qed.
(** the first call keeps the parameter; the variable is that of the rejected trial *)
Lemma rejected6 : exists f0 y, forall fuel o toler tx ly0 pdf0, (f0 <= fuel)%nat -> let O := theory_object row2 Nm Rbuiltins fuel [half_empty] [set2 y] 34 st6 o in
  exists c1 tx1 o1 w1, world_steps row2 Nm Rbuiltins fuel [half_empty] [set2 y] 34 toler 1 false c_new (tx, O, mkW st6 ly0 pdf0) = Some (true, c1, (tx1, o1, w1)) /\
    pval (ctab (w_st w1)) = [1 / 10] /\ f_p o1 1%nat = 1 / 10 /\ 1 / 100 < cmem (w_st w1) 8.
Proof.
  destruct theory6 as (f0 & y & Y0 & X). exists f0, y. intros fuel o toler tx ly0 pdf0 Hf O. destruct (X fuel o Hf) as (FS & FM & FP & FI & T). fold O in FS, FM, FP, FI, T.
  set (K := y 2%nat * y 2%nat + y 3%nat * y 3%nat). assert (KP : 0 < K). { unfold K. pose proof (Rle_0_sqr (y 3%nat)). unfold Rsqr in *. assert (0 < y 2%nat * y 2%nat) by (apply Rsqr_pos_lt in Y0; exact Y0). lra. }
  assert (P1 : pars_of st6 1 = 1 / 10) by reflexivity. assert (I1 : free_of st6 1 = true) by reflexivity.
  destruct (T (f_p O)) as (d & ET & GD). rewrite FP, P1 in GD.
  destruct (first_raw toler false c_new tx O [d] (or_introl eq_refl) FS ET) as (s1 & o1 & I & SE & P & L & x & DX & RC).
  { rewrite FM, FI. intros (z & (l & Hl & _ & NZ) & D). assert (l = 1%nat) by lia. subst. specialize (D 1%nat ltac:(lia) I1).
    rewrite (sum_free_ia _ _ I1), !(curv6 y _ d GD) in D. fold K in D. assert (E0 : K * z 1%nat = 0) by lra. apply Rmult_integral in E0 as [E0|E0]; lra. }
  rewrite FM, FI in *. cbv zeta in RC. specialize (DX 1%nat ltac:(lia) I1). rewrite (sum_free_ia _ _ I1), !(curv6 y _ d GD), (grad6 y _ d GD) in DX. fold K in DX.
  assert (RK : rank (free_of st6) 1 = 1%nat) by reflexivity. rewrite RK in DX.
  assert (XV : x 1%nat = 4950 / 1001). { assert (E0 : K * (4 * (1 / 10 * (1 / 10)) * (1 + / 1000) * x 1%nat - 2 * (1 / 10) * (1 - 1 / 10 * (1 / 10))) = 0) by lra. apply Rmult_integral in E0 as [E0|E0]; lra. }
  destruct RC as (st' & o' & r & RC & E). unfold raw_case in RC. set (t := trial _ _ _ _ _) in *.
  assert (T1 : t 1%nat = 1 / 10 + 4950 / 1001). { unfold t. rewrite trial_val. change (GaussProof.inr 1 1) with true. rewrite I1. cbn [andb]. rewrite RK, FP, P1, XV. reflexivity. }
  destruct (T t) as (dt & Et & Gt). rewrite T1 in Gt. assert (TH : f_theory o1 t = Ok [dt]) by (destruct SE as (_ & _ & -> & _); exact Et). rewrite TH in RC.
  destruct RC as (-> & SS & CU & DM & OC & s' & -> & A1 & A2 & A3 & C). rewrite (i_oc _ _ _ _ I) in C. rewrite (chisq6 y _ d GD), (chisq6 y _ dt Gt) in C. fold K in C.
  destruct C as [C|C]. { exfalso. destruct C as [C _]. nra. } destruct C as (_ & C2 & _).
  cbn [omap obind] in E.
  assert (LS : ls_steps toler 1 false c_new (tx, O) = Some (true, mkC 1 0, (Some s', o'))) by (cbn [ls_steps]; rewrite E; reflexivity).
  destruct (session_between row2 fuel [half_empty] [set2 y] 34 mem2 h6 toler false c_new tx pdf0 ly0 o row2_apart blocks2 con_ok6 nodup6 solv6 (or_introl eq_refl)) as [B1 B2]. fold st6 O in B1, B2.
  destruct (B2 _ _ _ _ _ LS) as (w1 & WS). destruct (B1 _ _ _ _ _ _ WS) as (_ & GP & b0 & c0 & tx0 & o0 & w0 & W0 & q & SH & (ds & dsq & lam & Q1 & Q2 & Q3 & Q4 & Q5 & Q6)).
  exists (mkC 1 0), (Some s'), o', w1. split. exact WS.
  assert (PV : f_p o' 1%nat = 1 / 10) by (rewrite C2, P, FP; reflexivity).
  cbn [world_steps] in W0. inversion W0; subst o0 b0 c0 tx0 w0. clear W0.
  destruct SE as (S1 & S2 & S3 & S4). destruct SS as (S5 & S6 & S7 & S8). rewrite S7, S3 in Q1, Q2. rewrite S5, S1, S6, S2, FM, FI in Q5. rewrite ET in Q1. inversion Q1; subst ds.
  specialize (Q5 1%nat ltac:(lia) I1). rewrite (sum_free_ia _ _ I1), !(curv6 y _ d GD), (grad6 y _ d GD) in Q5. fold K in Q5. rewrite FP, P1 in Q5.
  assert (QP : 1 / 10 < q 1%nat). { assert (E0 : K * (4 * (1 / 10 * (1 / 10)) * (1 + lam) * (q 1%nat - 1 / 10) - 2 * (1 / 10) * (1 - 1 / 10 * (1 / 10))) = 0) by lra. apply Rmult_integral in E0 as [E0|E0]. lra.
    destruct (Rlt_le_dec (1 / 10) (q 1%nat)) as [|LE]; auto. nra. }
  destruct SH as ((L1 & L2 & _ & L4) & SC & _). rewrite st6_is in L1, L2. cbn [at6 ctab pval length pid] in L1, L2.
  assert (LW : length (pval (ctab (w_st w1))) = 1%nat). { cbn [with_pars ctab pval] in L1. rewrite map_length, seq_length in L1. exact L1. }
  split. { destruct (pval (ctab (w_st w1))) as [|v [|v' l]] eqn:EV; cbn in LW; try lia. specialize (GP 0%nat). rewrite EV in GP. specialize (GP ltac:(cbn; lia)). cbn in GP. inversion GP. congruence. }
  split; auto. destruct (SC 8%nat (KPar KSqr 1) eq_refl) as (v & Ev & [E8 _]). cbn [with_pars cmem] in E8. rewrite E8.
  - specialize (L4 0%nat). rewrite L1 in L4. specialize (L4 ltac:(lia)). cbn [con_val] in Ev. unfold env_of, getpar, parfind in Ev. rewrite L2 in Ev. cbn - [nth_error with_pars] in Ev. rewrite L4 in Ev. inversion Ev. cbn. nra.
  - intros icc (ip & p & ia & k & _ & _ & Hk & E0 & _). cbn in E0. destruct k as [|[|[|k]]]; lia.
Qed.
Lemma not_settled6 : exists fuel y, forall o toler tx ly0 pdf0, let O := theory_object row2 Nm Rbuiltins fuel [half_empty] [set2 y] 34 st6 o in
  exists c1 tx1 o1 w1, world_steps row2 Nm Rbuiltins fuel [half_empty] [set2 y] 34 toler 1 false c_new (tx, O, mkW st6 ly0 pdf0) = Some (true, c1, (tx1, o1, w1)) /\
    pval (ctab (w_st w1)) = [1 / 10] /\ 1 / 100 < cmem (w_st w1) 8 /\
    forall p, ~ settled row2 Nm Rbuiltins fuel [half_empty] [set2 y] (ucons h6) st6 (w_st w1) (w_pdf w1) p.
Proof.
  destruct rejected6 as (fuel & y & X). exists fuel, y. intros o toler tx ly0 pdf0 O. destruct (X fuel o toler tx ly0 pdf0 ltac:(lia)) as (c1 & tx1 & o1 & w1 & WS & PV & _ & C8). exists c1, tx1, o1, w1. split. exact WS. split; auto. split; auto.
  intros p ((L1 & L2 & _) & SC & _). rewrite st6_is in L2. cbn [at6 ctab pid] in L2. destruct (SC 8%nat (KPar KSqr 1) eq_refl) as (v & Ev & [E8 _]).
  rewrite E8 in C8. 2:{ intros icc (ip & q & ia & k & _ & _ & Hk & E0 & _). cbn in E0. destruct k as [|[|[|k]]]; lia. }
  cbn [con_val] in Ev. unfold env_of, getpar, parfind in Ev. rewrite L2, PV in Ev. cbn in Ev. inversion Ev. lra.
Qed.
(** a session that meets the conditions and takes a step *)
Lemma case6 : apart row2 (atoms_in [half_empty]) 1 /\ blocks_ok [half_empty] /\ Forall (fun ac => con_ok (snd ac)) (ucons h6) /\ NoDup (map fst (ucons h6)) /\ solvable Nm Rbuiltins st6 (ucons h6) /\
  exists fuel y, forall o toler tx ly0 pdf0, world_steps row2 Nm Rbuiltins fuel [half_empty] [set2 y] 34 toler 1 false c_new (tx, theory_object row2 Nm Rbuiltins fuel [half_empty] [set2 y] 34 st6 o, mkW st6 ly0 pdf0) <> None.
Proof.
  split. exact row2_apart. split. exact blocks2. split. exact con_ok6. split. exact nodup6. split. exact solv6.
  destruct not_settled6 as (fuel & y & X). exists fuel, y. intros o toler tx ly0 pdf0. destruct (X o toler tx ly0 pdf0) as (c1 & tx1 & o1 & w1 & WS & _). rewrite WS. discriminate.
Qed.
