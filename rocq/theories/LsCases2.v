(** Further concrete refinements used as witnesses. *)
From Coq Require Import List Arith Reals Bool Lia Lra FunctionalExtensionality Classical_Prop.
From Verif Require Import Base RSum GaussModel GaussSpec GaussProof LsModel LsSpec LsProof CtlProof LsStep LsRun LsRaw LsMore LsCases.
Import ListNotations.
Local Open Scope R_scope.

Lemma finish_raw s o : (f_ma o <= s_ma s)%nat -> (s_mfit s <= f_dim o)%nat -> (f_ma o <= f_dim o)%nat ->
  ~ singular (s_mfit s) (augment (s_mfit s) (f_alpha o) (f_covar o) 0) ->
  exists o', ls_finish (Some s, o) = ((None, o'), omap (fun _ => tt) (f_theory o (f_p o))) /\
    same_session o o' /\ f_p o' = f_p o /\ f_chisq o' = f_chisq o /\ f_cum o' = f_cum o.
Proof.
  intros H1 H2 H3 NS. unfold ls_finish. set (o1 := set_lambda o 0).
  rewrite (mrqmin_nonneg (Some s) s o1) by (auto; cbn; lra). unfold mrq_main.
  change (f_ma o1) with (f_ma o). change (f_dim o1) with (f_dim o).
  rewrite (proj2 (Nat.leb_le _ _) H1), (proj2 (Nat.leb_le _ _) H2), (proj2 (Nat.leb_le _ _) H3). cbn [andb negb].
  change (f_alpha o1) with (f_alpha o). change (f_covar o1) with (f_covar o). change (f_alambda o1) with 0.
  destruct (gaussj_full (s_mfit s) 1 (augment (s_mfit s) (f_alpha o) (f_covar o) 0) (fun j _ => s_beta s j))
    as [(A & B & G & _)|[_ SI]]; [|tauto]. rewrite G. destruct (Req_EM_T 0 0); [|congruence].
  eexists. split. reflexivity. repeat split.
Qed.

Lemma one_nonsingular (A : fmat) : A 1%nat 1%nat <> 0 -> ~ singular 1 A.
Proof.
  intros NZ (y & (k & Hk & N) & Z). assert (k = 1%nat) by lia. subst k. specialize (Z 1%nat ltac:(lia)).
  unfold S1 in Z. cbn [rsum] in Z. assert (A 1%nat 1%nat * y 1%nat = 0) by lra.
  apply Rmult_integral in H as [H|H]; auto.
Qed.

Lemma augment_11 al cv lam : augment 1 al cv lam 1%nat 1%nat = al 1%nat 1%nat * (1 + lam).
Proof. rewrite augment_val. reflexivity. Qed.

Lemma one_solves (A : fmat) x y : solves 1 A x y -> A 1%nat 1%nat * x 1%nat = y 1%nat.
Proof. intros H. specialize (H 1%nat ltac:(lia)). unfold S1 in H. cbn [rsum] in H. lra. Qed.

Lemma trial_one a x at_ : trial 1 (fun _ => true) a x at_ 1%nat = a 1%nat + x 1%nat.
Proof. rewrite trial_val. reflexivity. Qed.

(** * a parabola whose minimum is above the data: every trial overshoots *)
Definition par_ds (p : R) : dsval := mkDs 1 1 (fun _ => 0) (fun _ => 1) (fun _ => p * p + 1) (fun _ _ => 2 * p).
Definition par : fobj := blank 1 (fun _ => / 10) (fun _ => true) (fun p => Ok [par_ds (p 1%nat)]) (Ok tt).

Lemma par_chisq p : chisq_of [par_ds p] = (p * p + 1) * (p * p + 1).
Proof. unfold chisq_of, ds_chisq, resid, par_ds. simpl. ring. Qed.
Lemma par_curv p l m : curvature [par_ds p] l m = 4 * (p * p).
Proof. unfold curvature, dpar, par_ds. simpl. ring. Qed.
Lemma par_grad p l : gradient [par_ds p] l = - 2 * p * (p * p + 1).
Proof. unfold gradient, resid, dpar, par_ds. simpl. ring. Qed.

Definition par_at (s : statics) (o : fobj) (L : R) : Prop :=
  same_session par o /\ f_p o = (fun _ => / 10) /\ f_chisq o = 101 / 100 * (101 / 100) /\ f_alambda o = L /\ f_dim o = 1%nat /\
  f_alpha o 1%nat 1%nat = / 25 /\ s_ma s = 1%nat /\ s_mfit s = 1%nat /\ s_ochisq s = 101 / 100 * (101 / 100) /\ s_beta s 1%nat = - 202 / 1000 /\
  exists t, f_cum o = [cum_chisq (par_ds t)] /\ 100 <= t * t * 100.

Lemma par_reject L x : 0 < L <= 1 -> / 25 * (1 + L) * x = - 202 / 1000 ->
  1 <= (/ 10 + x) * (/ 10 + x) /\ 101 / 100 * (101 / 100) <= chisq_of [par_ds (/ 10 + x)].
Proof.
  intros HL E.
  assert (X : x <= -2). { nra. }
  assert (Q : 1 <= (/ 10 + x) * (/ 10 + x)). { nra. }
  split; auto. rewrite par_chisq. set (q := (/ 10 + x) * (/ 10 + x)) in *. nra.
Qed.

Lemma par_first toler st : exists s o, ls_step toler false c_new (st, par) = (true, mkC 1 0, (Some s, o), Ok false) /\ par_at s o (/ 100).
Proof.
  destruct (first_raw toler false c_new st par [par_ds (/ 10)] (or_introl eq_refl) eq_refl eq_refl) as (s1 & o1 & I & SE & P & L & x & DX & RC).
  { cbn [f_ia f_ma par blank]. intros (y & (l & Hl & _ & NZ) & D). assert (l = 1%nat) by lia. subst. specialize (D 1%nat ltac:(lia) eq_refl).
    rewrite sum_free_1, !par_curv in D. lra. }
  cbn [f_ia f_ma f_p par blank] in DX, RC, P. cbv zeta in RC.
  specialize (DX 1%nat ltac:(lia) eq_refl). rewrite sum_free_1, !par_curv, par_grad in DX. change (rank (fun _ => true) 1) with 1%nat in DX.
  destruct (par_reject (/ 1000) (x 1%nat) ltac:(lra) ltac:(lra)) as [R1 R2].
  destruct RC as (st' & o' & r & RC & E). unfold raw_case in RC.
  set (t := trial 1 (fun _ => true) (fun _ => / 10) x (s_atry s1)) in *.
  assert (T1 : t 1%nat = / 10 + x 1%nat) by apply trial_one.
  assert (TH : f_theory o1 t = Ok [par_ds (/ 10 + x 1%nat)]). { destruct SE as (_ & _ & -> & _). transitivity (Ok [par_ds (t 1%nat)]). reflexivity. rewrite T1. auto. }
  rewrite TH in RC. destruct RC as (-> & SS & CU & DM & OC & s' & -> & A1 & A2 & A3 & C).
  assert (OQ : s_ochisq s1 = 101 / 100 * (101 / 100)). { rewrite (i_oc _ _ _ _ I), par_chisq. lra. }
  destruct C as [C|C]. { rewrite OQ in C. lra. }
  destruct C as (_ & C2 & C3 & C4 & C5 & C6 & C7).
  exists s', o'. split. exact E.
  split. exact (same_trans _ _ _ SE SS).
  destruct SE as (Q1 & Q2 & Q3 & Q4). cbn in Q1, Q2.
  assert (FIT : s_mfit s1 = 1%nat). { rewrite (i_fit _ _ _ _ I), Q1, Q2. reflexivity. }
  destruct (i_ne _ _ _ _ I) as [N1 N2]. rewrite Q1, Q2 in N1, N2.
  specialize (N1 1%nat 1%nat ltac:(lia) eq_refl ltac:(lia) eq_refl). specialize (N2 1%nat ltac:(lia) eq_refl).
  change (rank (fun _ => true) 1) with 1%nat in N1, N2. rewrite par_curv in N1. rewrite par_grad in N2.
  rewrite C2, P, C3, C4, L, C5, C6, C7, A1, A2, DM, (i_dim _ _ _ _ I), (i_ma _ _ _ _ I), Q1, OQ, FIT, N1, CU.
  repeat split; auto; try lra. exists (/ 10 + x 1%nat). split. reflexivity. lra.
Qed.

Lemma par_next toler c s o L : 0 <= toler -> c_iter c <> 0%nat -> need_more c = true -> 0 < L <= 1 -> par_at s o L ->
  exists s' o', ls_step toler true c (Some s, o) = (true, bump c true, (Some s', o'), Ok false) /\ par_at s' o' (L * 10).
Proof.
  intros TO NZ NM HL ((Q1 & Q2 & Q3 & Q4) & P & CQ & LM & DM & AL & A1 & A2 & A3 & A4 & _). cbn in Q1, Q2.
  destruct (next_raw toler c s o NZ NM) as (x & SX & RC); try (rewrite ?Q1, ?Q2, ?DM, ?A1, ?A2, ?LM; cbn; lia || lra).
  { rewrite A2. apply one_nonsingular. rewrite augment_11, AL, LM. lra. }
  rewrite A2 in SX. apply one_solves in SX. rewrite augment_11, AL, LM, A4 in SX.
  destruct (par_reject L (x 1%nat) HL SX) as [R1 R2].
  cbv zeta in RC. rewrite Q1, Q2, P in RC. destruct RC as (st' & o' & r & RC & E). unfold raw_case in RC.
  set (t := trial 1 (fun _ => true) (fun _ => / 10) x (s_atry s)) in *.
  assert (T1 : t 1%nat = / 10 + x 1%nat) by apply trial_one.
  assert (TH : f_theory o t = Ok [par_ds (/ 10 + x 1%nat)]). { rewrite Q3. transitivity (Ok [par_ds (t 1%nat)]). reflexivity. rewrite T1. auto. }
  change (f_theory (set_ochisq o (f_chisq o))) with (f_theory o) in RC. rewrite TH in RC.
  destruct RC as (-> & (U1 & U2 & U3 & U4) & CU & D2 & OC & s' & -> & B1 & B2 & B3 & C).
  destruct C as [C|C]. { rewrite A3 in C. lra. }
  destruct C as (_ & C2 & C3 & C4 & C5 & C6 & C7). cbn in U1, U2, U3, U4, C2, C4, C5, D2.
  exists s', o'. split.
  - destruct (Rle_dec (f_chisq o - f_chisq o') (toler * f_chisq o)) as [HH|N]; [exact E|]. exfalso. apply N. rewrite C3, A3, CQ. nra.
  - split. apply (same_trans _ o); repeat split; auto. rewrite C2, C3, C4, C5, C6, C7, B1, B2, D2, CU. repeat split; auto; try congruence.
    exists (/ 10 + x 1%nat). split. reflexivity. lra.
Qed.

Lemma par_refine toler : 0 <= toler -> exists c o, ls_refine toler 101 false c_new (None, par) = (false, c, (None, o), Ok tt) /\
  f_theory o (f_p o) = Ok [par_ds (/ 10)] /\ exists t, 1 <= t * t /\ f_cum o = map cum_chisq [par_ds t].
Proof.
  intros TO. destruct (par_first toler None) as (s1 & o1 & E1 & W1).
  destruct (par_next toler (mkC 1 0) s1 o1 (/ 100) TO ltac:(cbn; lia) eq_refl ltac:(lra) W1) as (s2 & o2 & E2 & W2).
  destruct (par_next toler (mkC 2 1) s2 o2 (/ 100 * 10) TO ltac:(cbn; lia) eq_refl ltac:(lra) W2) as (s3 & o3 & E3 & W3).
  destruct (par_next toler (mkC 3 2) s3 o3 (/ 100 * 10 * 10) TO ltac:(cbn; lia) eq_refl ltac:(lra) W3) as (s4 & o4 & E4 & W4).
  destruct W4 as ((Q1 & Q2 & Q3 & Q4) & P & CQ & LM & DM & AL & A1 & A2 & A3 & A4 & t & CU & TT). cbn in Q1, Q2.
  destruct (finish_raw s4 o4) as (o5 & E5 & (U1 & U2 & U3 & U4) & P5 & C5 & CU5); try (rewrite ?Q1, ?A1, ?A2, ?DM; lia).
  { rewrite A2. apply one_nonsingular. rewrite augment_11, AL. lra. }
  rewrite Q3, P in E5. cbn [omap obind f_theory par blank] in E5.
  exists (mkC 4 3), o5. split.
  - unfold ls_refine, ls_step in *. change 101%nat with (5 + 96)%nat. cbn [Nat.add refine].
    rewrite E1. rewrite E2. change (bump (mkC 1 0) true) with (mkC 2 1). rewrite E3. change (bump (mkC 2 1) true) with (mkC 3 2).
    rewrite E4. change (bump (mkC 3 2) true) with (mkC 4 3).
    unfold refine_step at 1. cbn [c_iter Nat.eqb negb andb]. cbv iota. change (need_more (mkC 4 3)) with false. cbv iota. rewrite E5. reflexivity.
  - rewrite U3, Q3, P5, P. split. reflexivity. exists t. split. lra. rewrite CU5, CU. reflexivity.
Qed.

(** * a parameter fixed in the middle of a refinement *)
Definition two_ds (p1 p2 : R) : dsval :=
  mkDs 1 2 (fun i => if (i =? 1)%nat then 10 else 0) (fun _ => 1)
    (fun i => if (i =? 1)%nat then 10 * p1 else p2 * p2 + 1)
    (fun i l => if (i =? 1)%nat then (if (l =? 0)%nat then 10 else 0) else (if (l =? 0)%nat then 0 else 2 * p2)).
Definition two : fobj :=
  blank 2 (fun l => if (l =? 1)%nat then 0 else / 10) (fun _ => true) (fun p => Ok [two_ds (p 1%nat) (p 2%nat)]) (Ok tt).
(** fixpar(1) *)
Definition fix_1 (e : sess) : sess :=
  mkSess (se_ma e) (se_p e) (fun l => if (l =? 1)%nat then false else se_ia e l) (se_theory e) (se_setup e).

Lemma two_chisq p1 p2 : chisq_of [two_ds p1 p2] = (10 - 10 * p1) * (10 - 10 * p1) + (p2 * p2 + 1) * (p2 * p2 + 1).
Proof. unfold chisq_of, ds_chisq, resid, two_ds. simpl. ring. Qed.
Lemma two_c11 p1 p2 : curvature [two_ds p1 p2] 1 1 = 100.
Proof. unfold curvature, dpar, two_ds. simpl. ring. Qed.
Lemma two_c12 p1 p2 : curvature [two_ds p1 p2] 1 2 = 0.
Proof. unfold curvature, dpar, two_ds. simpl. ring. Qed.
Lemma two_c21 p1 p2 : curvature [two_ds p1 p2] 2 1 = 0.
Proof. unfold curvature, dpar, two_ds. simpl. ring. Qed.
Lemma two_c22 p1 p2 : curvature [two_ds p1 p2] 2 2 = 4 * (p2 * p2).
Proof. unfold curvature, dpar, two_ds. simpl. ring. Qed.
Lemma two_g1 p1 p2 : gradient [two_ds p1 p2] 1 = 100 * (1 - p1).
Proof. unfold gradient, resid, dpar, two_ds. simpl. ring. Qed.
Lemma two_g2 p1 p2 : gradient [two_ds p1 p2] 2 = - 2 * p2 * (p2 * p2 + 1).
Proof. unfold gradient, resid, dpar, two_ds. simpl. ring. Qed.
Lemma sum_free_2 f : sum_free (fun _ => true) 2 f = f 1%nat + f 2%nat.
Proof. unfold sum_free, S1. simpl. lra. Qed.

Lemma fixed_moves toler : exists w w',
  w_calls toler (mkW false None (fun _ => (c_new, two))) [WStep 0; WEdit 0 fix_1] = Some w /\
  w_calls toler w [WStep 0] = Some w' /\
  f_ia (snd (w_obj w 0)) 1%nat = false /\ f_p (snd (w_obj w 0)) 1%nat = 0 /\ 99 / 100 < f_p (snd (w_obj w' 0)) 1%nat.
Proof.
  destruct (first_raw toler false c_new None two [two_ds 0 (/ 10)] (or_introl eq_refl) eq_refl eq_refl) as (s1 & o1 & I & SE & P & L & x & DX & RC).
  { cbn [f_ia f_ma two blank]. intros (y & (l & Hl & _ & NZ) & D). pose proof (D 1%nat ltac:(lia) eq_refl) as D1. pose proof (D 2%nat ltac:(lia) eq_refl) as D2.
    cbv beta in D1, D2. rewrite sum_free_2, two_c11, two_c12 in D1. rewrite sum_free_2, two_c21, two_c22 in D2.
    assert (l = 1 \/ l = 2)%nat as [->| ->] by lia; lra. }
  cbn [f_ia f_ma two blank] in DX, RC. cbv zeta in RC.
  pose proof (DX 1%nat ltac:(lia) eq_refl) as D1. pose proof (DX 2%nat ltac:(lia) eq_refl) as D2. clear DX.
  rewrite sum_free_2, two_c11, two_c12, two_g1 in D1. rewrite sum_free_2, two_c21, two_c22, two_g2 in D2.
  change (rank (fun _ => true) 1) with 1%nat in *. change (rank (fun _ => true) 2) with 2%nat in *.
  destruct RC as (st' & o' & r & RC & E). unfold raw_case in RC.
  set (t := trial 2 (fun _ => true) (f_p two) x (s_atry s1)) in *.
  assert (T1 : t 1%nat = x 1%nat). { unfold t. rewrite trial_val. change (inr 2 1) with true. cbn [andb]. change (rank (fun _ => true) 1) with 1%nat. cbn [two blank f_p Nat.eqb]. lra. }
  assert (T2 : t 2%nat = / 10 + x 2%nat). { unfold t. rewrite trial_val. change (inr 2 2) with true. cbn [andb]. change (rank (fun _ => true) 2) with 2%nat. reflexivity. }
  assert (TH : f_theory o1 t = Ok [two_ds (x 1%nat) (/ 10 + x 2%nat)]). { destruct SE as (_ & _ & -> & _). transitivity (Ok [two_ds (t 1%nat) (t 2%nat)]). reflexivity. rewrite T1, T2. auto. }
  rewrite TH in RC. destruct RC as (-> & SS & CU & DM & OC & s' & -> & A1 & A2 & A3 & C).
  assert (OQ : s_ochisq s1 = 100 + 101 / 100 * (101 / 100)). { rewrite (i_oc _ _ _ _ I), two_chisq. lra. }
  destruct C as [C|C].
  { exfalso. destruct C as [C _]. rewrite OQ, two_chisq in C.
    assert (X2 : x 2%nat <= -5) by lra. assert (W : 24 <= (/ 10 + x 2%nat) * (/ 10 + x 2%nat)) by nra.
    set (q := (/ 10 + x 2%nat) * (/ 10 + x 2%nat)) in *. assert (0 <= (10 - 10 * x 1%nat) * (10 - 10 * x 1%nat)) by apply Rle_0_sqr. nra. }
  destruct C as (_ & C2 & C3 & C4 & C5 & C6 & C7). rewrite P in C2. rewrite L in C4.
  assert (SE' : same_session two o') by exact (same_trans _ _ _ SE SS).
  destruct SE as (Q1 & Q2 & Q3 & Q4). cbn in Q1, Q2.
  assert (FIT : s_mfit s1 = 2%nat). { rewrite (i_fit _ _ _ _ I), Q1, Q2. reflexivity. }
  destruct (i_ne _ _ _ _ I) as [N1 N2]. rewrite Q1, Q2 in N1, N2.
  pose proof (N1 1%nat 1%nat ltac:(lia) eq_refl ltac:(lia) eq_refl) as N11. pose proof (N1 1%nat 2%nat ltac:(lia) eq_refl ltac:(lia) eq_refl) as N12.
  pose proof (N1 2%nat 1%nat ltac:(lia) eq_refl ltac:(lia) eq_refl) as N21. pose proof (N1 2%nat 2%nat ltac:(lia) eq_refl ltac:(lia) eq_refl) as N22.
  pose proof (N2 1%nat ltac:(lia) eq_refl) as B1. pose proof (N2 2%nat ltac:(lia) eq_refl) as B2. clear N1 N2.
  change (rank (fun _ => true) 1) with 1%nat in *. change (rank (fun _ => true) 2) with 2%nat in *.
  rewrite two_c11 in N11. rewrite two_c12 in N12. rewrite two_c21 in N21. rewrite two_c22 in N22. rewrite two_g1 in B1. rewrite two_g2 in B2.
  rewrite <- C5 in N11, N12, N21, N22. rewrite <- C7 in B1, B2. rewrite FIT in A2. rewrite (i_ma _ _ _ _ I), Q1 in A1.
  rewrite (i_dim _ _ _ _ I), Q1 in DM. rewrite OQ in C6.
  destruct SE' as (S1' & S2' & S3' & S4'). cbn in S1', S2'.
  cbn [w_calls w_call w_obj w_run w_st w_put Nat.eqb]. rewrite E. cbn [omap obind w_obj w_run w_st w_put Nat.eqb].
  eexists. set (o2 := edit fix_1 o').
  assert (MA2 : f_ma o2 = 2%nat) by exact S1'.
  assert (IA2 : f_ia o2 = fun l => if (l =? 1)%nat then false else true). { unfold o2, edit. cbn. rewrite S2'. reflexivity. }
  assert (AG : forall r c, (1 <= r <= 2)%nat -> (1 <= c <= 2)%nat -> augment 2 (f_alpha o2) (f_covar o2) (f_alambda o2) r c =
     if (r =? c)%nat then (if (r =? 1)%nat then 101 else / 25 * (1 + / 100)) else 0).
  { intros r c Hr Hc. rewrite augment_val, (proj2 (inr_spec _ _) Hr), (proj2 (inr_spec _ _) Hc). cbn [andb].
    change (f_alpha o2) with (f_alpha o'). change (f_alambda o2) with (f_alambda o'). rewrite C4.
    assert (r = 1 \/ r = 2)%nat as [->| ->] by lia; assert (c = 1 \/ c = 2)%nat as [->| ->] by lia; cbn [Nat.eqb];
      rewrite ?N11, ?N12, ?N21, ?N22; lra. }
  destruct (next_raw toler (mkC 1 0) s' o2 ltac:(cbn; lia) eq_refl) as (y & SY & RC).
  { rewrite MA2, A1. auto. }
  { change (f_dim o2) with (f_dim o'). rewrite A2, DM. auto. }
  { change (f_dim o2) with (f_dim o'). rewrite MA2, DM. auto. }
  { change (f_alambda o2) with (f_alambda o'). lra. }
  { rewrite MA2, IA2, A2. cbn. lia. }
  { rewrite A2. intros (z & (k & Hk & NZ) & Z). pose proof (Z 1%nat ltac:(lia)) as Z1. pose proof (Z 2%nat ltac:(lia)) as Z2.
    unfold S1 in Z1, Z2. cbn [rsum] in Z1, Z2. rewrite !AG in Z1, Z2 by lia. cbn [Nat.eqb] in Z1, Z2.
    assert (k = 1 \/ k = 2)%nat as [->| ->] by lia; lra. }
  rewrite A2 in SY. pose proof (SY 1%nat ltac:(lia)) as Y1. pose proof (SY 2%nat ltac:(lia)) as Y2. clear SY.
  unfold S1 in Y1, Y2. cbn [rsum] in Y1, Y2. rewrite !AG in Y1, Y2 by lia. cbn [Nat.eqb] in Y1, Y2. rewrite B1 in Y1.
  cbv zeta in RC. rewrite MA2, IA2, A3 in RC. destruct RC as (st2 & o3 & r & RC & E2). unfold raw_case in RC.
  change (f_p o2) with (f_p o') in RC. rewrite C2 in RC.
  set (u := trial 2 (fun l => if (l =? 1)%nat then false else true) (f_p two) y t) in *.
  assert (U1 : u 1%nat = x 1%nat). { unfold u. rewrite trial_val. change (inr 2 1) with true. cbn [andb Nat.eqb]. exact T1. }
  assert (U2 : u 2%nat = / 10 + y 1%nat). { unfold u. rewrite trial_val. change (inr 2 2) with true. cbn [andb Nat.eqb]. cbn [rank Nat.eqb Nat.add]. reflexivity. }
  assert (TH2 : f_theory o2 u = Ok [two_ds (x 1%nat) (/ 10 + y 1%nat)]).
  { change (f_theory o2) with (f_theory o'). rewrite S3'. transitivity (Ok [two_ds (u 1%nat) (u 2%nat)]). reflexivity. rewrite U1, U2. auto. }
  change (f_theory (set_ochisq o2 (f_chisq o2))) with (f_theory o2) in RC. rewrite TH2 in RC.
  destruct RC as (-> & SS2 & CU2 & DM2 & OC2 & s3 & -> & _ & _ & _ & C).
  destruct C as [C|C].
  2:{ exfalso. destruct C as [C _]. rewrite C6, two_chisq in C.
      assert (X1 : x 1%nat = 1000 / 1001) by lra. assert (YY : y 1%nat = 100 / 101) by lra. rewrite X1, YY in C. lra. }
  destruct C as (_ & D3 & _).
  eexists. split. reflexivity. cbn [w_obj w_run w_st w_put Nat.eqb]. fold o2. rewrite E2. cbn [omap obind]. split. reflexivity.
  cbn [w_obj w_put Nat.eqb snd]. split. rewrite IA2. reflexivity. split. change (f_p o2) with (f_p o'). rewrite C2. reflexivity.
  rewrite D3. change (f_ma (set_ochisq o2 (f_chisq o2))) with (f_ma o2). rewrite MA2, copy_vec_val. change (inr 2 1) with true. cbv iota. rewrite U1. lra.
Qed.

(** * an exception in the middle of a refinement *)
Definition line_ds (p : R) : dsval := mkDs 1 1 (fun _ => 10) (fun _ => 1) (fun _ => p) (fun _ _ => 1).
Definition limited : fobj :=
  blank 1 (fun _ => 0) (fun _ => true)
    (fun p => if Rlt_dec (9995 / 1000) (p 1%nat) then Err ErrStructure else Ok [line_ds (p 1%nat)]) (Ok tt).

Lemma line_chisq p : chisq_of [line_ds p] = (10 - p) * (10 - p).
Proof. unfold chisq_of, ds_chisq, resid, line_ds. simpl. ring. Qed.
Lemma line_curv p l m : curvature [line_ds p] l m = 1.
Proof. unfold curvature, dpar, line_ds. simpl. ring. Qed.
Lemma line_grad p l : gradient [line_ds p] l = 10 - p.
Proof. unfold gradient, resid, dpar, line_ds. simpl. ring. Qed.

Definition lim_at (s : statics) (o : fobj) (p : R) : Prop :=
  same_session limited o /\ f_p o 1%nat = p /\ 0 < f_alambda o /\ f_alambda o <= / 1000 /\ f_dim o = 1%nat /\
  f_alpha o 1%nat 1%nat = 1 /\ s_ma s = 1%nat /\ s_mfit s = 1%nat /\ s_beta s 1%nat = 10 - 10000 / 1001.

Lemma lim_fail toler c s o p : c_iter c <> 0%nat -> need_more c = true -> lim_at s o p -> 10000 / 1001 <= p ->
  exists s' o' p', ls_step toler true c (Some s, o) = (true, c, (Some s', o'), Err ErrStructure) /\ lim_at s' o' p' /\ p + 9 / 1000 < p'.
Proof.
  intros NZ NM ((Q1 & Q2 & Q3 & Q4) & P & L1 & L2 & DM & AL & A1 & A2 & A4) HP. cbn in Q1, Q2.
  destruct (next_raw toler c s o NZ NM) as (x & SX & RC); try (rewrite ?Q1, ?Q2, ?DM, ?A1, ?A2; cbn; lia || lra).
  { rewrite A2. apply one_nonsingular. rewrite augment_11, AL. lra. }
  rewrite A2 in SX. apply one_solves in SX. rewrite augment_11, AL, A4 in SX.
  assert (X : 9 / 1000 < x 1%nat) by nra.
  cbv zeta in RC. rewrite Q1, Q2 in RC. destruct RC as (st' & o' & r & RC & E). unfold raw_case in RC.
  set (t := trial 1 (fun _ => true) (f_p o) x (s_atry s)) in *.
  assert (T1 : t 1%nat = p + x 1%nat) by (rewrite <- P; apply trial_one).
  assert (TH : f_theory o t = Err ErrStructure).
  { rewrite Q3. cbn [f_theory limited blank]. destruct (Rlt_dec (9995 / 1000) (t 1%nat)) as [|N]; auto. exfalso. apply N. rewrite T1. lra. }
  change (f_theory (set_ochisq o (f_chisq o))) with (f_theory o) in RC. rewrite TH in RC.
  destruct RC as (-> & (U1 & U2 & U3 & U4) & B1 & B2 & B3 & B4 & B5 & B6 & s' & -> & B7 & B8 & B9 & B10 & B11).
  cbn in U1, U2, U3, U4, B3, B4, B5. exists s', o', (p + x 1%nat). split. exact E. split; [|lra].
  split. apply (same_trans _ o); repeat split; auto. rewrite B1, T1, B3, B4, B5, B7, B8, B11. repeat split; auto.
Qed.

Lemma lim_first toler : exists s o p, ls_step toler false c_new (None, limited) = (true, mkC 1 0, (Some s, o), Ok false) /\ lim_at s o p /\ 10000 / 1001 = p.
Proof.
  destruct (first_raw toler false c_new None limited [line_ds 0] (or_introl eq_refl) eq_refl) as (s1 & o1 & I & SE & P & L & x & DX & RC).
  { cbn [f_theory f_p limited blank]. destruct (Rlt_dec (9995 / 1000) 0); auto. lra. }
  { cbn [f_ia f_ma limited blank]. intros (y & (l & Hl & _ & NZ) & D). assert (l = 1%nat) by lia. subst. specialize (D 1%nat ltac:(lia) eq_refl).
    rewrite sum_free_1, !line_curv in D. lra. }
  cbn [f_ia f_ma f_p limited blank] in DX, RC, P. cbv zeta in RC.
  specialize (DX 1%nat ltac:(lia) eq_refl). rewrite sum_free_1, !line_curv, line_grad in DX. change (rank (fun _ => true) 1) with 1%nat in DX.
  destruct RC as (st' & o' & r & RC & E). unfold raw_case in RC.
  set (t := trial 1 (fun _ => true) (fun _ => 0) x (s_atry s1)) in *.
  assert (T1 : t 1%nat = 10000 / 1001). { unfold t. rewrite trial_one. lra. }
  assert (TH : f_theory o1 t = Ok [line_ds (10000 / 1001)]).
  { destruct SE as (_ & _ & -> & _). cbn [f_theory limited blank]. rewrite T1. destruct (Rlt_dec (9995 / 1000) (10000 / 1001)); auto. lra. }
  rewrite TH in RC. destruct RC as (-> & SS & CU & DM & OC & s' & -> & A1 & A2 & A3 & C).
  assert (OQ : s_ochisq s1 = 100). { rewrite (i_oc _ _ _ _ I), line_chisq. lra. }
  destruct C as [C|C]. 2:{ exfalso. destruct C as [C _]. rewrite OQ, line_chisq in C. lra. }
  destruct C as (_ & C2 & C3 & C4 & C5).
  pose proof (step_fresh toler false c_new None limited (or_introl eq_refl)) as SF. rewrite E in SF.
  destruct SF as (SE' & _ & _ & _ & G). destruct (G eq_refl) as (_ & _ & ds0 & _ & [ds s2 I2 _ _ _ _] & _). cbn [fst snd] in *.
  assert (s2 = s') by (pose proof (i_st _ _ _ _ I2); congruence). subst s2.
  destruct SE as (Q1 & Q2 & Q3 & Q4). cbn in Q1, Q2. destruct SE' as (V1 & V2 & V3 & V4). cbn in V1, V2.
  assert (P1 : f_p o' 1%nat = 10000 / 1001). { rewrite C2, Q1, copy_vec_val. exact T1. }
  assert (DS : ds = [line_ds (10000 / 1001)]).
  { pose proof (i_th _ _ _ _ I2) as H. rewrite V3 in H. cbn [f_theory limited blank] in H. rewrite P1 in H.
    destruct (Rlt_dec (9995 / 1000) (10000 / 1001)); congruence. }
  subst ds. destruct (i_ne _ _ _ _ I2) as [N1 N2]. rewrite V1, V2 in N1, N2.
  specialize (N1 1%nat 1%nat ltac:(lia) eq_refl ltac:(lia) eq_refl). specialize (N2 1%nat ltac:(lia) eq_refl).
  change (rank (fun _ => true) 1) with 1%nat in N1, N2. rewrite line_curv in N1. rewrite line_grad in N2.
  exists s', o', (10000 / 1001). split. exact E. split; [|reflexivity]. split. repeat split; auto.
  rewrite C4, L, (i_dim _ _ _ _ I2), (i_ma _ _ _ _ I2), V1, N1, N2, (i_fit _ _ _ _ I2), V1, V2. repeat split; auto; lra.
Qed.

(** * two parameters that only enter as their sum *)
Definition sum_ds (p : nat -> R) : dsval := mkDs 1 1 (fun _ => 1) (fun _ => 1) (fun _ => p 1%nat + p 2%nat) (fun _ _ => 1).
Definition summed : fobj := blank 2 (fun _ => 0) (fun _ => true) (fun p => Ok [sum_ds p]) (Ok tt).

(** fixpar(2) *)
Definition fix_2 (e : sess) : sess :=
  mkSess (se_ma e) (se_p e) (fun l => if (l =? 2)%nat then false else se_ia e l) (se_theory e) (se_setup e).

Lemma summed_regular : regular summed /\ regular (edit fix_2 summed).
Proof.
  assert (H : forall p l, ~ no_influence [sum_ds p] l).
  { intros p l N. specialize (N (sum_ds p) 1%nat (or_introl eq_refl)). assert (1 = 0); [|lra]. apply N. cbn. auto. cbn. lra. }
  assert (W : forall p, weights_ok [sum_ds p]). { intros p d i [<-|[]] _. cbn. lra. }
  split; intros p; exists [sum_ds p]; (split; [reflexivity|]); split; auto.
Qed.

Lemma summed_fails toler : exists c x,
  ls_refine toler 101 false c_new (None, summed) = (true, c, x, Err ErrCalculation) /\ stuck true c x.
Proof.
  pose proof (refine_verdict toler 101 false c_new None summed (or_introl eq_refl) eq_refl (proj1 summed_regular) ltac:(lia)) as V.
  destruct (ls_refine toler 101 false c_new (None, summed)) as [[[r1 c1] x1] q1].
  destruct V as (ds & TH & [(_ & ND)|(-> & DP & ST)]).
  - exfalso. apply ND. cbn in TH. inversion TH; subst. exists (fun l => if (l =? 1)%nat then 1 else -1). split.
    + exists 1%nat. split. split; [cbn; lia|reflexivity]. cbn. lra.
    + intros d i [<-|[]] _ _. change (f_ia summed) with (fun _ : nat => true). change (f_ma summed) with 2%nat. rewrite sum_free_2.
      unfold dpar, sum_ds. cbn. lra.
  - assert (r1 = true) by apply ST. subst r1. exists c1, x1. auto.
Qed.

Lemma summed_fixed_succeeds toler : snd (ls_refine toler 101 false c_new (None, edit fix_2 summed)) = Ok tt.
Proof.
  pose proof (refine_verdict toler 101 false c_new None (edit fix_2 summed) (or_introl eq_refl) eq_refl (proj2 summed_regular) ltac:(lia)) as V.
  destruct (ls_refine toler 101 false c_new (None, edit fix_2 summed)) as [[[r1 c1] x1] q1].
  destruct V as (ds & TH & [(-> & ND)|(-> & DP & ST)]); auto. exfalso.
  cbn in TH. inversion TH; subst. destruct DP as (x & (l & [Hl El] & NZ) & A).
  cbn in Hl, El. assert (l = 1%nat). { destruct (Nat.eqb_spec l 2); [discriminate|lia]. } subst l.
  specialize (A _ 1%nat (or_introl eq_refl) ltac:(cbn; auto) ltac:(cbn; lra)). apply NZ.
  unfold sum_free, S1 in A. cbn [rsum edit summed blank f_ma f_ia fix_2 sess_of se_ma se_ia Nat.eqb dpar sum_ds d_fb] in A.
  unfold dpar, sum_ds in A. cbn in A. lra.
Qed.

Lemma par_reports t : 1 <= t * t ->
  map cum_chisq [par_ds t] <> map cum_chisq [par_ds (/ 10)] /\
  forall total, 0 < total -> getdsrw total (nth 0 (map cum_chisq [par_ds t]) []) >= 19 / 10 * getdsrw total (nth 0 (map cum_chisq [par_ds (/ 10)]) []).
Proof.
  intros T. assert (V : forall p, ds_chisq (par_ds p) = (p * p + 1) * (p * p + 1)).
  { intros p. unfold ds_chisq, resid, par_ds. simpl. ring. }
  split.
  - cbn [map]. intros E. assert (E2 : cum_chisq (par_ds t) = cum_chisq (par_ds (/ 10))) by congruence.
    apply (f_equal back0) in E2. rewrite !cum_last, !V in E2. set (q := t * t) in *. clearbody q. nra.
  - intros total TP. cbn [map nth]. rewrite !dsrw_val, !V. destruct (Rlt_dec 0 total); [|lra].
    assert (Q : forall a, 0 <= a -> sqrt (a * a * (1 / total)) = a * sqrt (1 / total)).
    { intros a A. rewrite sqrt_mult; [rewrite sqrt_square; auto|apply Rle_0_sqr|apply Rlt_le, Rdiv_lt_0_compat; lra]. }
    rewrite !Q by lra. assert (0 <= sqrt (1 / total)) by apply sqrt_pos. set (q := t * t) in *. clearbody q.
    apply Rle_ge. rewrite <- Rmult_assoc. apply Rmult_le_compat_r; auto. lra.
Qed.

(** setpar of a new id *)
Definition add_par (e : sess) : sess := mkSess (S (se_ma e)) (se_p e) (se_ia e) (se_theory e) (se_setup e).

Lemma added_overruns toler : exists w, w_calls toler (mkW false None (fun _ => (c_new, flat 2))) [WStep 0; WEdit 0 add_par] = Some w /\
  snd (w_call toler w (WStep 0)) = UB /\ never_ub (snd (w_obj w 0)).
Proof.
  destruct (flat_first toler 2 false c_new None (or_introl eq_refl)) as (s & o & E & (Q1 & Q2 & Q3 & Q4) & P & CQ & L & D & AL & A1 & A2 & A3 & A4).
  cbn [w_calls w_call w_obj w_run w_st w_put Nat.eqb]. rewrite E. cbn [omap obind w_obj w_run w_st w_put Nat.eqb].
  eexists. split. reflexivity. cbn [w_obj w_run w_st w_put Nat.eqb snd]. split.
  - unfold ls_step, refine_step. cbn [c_iter Nat.eqb negb andb]. cbv iota. change (need_more (mkC 1 0)) with true. cbv iota.
    unfold ls_iterate. set (o1 := set_ochisq (edit add_par o) (f_chisq (edit add_par o))).
    rewrite (mrqmin_nonneg (Some s) s o1) by (auto; unfold o1; cbn; lra). unfold mrq_main.
    change (f_ma o1) with (S (f_ma o)). rewrite Q1, A1. reflexivity.
  - split. cbn. rewrite Q4. discriminate. intros p. cbn. rewrite Q3. discriminate.
Qed.
