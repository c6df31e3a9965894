(** Concrete refinements used as witnesses. *)
From Coq Require Import List Arith Reals Bool Lia Lra FunctionalExtensionality Classical_Prop.
From Verif Require Import Base RSum GaussModel GaussSpec GaussProof LsModel LsSpec LsProof CtlProof LsStep LsRun LsRaw LsMore.
Import ListNotations.
Local Open Scope R_scope.

(** * single steps in detail *)
Definition raw_case (s : statics) (o : fobj) (t : nat -> R) (st' : option statics) (o' : fobj) (r : outcome unit) : Prop :=
  match f_theory o t with
  | Ok dst => r = Ok tt /\ raw_ok s o t dst st' o'
  | Err e => r = Err e /\ raw_err s o t st' o'
  | UB => r = UB /\ raw_err s o t st' o'
  | NoFuel => r = NoFuel /\ raw_err s o t st' o'
  end.

Lemma first_raw toler running c st o ds0 : fresh running c -> f_setup o = Ok tt -> f_theory o (f_p o) = Ok ds0 ->
  ~ damped_singular (f_ia o) (f_ma o) ds0 (/ 1000) ->
  exists s1 o1, lsinv (Some s1) o1 ds0 s1 /\ same_session o o1 /\ f_p o1 = f_p o /\ f_alambda o1 = / 1000 /\
  exists x, damped (f_ia o) (f_ma o) ds0 (/ 1000) (fun l => x (rank (f_ia o) l)) (gradient ds0) /\
  let t := trial (f_ma o) (f_ia o) (f_p o) x (s_atry s1) in
  exists st' o' r, raw_case s1 o1 t st' o' r /\
  ls_step toler running c (st, o) = (true, match r with Ok _ => mkC 1 0 | _ => mkC 0 0 end, (st', o'), omap (fun _ => false) r).
Proof.
  intros F SU TH NS. unfold ls_step, refine_step. rewrite (fresh_false _ _ F).
  pose proof (ls_setup_spec st o) as SS. destruct (ls_setup (st, o)) as [[st1 o1] r1].
  cbn [fst snd] in SS. destruct SS as (-> & SE & P & LM & D & RS). rewrite SU in RS.
  assert (r1 = Ok tt) by auto. subst r1. change (need_more (mkC 0 0)) with true. cbv iota.
  unfold ls_iterate. set (o2 := set_ochisq o1 (f_chisq o1)).
  assert (SE2 : same_session o o2) by exact (same_trans _ _ _ SE ltac:(repeat split)).
  unfold mrqmin. pose proof (mrq_init_fresh st o2 ltac:(cbn; lra) (D eq_refl)) as MI.
  assert (TH2 : f_theory o2 (f_p o2) = Ok ds0). { destruct SE2 as (_ & _ & -> & _). cbn. rewrite P. auto. }
  destruct (mrq_init st o2) as [[st3 o3] [u|e| |]].
  2-4: exfalso; destruct MI as (_ & _ & MI); congruence.
  destruct MI as (ds & s & TH3 & I & MS & P3 & OC & LM3 & _). assert (ds = ds0) by congruence. subst ds.
  assert (IS : st3 = Some s) by (destruct I; auto). subst st3.
  assert (SE3 : same_session o o3) by exact (same_trans _ _ _ SE2 MS).
  assert (PE : f_p o3 = f_p o) by (rewrite P3; exact P).
  exists s, o3. split; auto. split; auto. split; auto. split; auto.
  destruct (inv_bounds _ _ _ _ I) as (B1 & B2 & B3 & B4). pose proof (inv_singular _ _ _ _ I) as SI.
  destruct SE3 as (S1 & S2 & S3 & S4).
  destruct (mrq_main_raw s o3 B1 B2 B3 ltac:(rewrite LM3; lra) ltac:(lia)) as (x & SX & st' & o' & r & M & RC).
  { rewrite SI, S1, S2, LM3. auto. }
  exists x. split.
  { assert (NE := i_ne _ _ _ _ I). rewrite B4 in SX. rewrite (damped_solves _ _ _ _ _ _ _ _ _ NE) in SX. destruct NE as [_ N2].
    rewrite S1, S2, LM3 in SX. rewrite S1, S2 in N2. intros l Hl El. rewrite <- (N2 l Hl El). apply SX; auto. }
  cbv zeta. rewrite S1, S2, PE in RC. exists st', o', r. split. exact RC. rewrite M.
  destruct r as [[]|e| |]; reflexivity.
Qed.

Lemma next_raw toler c s o : c_iter c <> 0%nat -> need_more c = true ->
  (f_ma o <= s_ma s)%nat -> (s_mfit s <= f_dim o)%nat -> (f_ma o <= f_dim o)%nat ->
  0 < f_alambda o -> (rank (f_ia o) (f_ma o) <= s_mfit s)%nat ->
  ~ singular (s_mfit s) (augment (s_mfit s) (f_alpha o) (f_covar o) (f_alambda o)) ->
  exists x, solves (s_mfit s) (augment (s_mfit s) (f_alpha o) (f_covar o) (f_alambda o)) x (s_beta s) /\
  let t := trial (f_ma o) (f_ia o) (f_p o) x (s_atry s) in
  exists st' o' r, raw_case s (set_ochisq o (f_chisq o)) t st' o' r /\
  ls_step toler true c (Some s, o) =
    (true, match r with Ok _ => bump c (if Rle_dec (f_chisq o - f_chisq o') (toler * f_chisq o) then true else false) | _ => c end,
     (st', o'), omap (fun _ => false) r).
Proof.
  intros NZ NM B1 B2 B3 LP RK NS. unfold ls_step, refine_step.
  destruct (Nat.eqb_spec (c_iter c) 0); [congruence|]. cbn [negb andb]. cbv iota. rewrite NM.
  unfold ls_iterate. set (o1 := set_ochisq o (f_chisq o)).
  rewrite (mrqmin_nonneg (Some s) s o1) by (auto; cbn; lra).
  destruct (mrq_main_raw s o1 B1 B2 B3 ltac:(cbn; lra) RK NS) as (x & SX & st' & o' & r & M & RC).
  exists x. split. exact SX. cbv zeta. exists st', o', r. split. exact RC. rewrite M.
  unfold raw_case in RC. cbv zeta in RC.
  assert (OC : r = Ok tt -> f_ochisq o' = f_chisq o).
  { intros ->. change (f_theory o1) with (f_theory o) in RC.
    destruct (f_theory o _) as [dst|e| |] in RC; destruct RC as (RE & RC); try discriminate.
    destruct RC as (_ & _ & _ & OC & _). rewrite OC. reflexivity. }
  destruct r as [[]|e| |]; cbn [omap obind]; auto. rewrite (OC eq_refl). reflexivity.
Qed.

(** two steps of a finished refinement: flag, counters and static arrays *)
Lemma refine_done toler : forall fuel c x o0 ds0, c_iter c <> 0%nat -> under_way o0 ds0 x ->
  let '(running', c', x', r) := ls_refine toler fuel true c x in
  r = Ok tt -> running' = false /\ c_iter c' <> 0%nat /\ need_more c' = false /\ fst x' = None.
Proof.
  induction fuel as [|n IH]; intros c x o0 ds0 NZ U. cbn; discriminate.
  unfold ls_refine. cbn [refine]. unfold refine_step. destruct (Nat.eqb_spec (c_iter c) 0); [congruence|]. cbn [negb andb]. cbv iota.
  destruct (need_more c) eqn:NM.
  - pose proof (ls_iterate_next toler o0 ds0 x U) as IT. destruct (ls_iterate toler x) as [x1 [b|e| |]]; try discriminate.
    destruct IT as (_ & _ & G). destruct (G b eq_refl) as (U1 & _). apply (IH (bump c b) x1 o0 ds0); auto. cbn; lia.
  - pose proof (ls_finish_spec o0 ds0 x U) as F. destruct (ls_finish x) as [x1 [[]|e| |]]; try discriminate.
    destruct F as (_ & _ & _ & _ & _ & F & _). auto.
Qed.

Lemma refine_done_fresh toler fuel running c st o : fresh running c ->
  let '(running', c', x', r) := ls_refine toler fuel running c (st, o) in
  r = Ok tt -> running' = false /\ c_iter c' <> 0%nat /\ need_more c' = false /\ fst x' = None.
Proof.
  intros F. destruct fuel as [|n]; [discriminate|]. unfold ls_refine. cbn [refine].
  pose proof (step_fresh toler running c st o F) as SF. unfold ls_step in SF.
  destruct (refine_step ls_setup (ls_iterate toler) ls_finish running c (st, o)) as [[[r1 c1] x1] [[|]|e| |]]; try discriminate.
  - destruct SF as (_ & _ & _ & N & _). congruence.
  - destruct SF as (_ & _ & -> & _ & G). destruct (G eq_refl) as (B & _ & ds0 & _ & U & _).
    apply (refine_done toler n c1 x1 o ds0); auto. lia.
Qed.

(** * objects *)
Definition blank (ma : nat) (p : nat -> R) (ia : nat -> bool) (th : (nat -> R) -> outcome (list dsval)) (su : outcome unit) : fobj :=
  mkF ma p ia th su (fun _ _ => 0) (fun _ _ => 0) 0 1 1 1 [].
(** fit.iter = 0, fit.stagnating = 1 after construction *)
Definition c_new : ctl := mkC 0 1.

(** straight line through the origin of height p at two points, data a and -a *)
Definition flat_ds (a p : R) : dsval :=
  mkDs 1 2 (fun i => if (i =? 1)%nat then a else - a) (fun _ => 1) (fun _ => p) (fun _ _ => 1).
Definition flat (a : R) : fobj := blank 1 (fun _ => 0) (fun _ => true) (fun p => Ok [flat_ds a (p 1%nat)]) (Ok tt).

Lemma flat_chisq a p : chisq_of [flat_ds a p] = 2 * a * a + 2 * p * p.
Proof. unfold chisq_of, ds_chisq, resid, flat_ds. simpl. ring. Qed.
Lemma flat_curv a p l m : curvature [flat_ds a p] l m = 2.
Proof. unfold curvature, dpar, flat_ds. simpl. ring. Qed.
Lemma flat_grad a p l : gradient [flat_ds a p] l = - 2 * p.
Proof. unfold gradient, resid, dpar, flat_ds. simpl. ring. Qed.

Lemma sum_free_1 f : sum_free (fun _ => true) 1 f = f 1%nat.
Proof. unfold sum_free, S1. simpl. lra. Qed.

Lemma flat_weights a p : weights_ok [flat_ds a p].
Proof. intros d i [<-|[]] _. cbn. lra. Qed.

Lemma flat_influence a p l : ~ no_influence [flat_ds a p] l.
Proof.
  intros N. specialize (N (flat_ds a p) 1%nat (or_introl eq_refl)).
  assert (1 = 0); [|lra]. apply N. cbn. auto. cbn. lra.
Qed.

Lemma flat_regular a : regular (flat a).
Proof.
  intros p. exists [flat_ds a (p 1%nat)]. split. reflexivity. split. apply flat_weights. intros l _. apply flat_influence.
Qed.

Lemma flat_independent a p : ~ dependent (flat a) [flat_ds a p].
Proof.
  intros (x & (l & [F _] & NZ) & A). cbn in F. assert (l = 1%nat) by lia. subst.
  specialize (A (flat_ds a p) 1%nat (or_introl eq_refl)). apply NZ.
  assert (E : sum_free (f_ia (flat a)) (f_ma (flat a)) (fun l => dpar (flat_ds a p) 1 l * x l) = 0).
  { apply A. cbn. auto. cbn. lra. }
  change (sum_free (fun _ => true) 1 (fun l => dpar (flat_ds a p) 1 l * x l) = 0) in E. rewrite sum_free_1 in E.
  unfold dpar in E. cbn [flat_ds d_fb] in E. lra.
Qed.

Lemma flat_not_singular a p lam : 0 < lam -> ~ damped_singular (fun _ => true) 1 [flat_ds a p] lam.
Proof. intros L. apply (not_singular_of (flat a) (fun _ => p)); auto. apply flat_regular. Qed.

(** a refinement of such an object succeeds *)
Lemma flat_refine toler a running c st : fresh running c ->
  let '(running', c', x', r) := ls_refine toler 101 running c (st, flat a) in
  r = Ok tt /\ running' = false /\ c_iter c' <> 0%nat /\ need_more c' = false /\ fst x' = None.
Proof.
  intros F. pose proof (refine_verdict toler 101 running c st (flat a) F eq_refl (flat_regular a) ltac:(lia)) as V.
  pose proof (refine_done_fresh toler 101 running c st (flat a) F) as D.
  destruct (ls_refine toler 101 running c (st, flat a)) as [[[r1 c1] x1] q1].
  destruct V as (ds & TH & [(-> & _)|(-> & DP & _)]).
  - destruct (D eq_refl) as (A & B & C & E). auto.
  - exfalso. cbn in TH. inversion TH; subst. eapply flat_independent; eauto.
Qed.

(** * first step of a flat object *)
Lemma flat_first toler a running c st : fresh running c ->
  exists s o, ls_step toler running c (st, flat a) = (true, mkC 1 0, (Some s, o), Ok false) /\
    same_session (flat a) o /\ f_p o 1%nat = 0 /\ f_chisq o = 2 * a * a /\ f_alambda o = / 100 /\ f_dim o = 1%nat /\ f_alpha o 1%nat 1%nat = 2 /\
    s_ma s = 1%nat /\ s_mfit s = 1%nat /\ s_ochisq s = 2 * a * a /\ s_beta s 1%nat = 0.
Proof.
  intros F. destruct (first_raw toler running c st (flat a) [flat_ds a 0] F eq_refl eq_refl) as (s1 & o1 & I & SE & P & L & x & DX & RC).
  { cbn [f_ia f_ma flat blank]. apply flat_not_singular. lra. }
  cbn [f_ia f_ma f_p flat blank] in DX, RC, P. cbv zeta in RC.
  specialize (DX 1%nat ltac:(lia) eq_refl). rewrite sum_free_1, !flat_curv, flat_grad in DX. change (rank (fun _ => true) 1) with 1%nat in DX.
  assert (X0 : x 1%nat = 0) by lra.
  destruct RC as (st' & o' & r & RC & E). unfold raw_case in RC.
  set (t := trial 1 (fun _ => true) (fun _ => 0) x (s_atry s1)) in *.
  assert (T1 : t 1%nat = 0). { unfold t. rewrite trial_val. cbn. lra. }
  assert (TH : f_theory o1 t = Ok [flat_ds a 0]). { destruct SE as (_ & _ & -> & _). transitivity (Ok [flat_ds a (t 1%nat)]). reflexivity. rewrite T1. auto. }
  rewrite TH in RC. destruct RC as (-> & SS & CU & DM & OC & s' & -> & A1 & A2 & A3 & [C|C]).
  { rewrite (i_oc _ _ _ _ I) in C. lra. }
  destruct C as (_ & C2 & C3 & C4 & C5 & C6 & C7).
  exists s', o'. split. exact E.
  split. exact (same_trans _ _ _ SE SS).
  destruct SE as (S1 & S2 & S3 & S4). cbn in S1, S2.
  assert (OQ : s_ochisq s1 = 2 * a * a). { rewrite (i_oc _ _ _ _ I), flat_chisq. ring. }
  assert (FIT : s_mfit s1 = 1%nat). { rewrite (i_fit _ _ _ _ I), S1, S2. reflexivity. }
  destruct (i_ne _ _ _ _ I) as [N1 N2]. rewrite S1, S2 in N1, N2.
  specialize (N1 1%nat 1%nat ltac:(lia) eq_refl ltac:(lia) eq_refl). specialize (N2 1%nat ltac:(lia) eq_refl).
  change (rank (fun _ => true) 1) with 1%nat in N1, N2. rewrite flat_curv in N1. rewrite flat_grad in N2.
  rewrite C2, P, C3, C4, L, C5, C6, C7, A1, A2, DM, (i_dim _ _ _ _ I), (i_ma _ _ _ _ I), S1, OQ, FIT, N1.
  repeat split; auto; lra.
Qed.

(** two objects stepped in turn: the second step of A compares with the sum of B *)
Definition two_worlds (a b : R) : world :=
  mkW false None (fun i => (c_new, if (i =? 0)%nat then flat a else flat b)).

Lemma interleaved toler a b : b * b < a * a ->
  exists w, w_calls toler (two_worlds a b) [WStep 0; WStep 1; WStep 0] = Some w /\
    f_chisq (snd (w_obj w 0)) = 2 * b * b /\ f_p (snd (w_obj w 0)) 1%nat = 0 /\ f_theory (snd (w_obj w 0)) = f_theory (flat a).
Proof.
  intros AB.
  destruct (flat_first toler a false c_new None (or_introl eq_refl)) as (s & o & E & (Q1 & Q2 & Q3 & Q4) & P & CQ & L & D & AL & A1 & A2 & A3 & A4).
  destruct (flat_first toler b true c_new (Some s) (or_intror eq_refl)) as (s' & o' & E' & SS' & P' & CQ' & L' & D' & AL' & B1 & B2 & B3 & B4).
  cbn [w_calls w_call two_worlds w_obj w_run w_st w_put Nat.eqb]. rewrite E. cbn [omap obind w_obj w_put Nat.eqb w_run w_st two_worlds]. rewrite E'.
  cbn [omap obind w_obj w_put Nat.eqb w_run w_st].
  destruct (next_raw toler (mkC 1 0) s' o ltac:(cbn; lia) eq_refl) as (x & SX & RC); try (rewrite ?Q1, ?Q2, ?D, ?B1, ?B2, ?L; cbn; lia || lra).
  { rewrite B2. intros (y & (k & Hk & NZ) & Z). assert (k = 1%nat) by lia. subst k. specialize (Z 1%nat ltac:(lia)).
    unfold S1 in Z. cbn [rsum] in Z. rewrite augment_val in Z. change (inr 1 1) with true in Z. cbn [andb Nat.eqb] in Z. rewrite AL, L in Z. lra. }
  specialize (SX 1%nat ltac:(lia)). rewrite B2 in SX. unfold S1 in SX. cbn [rsum] in SX. rewrite augment_val in SX.
  change (inr 1 1) with true in SX. cbn [andb Nat.eqb] in SX. rewrite AL, L, B4 in SX.
  cbv zeta in RC. destruct RC as (st' & o'' & r & RC & E''). unfold raw_case in RC.
  rewrite Q1, Q2 in RC. cbn [f_ma f_ia flat blank f_theory set_ochisq] in RC.
  set (t := trial 1 (fun _ => true) (f_p o) x (s_atry s')) in *.
  assert (T1 : t 1%nat = 0). { unfold t. rewrite trial_val. change (inr 1 1) with true. cbn [andb]. change (rank (fun _ => true) 1) with 1%nat. rewrite P. lra. }
  assert (TH : f_theory o t = Ok [flat_ds a 0]). { rewrite Q3. transitivity (Ok [flat_ds a (t 1%nat)]). reflexivity. rewrite T1. auto. }
  change (f_theory (set_ochisq o (f_chisq o))) with (f_theory o) in RC. rewrite TH in RC.
  destruct RC as (-> & (U1 & U2 & U3 & U4) & CU & DM & OC & s3 & -> & D1 & D2 & D3 & [C|C]).
  { destruct C as [C _]. rewrite flat_chisq, B3 in C. lra. }
  destruct C as (_ & C2 & C3 & C4 & C5 & C6 & C7).
  rewrite E''. cbn [omap obind]. eexists. split. reflexivity. cbn [w_obj w_put Nat.eqb snd]. rewrite C3, B3, C2, U3. cbn. auto.
Qed.

(** after A has finished and B has failed to start, refining A again uses the
    released arrays *)
Definition broken (th : (nat -> R) -> outcome (list dsval)) : fobj := blank 1 (fun _ => 0) (fun _ => true) th (Err ErrConstraint).

Lemma released toler a th :
  let w0 := mkW false None (fun i => (c_new, if (i =? 0)%nat then flat a else broken th)) in
  exists w1 w2, w_call toler w0 (WRefine 0) = (w1, Ok tt) /\ w_call toler w1 (WRefine 1) = (w2, Err ErrConstraint) /\
    snd (w_call toler w2 (WRefine 0)) = UB.
Proof.
  intros w0. pose proof (flat_refine toler a false c_new None (or_introl eq_refl)) as R.
  unfold w0. cbn [w_call w_obj Nat.eqb w_run w_st].
  destruct (ls_refine toler 101 false c_new (None, flat a)) as [[[r1 c1] [st1 o1]] q1]. destruct R as (-> & -> & NZ & NM & SN).
  cbn [fst] in SN. subst st1. eexists _, _. split. reflexivity.
  cbn [w_call w_obj w_put Nat.eqb w_run w_st].
  split. reflexivity. cbn [w_obj w_put Nat.eqb w_run w_st].
  unfold ls_refine. cbn [refine]. unfold refine_step at 1.
  destruct (Nat.eqb_spec (c_iter c1) 0); [congruence|]. cbn [negb andb]. cbv iota. rewrite NM.
  unfold ls_finish, mrqmin, mrq_init. cbn [f_alambda set_lambda]. destruct (Rlt_dec 0 0); [lra|]. reflexivity.
Qed.
