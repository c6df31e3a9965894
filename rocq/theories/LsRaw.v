(** One pass of mrqmin for arbitrary (also stale) static arrays, independence of
    left-over state, safety and success of refinements. *)
From Coq Require Import List Arith Reals Bool Lia Lra FunctionalExtensionality Classical_Prop.
From Verif Require Import Base RSum GaussModel GaussSpec GaussProof LsModel LsSpec LsProof CtlProof LsStep LsRun.
Import ListNotations.
Local Open Scope R_scope.

Lemma mrq_main_singular s o : (f_ma o <= s_ma s)%nat -> (s_mfit s <= f_dim o)%nat -> (f_ma o <= f_dim o)%nat ->
  singular (s_mfit s) (augment (s_mfit s) (f_alpha o) (f_covar o) (f_alambda o)) ->
  mrq_main s o = (Some s, set_covar o (augment (s_mfit s) (f_alpha o) (f_covar o) (f_alambda o)), Err ErrCalculation).
Proof.
  intros H1 H2 H3 SI. unfold mrq_main.
  rewrite (proj2 (Nat.leb_le _ _) H1), (proj2 (Nat.leb_le _ _) H2), (proj2 (Nat.leb_le _ _) H3). cbn [andb negb].
  destruct (gaussj_full (s_mfit s) 1 (augment (s_mfit s) (f_alpha o) (f_covar o) (f_alambda o)) (fun j _ => s_beta s j))
    as [(A & B & G & _ & _ & _ & _ & NS)|[G _]]; [tauto|]. rewrite G. reflexivity.
Qed.

Definition raw_ok (s : statics) (o : fobj) (t : nat -> R) (dst : list dsval) (st' : option statics) (o' : fobj) : Prop :=
  same_session o o' /\ f_cum o' = map cum_chisq dst /\ f_dim o' = f_dim o /\ f_ochisq o' = f_ochisq o /\
  exists s', st' = Some s' /\ s_ma s' = s_ma s /\ s_mfit s' = s_mfit s /\ s_atry s' = t /\
  ((chisq_of dst < s_ochisq s /\ f_p o' = copy_vec (f_ma o) t (f_p o) /\ f_chisq o' = chisq_of dst /\
     f_alambda o' = f_alambda o * / 10 /\ s_ochisq s' = chisq_of dst) \/
   (s_ochisq s <= chisq_of dst /\ f_p o' = f_p o /\ f_chisq o' = s_ochisq s /\ f_alambda o' = f_alambda o * 10 /\
     f_alpha o' = f_alpha o /\ s_ochisq s' = s_ochisq s /\ s_beta s' = s_beta s)).
Definition raw_err (s : statics) (o : fobj) (t : nat -> R) (st' : option statics) (o' : fobj) : Prop :=
  same_session o o' /\ f_p o' = t /\ f_chisq o' = f_chisq o /\ f_alambda o' = f_alambda o /\ f_alpha o' = f_alpha o /\
  f_dim o' = f_dim o /\ f_cum o' = f_cum o /\
  exists s', st' = Some s' /\ s_ma s' = s_ma s /\ s_mfit s' = s_mfit s /\ s_atry s' = t /\ s_ochisq s' = s_ochisq s /\ s_beta s' = s_beta s.

Lemma mrq_main_raw s o : (f_ma o <= s_ma s)%nat -> (s_mfit s <= f_dim o)%nat -> (f_ma o <= f_dim o)%nat ->
  f_alambda o <> 0 -> (rank (f_ia o) (f_ma o) <= s_mfit s)%nat ->
  ~ singular (s_mfit s) (augment (s_mfit s) (f_alpha o) (f_covar o) (f_alambda o)) ->
  exists x, solves (s_mfit s) (augment (s_mfit s) (f_alpha o) (f_covar o) (f_alambda o)) x (s_beta s) /\
  let t := trial (f_ma o) (f_ia o) (f_p o) x (s_atry s) in
  exists st' o' r, mrq_main s o = (st', o', r) /\
  match f_theory o t with
  | Ok dst => r = Ok tt /\ raw_ok s o t dst st' o'
  | Err e => r = Err e /\ raw_err s o t st' o'
  | UB => r = UB /\ raw_err s o t st' o'
  | NoFuel => r = NoFuel /\ raw_err s o t st' o'
  end.
Proof.
  intros H1 H2 H3 LP H4 NS. unfold mrq_main.
  rewrite (proj2 (Nat.leb_le _ _) H1), (proj2 (Nat.leb_le _ _) H2), (proj2 (Nat.leb_le _ _) H3). cbn [andb negb].
  set (mfit := s_mfit s) in *. set (cv := augment mfit (f_alpha o) (f_covar o) (f_alambda o)) in *.
  pose proof (gaussj_spec mfit 1 cv (fun j _ => s_beta s j)) as GS.
  destruct (gaussj mfit 1 cv (fun j _ => s_beta s j)) as [[cv' oneda]|e| |]; try contradiction.
  2:{ destruct GS; tauto. }
  destruct GS as (_ & SOL & _).
  destruct (Req_EM_T (f_alambda o) 0); [lra|].
  rewrite free_count_rank. change (f_ia (set_covar o cv')) with (f_ia o).
  destruct (Nat.ltb_spec (Nat.max (s_dan s) mfit) (rank (f_ia o) (f_ma o))); [lia|].
  set (da := copy_vec mfit (fun j => oneda j 1%nat) (s_da s)). exists da. split.
  { apply (SOL da 1%nat ltac:(lia)). intros r Hr. unfold da. rewrite copy_vec_val. rewrite (proj2 (inr_spec mfit r) Hr). auto. }
  cbn [s_atry s_ma s_ochisq s_beta]. cbv zeta. set (t := trial (f_ma o) (f_ia o) (f_p o) da (s_atry s)).
  pose proof (mrqcof_spec (set_covar o cv') t (f_covar (set_covar o cv')) da) as MS.
  destruct (mrqcof (set_covar o cv') t (f_covar (set_covar o cv')) da) as [[[o1 cv1] da1] r].
  change (f_theory (set_covar o cv')) with (f_theory o) in MS.
  destruct r as [c|e| |].
  - destruct MS as (dst & TH & -> & -> & NE). rewrite TH.
    destruct (Rlt_dec (chisq_of dst) (s_ochisq s)) as [L|L]; eexists _, _, _; (split; [reflexivity|]); (split; [reflexivity|]).
    + split. repeat split. split; [reflexivity|]. split; [reflexivity|]. split; [reflexivity|]. eexists. split; [reflexivity|].
      split; [reflexivity|]. split; [reflexivity|]. split; [reflexivity|]. left. repeat split; auto.
    + split. repeat split. split; [reflexivity|]. split; [reflexivity|]. split; [reflexivity|]. eexists. split; [reflexivity|].
      split; [reflexivity|]. split; [reflexivity|]. split; [reflexivity|]. right. repeat split; auto. lra.
  - destruct MS as [TH ->]. rewrite TH. eexists _, _, _. split; [reflexivity|]. split; [reflexivity|].
    split. repeat split. repeat (split; [reflexivity|]). eexists. repeat split.
  - destruct MS as [TH ->]. rewrite TH. eexists _, _, _. split; [reflexivity|]. split; [reflexivity|].
    split. repeat split. repeat (split; [reflexivity|]). eexists. repeat split.
  - destruct MS as [TH ->]. rewrite TH. eexists _, _, _. split; [reflexivity|]. split; [reflexivity|].
    split. repeat split. repeat (split; [reflexivity|]). eexists. repeat split.
Qed.

(** consequences under the invariant *)
Lemma inv_bounds st o ds s : lsinv st o ds s ->
  (f_ma o <= s_ma s)%nat /\ (s_mfit s <= f_dim o)%nat /\ (f_ma o <= f_dim o)%nat /\ s_mfit s = rank (f_ia o) (f_ma o).
Proof.
  intros [I1 I2 I3 I4 I5 I6 I7 I8 I9]. pose proof (rank_le (f_ia o) (f_ma o)). rewrite I2, I3, I4. repeat split; auto.
Qed.

Lemma inv_singular st o ds s : lsinv st o ds s ->
  (singular (s_mfit s) (augment (s_mfit s) (f_alpha o) (f_covar o) (f_alambda o)) <-> damped_singular (f_ia o) (f_ma o) ds (f_alambda o)).
Proof. intros [I1 I2 I3 I4 I5 I6 I7 I8 I9]. rewrite I3. eapply damped_singular_iff; eauto. Qed.

(** the step of a refinement is determined by parameters, flags, damping and data *)
Lemma damped_unique ia ma ds lam x x' y : ~ damped_singular ia ma ds lam -> damped ia ma ds lam x y -> damped ia ma ds lam x' y ->
  forall l, (1 <= l <= ma)%nat -> ia l = true -> x l = x' l.
Proof.
  intros NS D D' l Hl El. destruct (Req_dec (x l) (x' l)) as [E|NE]; auto. exfalso. apply NS.
  exists (fun k => x k - x' k). split. exists l. repeat split; auto; try lia. lra.
  intros k Hk Ek. rewrite (sum_free_ext ia ma _ (fun m => curvature ds k m * x m + (-1) * (curvature ds k m * x' m))) by (intros; lra).
  rewrite sum_free_plus, sum_free_scal. specialize (D k Hk Ek). specialize (D' k Hk Ek). lra.
Qed.

Lemma classic_singular ia ma ds lam : damped_singular ia ma ds lam \/ ~ damped_singular ia ma ds lam.
Proof. apply classic. Qed.

Inductive twins (x y : lst) : Prop :=
| TW (ds : list dsval) (s s' : statics) : lsinv (fst x) (snd x) ds s -> lsinv (fst y) (snd y) ds s' ->
  same_session (snd x) (snd y) -> f_p (snd y) = f_p (snd x) -> f_alambda (snd y) = f_alambda (snd x) ->
  0 < f_alambda (snd x) -> f_cum (snd y) = f_cum (snd x) -> twins x y.


Lemma mrq_main_twins st o s st2 o2 s2 ds :
  lsinv st o ds s -> lsinv st2 o2 ds s2 -> same_session o o2 -> f_p o2 = f_p o -> f_alambda o2 = f_alambda o -> 0 < f_alambda o ->
  f_cum o2 = f_cum o ->
  forall st' o' r st2' o2' r2, mrq_main s o = (st', o', r) -> mrq_main s2 o2 = (st2', o2', r2) ->
  r = r2 /\ same_view o' o2' /\ (forall u, r = Ok u -> twins (st', o') (st2', o2')).
Proof.
  intros I I2 SS P L LP CU st' o' r st2' o2' r2 E E2.
  destruct (inv_bounds _ _ _ _ I) as (B1 & B2 & B3 & B4). destruct (inv_bounds _ _ _ _ I2) as (C1 & C2 & C3 & C4).
  pose proof (inv_singular _ _ _ _ I) as SI. assert (SS' := SS). destruct SS' as (S1 & S2 & S3 & S4).
  assert (SI2 : singular (s_mfit s2) (augment (s_mfit s2) (f_alpha o2) (f_covar o2) (f_alambda o2)) <-> damped_singular (f_ia o) (f_ma o) ds (f_alambda o)).
  { rewrite <- S1, <- S2, <- L. exact (inv_singular _ _ _ _ I2). }
  assert (CQ : f_chisq o2 = f_chisq o) by (destruct I, I2; congruence).
  destruct (classic_singular (f_ia o) (f_ma o) ds (f_alambda o)) as [SN|NS].
  - rewrite (mrq_main_singular s o) in E by tauto. rewrite (mrq_main_singular s2 o2) in E2 by tauto.
    inversion E; inversion E2; subst. split; auto. split; [|discriminate]. split. repeat split; auto. cbn. auto.
  - destruct (mrq_main_raw s o B1 B2 B3 ltac:(lra) ltac:(lia) ltac:(tauto)) as (x & SX & RX).
    destruct (mrq_main_raw s2 o2 C1 C2 C3 ltac:(lra) ltac:(lia) ltac:(tauto)) as (x2 & SX2 & RX2).
    cbv zeta in RX, RX2.
    assert (TE : trial (f_ma o2) (f_ia o2) (f_p o2) x2 (s_atry s2) = trial (f_ma o) (f_ia o) (f_p o) x (s_atry s)).
    { apply functional_extensionality. intros l. rewrite !trial_val, S1, S2, P.
      destruct (inr (f_ma o) l && f_ia o l)%bool eqn:F.
      - apply free_inr in F. destruct F as [Hl El]. f_equal.
        destruct I as [I1 J2 I3 I4 I5 I6 I7 I8 I9]. destruct I2 as [K1 K2 K3 K4 K5 K6 K7 K8 K9].
        rewrite I3 in SX. rewrite K3 in SX2. rewrite S1, S2, L in SX2. rewrite S1, S2 in K8.
        rewrite (damped_solves _ _ _ _ _ _ _ _ _ I8) in SX. rewrite (damped_solves _ _ _ _ _ _ _ _ _ K8) in SX2.
        destruct I8 as [_ N2]. destruct K8 as [_ M2].
        symmetry. apply (damped_unique (f_ia o) (f_ma o) ds (f_alambda o) (fun l => x (rank (f_ia o) l)) (fun l => x2 (rank (f_ia o) l)) (gradient ds) NS); auto.
        + intros k Hk Ek. rewrite <- (N2 k Hk Ek). apply SX; auto.
        + intros k Hk Ek. rewrite <- (M2 k Hk Ek). apply SX2; auto.
      - assert (NF : ~ free o l) by (rewrite <- free_inr; congruence).
        rewrite (i_try _ _ _ _ I) by auto. rewrite (i_try _ _ _ _ I2), P; auto. unfold free in *. rewrite S1, S2. auto. }
    rewrite TE, S3 in RX2.
    destruct RX as (st1 & o1 & r1 & M1 & R1). destruct RX2 as (st3 & o3 & r3 & M3 & R3).
    rewrite M1 in E. rewrite M3 in E2. inversion E; inversion E2; subst st1 o1 r1 st3 o3 r3. clear E E2.
    pose proof (mrq_main_step _ _ _ _ I LP) as ST. rewrite M1 in ST.
    pose proof (mrq_main_step _ _ _ _ I2 ltac:(lra)) as ST2. rewrite M3 in ST2.
    set (t := trial (f_ma o) (f_ia o) (f_p o) x (s_atry s)) in *.
    destruct (f_theory o t) as [dst|e| |].
    + destruct R1 as (-> & T1 & T2 & _ & _ & s' & -> & _ & _ & _ & T3). destruct R3 as (-> & U1 & U2 & _ & _ & s3 & -> & _ & _ & _ & U3).
      split; auto.
      assert (OC : s_ochisq s2 = s_ochisq s) by (destruct I, I2; congruence).
      assert (V : same_view o' o2').
      { split. destruct T1 as (A1 & A2 & A3 & A4), U1 as (D1 & D2 & D3 & D4). repeat split; congruence.
        rewrite S1, P, OC in U3.
        destruct T3 as [(Q1 & Q2 & Q3 & _)|(Q1 & Q2 & Q3 & _)], U3 as [(Q1' & Q2' & Q3' & _)|(Q1' & Q2' & Q3' & _)]; try lra;
          repeat split; congruence. }
      split; auto. intros u _.
      destruct ST as (_ & _ & t1 & dst1 & _ & _ & TH1 & C). destruct ST2 as (_ & _ & t2 & dst2 & _ & _ & TH2 & C').
      destruct V as (V1 & V2 & V3 & V4).
      destruct C as [(CL & (Q1 & Q2 & (s1 & J1) & _))|(CL & (Q1 & Q2 & (s1 & J1) & _))], C' as [(CL' & (Q1' & Q2' & (s1' & J1') & _))|(CL' & (Q1' & Q2' & (s1' & J1') & _))].
      * apply TW with dst1 s1 s1'; cbn [fst snd]; auto; try lra; try congruence.
      * exfalso. rewrite (i_c _ _ _ _ J1) in V3. rewrite (i_c _ _ _ _ J1') in V3. lra.
      * exfalso. rewrite (i_c _ _ _ _ J1) in V3. rewrite (i_c _ _ _ _ J1') in V3. lra.
      * apply TW with ds s1 s1'; cbn [fst snd]; auto; try lra; try congruence.
    + destruct R1 as (-> & T1 & T2 & T3 & _ & _ & _ & T4 & _). destruct R3 as (-> & U1 & U2 & U3 & _ & _ & _ & U4 & _).
      split; auto. split; [|discriminate]. destruct T1 as (A1 & A2 & A3 & A4), U1 as (D1 & D2 & D3 & D4). repeat split; congruence.
    + destruct R1 as (-> & T1 & T2 & T3 & _ & _ & _ & T4 & _). destruct R3 as (-> & U1 & U2 & U3 & _ & _ & _ & U4 & _).
      split; auto. split; [|discriminate]. destruct T1 as (A1 & A2 & A3 & A4), U1 as (D1 & D2 & D3 & D4). repeat split; congruence.
    + destruct R1 as (-> & T1 & T2 & T3 & _ & _ & _ & T4 & _). destruct R3 as (-> & U1 & U2 & U3 & _ & _ & _ & U4 & _).
      split; auto. split; [|discriminate]. destruct T1 as (A1 & A2 & A3 & A4), U1 as (D1 & D2 & D3 & D4). repeat split; congruence.
Qed.

Lemma sum_free_swap ia ma (f : nat -> nat -> R) :
  sum_free ia ma (fun l => sum_free ia ma (fun m => f l m)) = sum_free ia ma (fun m => sum_free ia ma (fun l => f l m)).
Proof.
  assert (H : forall n, S1 n (fun l => if ia l then sum_free ia ma (fun m => f l m) else 0) =
                        sum_free ia ma (fun m => S1 n (fun l => if ia l then f l m else 0))).
  { induction n as [|n IH].
    - unfold S1 at 1. simpl. symmetry. rewrite (sum_free_ext ia ma _ (fun _ => 0 * 0)). rewrite sum_free_scal. lra.
      intros. unfold S1. simpl. lra.
    - rewrite S1_S, IH. rewrite (sum_free_ext ia ma (fun m => S1 (S n) (fun l => if ia l then f l m else 0))
        (fun m => S1 n (fun l => if ia l then f l m else 0) + (if ia (S n) then f (S n) m else 0))) by (intros; rewrite S1_S; auto).
      rewrite sum_free_plus. f_equal. destruct (ia (S n)); auto.
      rewrite (sum_free_ext ia ma (fun _ => 0) (fun _ => 0 * 0)) by (intros; lra). rewrite sum_free_scal. lra. }
  apply (H ma).
Qed.

Lemma cov_unique o ds V W : cov_spec o ds V -> cov_spec o ds W ->
  forall l n, (1 <= l <= f_ma o)%nat -> (1 <= n <= f_ma o)%nat -> V l n = W l n.
Proof.
  intros [V0 V1] [W0 W1] l n Hl Hn.
  destruct (f_ia o l) eqn:El, (f_ia o n) eqn:En; try (rewrite V0, W0 by (auto; intros [? ?]; congruence); auto; fail).
  transitivity (sum_free (f_ia o) (f_ma o) (fun m => V l m * sum_free (f_ia o) (f_ma o) (fun k => curvature ds m k * W k n))).
  - rewrite (sum_free_single _ _ _ n); auto.
    + rewrite (proj2 (W1 n n (conj Hn En) (conj Hn En))). unfold identity. rewrite Nat.eqb_refl. lra.
    + intros m Hm Em NE. rewrite (proj2 (W1 m n (conj Hm Em) (conj Hn En))). unfold identity.
      destruct (Nat.eqb_spec m n); [congruence|]. lra.
  - rewrite (sum_free_ext _ _ _ (fun m => sum_free (f_ia o) (f_ma o) (fun k => W k n * (V l m * curvature ds m k)))).
    + rewrite sum_free_swap. rewrite (sum_free_single _ _ _ l); auto.
      * rewrite sum_free_scal. rewrite (proj1 (V1 l l (conj Hl El) (conj Hl El))). unfold identity. rewrite Nat.eqb_refl. lra.
      * intros k Hk Ek NE. rewrite sum_free_scal. rewrite (proj1 (V1 l k (conj Hl El) (conj Hk Ek))). unfold identity.
        destruct (Nat.eqb_spec l k); [congruence|]. lra.
    + intros m Hm Em. rewrite <- sum_free_scal. apply sum_free_ext. intros k Hk Ek. lra.
Qed.

Lemma iterate_twins toler x y : twins x y ->
  forall x' r y' r', ls_iterate toler x = (x', r) -> ls_iterate toler y = (y', r') ->
  r = r' /\ same_view (snd x') (snd y') /\ (forall b, r = Ok b -> twins x' y').
Proof.
  intros [ds s s' I I2 SS P L LP CU] x' r y' r' E E2. destruct x as [st o], y as [st2 o2]. cbn [fst snd] in *.
  assert (CQ : f_chisq o2 = f_chisq o) by (destruct I, I2; congruence).
  unfold ls_iterate in E, E2.
  set (o1 := set_ochisq o (f_chisq o)) in *. set (o3 := set_ochisq o2 (f_chisq o2)) in *.
  assert (J : lsinv st o1 ds s) by (apply (inv_session st o); auto; repeat split).
  assert (J2 : lsinv st2 o3 ds s') by (apply (inv_session st2 o2); auto; repeat split).
  rewrite (mrqmin_nonneg st s o1) in E by (destruct I; auto; cbn; lra).
  rewrite (mrqmin_nonneg st2 s' o3) in E2 by (destruct I2; auto; cbn; lra).
  pose proof (mrq_main_step st o1 ds s J LP) as M. pose proof (mrq_main_step st2 o3 ds s' J2 ltac:(cbn; lra)) as M2.
  destruct (mrq_main s o1) as [[st1 o1'] r1] eqn:E1. destruct (mrq_main s' o3) as [[st3 o3'] r3] eqn:E3.
  destruct (mrq_main_twins st o1 s st2 o3 s' ds J J2 ltac:(destruct SS as (?&?&?&?); repeat split; auto) P L LP CU _ _ _ _ _ _ E1 E3) as (-> & V & T).
  inversion E; inversion E2; subst. clear E E2. cbn [snd]. destruct r3 as [u|e| |]; cbn [omap obind]; auto.
  2-4: split; auto; split; auto; discriminate.
  destruct M as (_ & OC & _). destruct M2 as (_ & OC2 & _).
  assert (OCE : f_ochisq o3' = f_ochisq o1') by (rewrite OC, OC2; exact CQ).
  assert (CE : f_chisq o3' = f_chisq o1') by (destruct V as (_ & _ & ? & _); auto).
  rewrite OCE, CE. split; auto. split; auto. intros b _. apply (T u); auto.
Qed.

Lemma finish_twins x y : twins x y ->
  forall x' r y' r', ls_finish x = (x', r) -> ls_finish y = (y', r') ->
  r = r' /\ same_view (snd x') (snd y') /\
  (r = Ok tt -> forall l n, (1 <= l <= f_ma (snd x))%nat -> (1 <= n <= f_ma (snd x))%nat -> f_covar (snd y') l n = f_covar (snd x') l n).
Proof.
  intros [ds s s' I I2 SS P L LP CU] x' r y' r' E E2. destruct x as [st o], y as [st2 o2]. cbn [fst snd] in *.
  assert (CQ : f_chisq o2 = f_chisq o) by (destruct I, I2; congruence).
  unfold ls_finish in E, E2.
  set (o1 := set_lambda o 0) in *. set (o3 := set_lambda o2 0) in *.
  assert (J : lsinv st o1 ds s) by (apply (inv_session st o); auto; repeat split).
  assert (J2 : lsinv st2 o3 ds s') by (apply (inv_session st2 o2); auto; repeat split).
  rewrite (mrqmin_nonneg st s o1) in E by (destruct I; auto; cbn; lra).
  rewrite (mrqmin_nonneg st2 s' o3) in E2 by (destruct I2; auto; cbn; lra).
  pose proof (mrq_main_final st o1 ds s J eq_refl) as M. pose proof (mrq_main_final st2 o3 ds s' J2 eq_refl) as M2.
  assert (SSs := SS). destruct SSs as (S1 & S2 & S3 & S4).
  pose proof (inv_singular _ _ _ _ J) as SI. pose proof (inv_singular _ _ _ _ J2) as SI2.
  destruct (inv_bounds _ _ _ _ J) as (B1 & B2 & B3 & B4). destruct (inv_bounds _ _ _ _ J2) as (C1 & C2 & C3 & C4).
  change (f_alambda o1) with 0 in SI. change (f_alambda o3) with 0 in SI2.
  change (f_ia o3) with (f_ia o2) in SI2. change (f_ma o3) with (f_ma o2) in SI2. rewrite S1, S2 in SI2.
  destruct (classic_singular (f_ia o) (f_ma o) ds 0) as [SN|NS].
  - rewrite (mrq_main_singular s o1) in E by tauto. rewrite (mrq_main_singular s' o3) in E2 by tauto.
    cbn [obind] in E, E2. inversion E; inversion E2; subst. split; auto. split; [|discriminate]. cbn [snd]. split. repeat split; auto. cbn. auto.
  - destruct (mrq_main s o1) as [[st1 o1'] [u|e| |]]; try contradiction.
    2:{ destruct M as (_ & _ & _ & _ & _ & _ & _ & _ & DS). tauto. }
    destruct (mrq_main s' o3) as [[st3 o3'] [u'|e| |]]; try contradiction.
    2:{ destruct M2 as (_ & _ & _ & _ & _ & _ & _ & _ & DS). change (f_ia o3) with (f_ia o2) in DS. change (f_ma o3) with (f_ma o2) in DS. rewrite S1, S2 in DS. tauto. }
    destruct M as (MS & MP & MC & MU & _ & MV). destruct M2 as (NSS & NP & NC & NU & _ & NV). cbn [obind] in E, E2.
    assert (SE : same_session o1' o3').
    { destruct MS as (A1 & A2 & A3 & A4), NSS as (D1 & D2 & D3 & D4). cbn in A1, A2, A3, A4, D1, D2, D3, D4. repeat split; congruence. }
    assert (PE : f_p o3' = f_p o1') by (rewrite NP, MP; exact P).
    assert (TE : f_theory o3' (f_p o3') = f_theory o1' (f_p o1')). { destruct SE as (_ & _ & -> & _). rewrite PE. auto. }
    rewrite TE in E2. inversion E; inversion E2; subst. cbn [snd]. split; auto. split.
    + split; auto. split; auto. rewrite NC, MC, NU, MU. auto.
    + intros _ l n Hl Hn. symmetry. apply (cov_unique o1 ds); auto.
      unfold cov_spec, free in *. change (f_ia o3) with (f_ia o2) in NV. change (f_ma o3) with (f_ma o2) in NV.
      rewrite S1, S2 in NV. exact NV.
Qed.


Lemma setup_same st o st2 o2 : same_start o o2 ->
  forall x r x2 r2, ls_setup (st, o) = (x, r) -> ls_setup (st2, o2) = (x2, r2) ->
  r = r2 /\ same_view (snd x) (snd x2) /\ (r = Ok tt -> f_alambda (snd x) = -1 /\ f_alambda (snd x2) = -1 /\ f_dim (snd x) = f_ma (snd x) /\ f_dim (snd x2) = f_ma (snd x2)).
Proof.
  intros ((S1 & S2 & S3 & S4) & P & CU) x r x2 r2 E E2. unfold ls_setup in *. cbn [f_setup set_chisq set_lambda] in *. rewrite S4 in E2.
  destruct (f_setup o) as [[]|e| |] eqn:SE; inversion E; inversion E2; subst; cbn [snd]; (split; [reflexivity|]);
    (split; [repeat split; cbn; congruence|]); try discriminate. intros _. repeat split; auto.
Qed.

Lemma mrq_init_chisq st o : f_alambda o < 0 ->
  match mrq_init st o with
  | (st', o', r) => r <> Ok tt -> f_chisq o' = f_chisq o /\ f_cum o' = f_cum o
  end.
Proof.
  intros L. unfold mrq_init. destruct (Rlt_dec (f_alambda o) 0); [|lra].
  pose proof (mrqcof_spec (set_lambda o (/ 1000)) (f_p o) (f_alpha (set_lambda o (/ 1000))) (fun _ => 0)) as MS.
  destruct (mrqcof (set_lambda o (/ 1000)) (f_p o) (f_alpha (set_lambda o (/ 1000))) (fun _ => 0)) as [[[o1 al] be] [c|e| |]].
  - congruence.
  - destruct MS as [_ ->]. auto.
  - destruct MS as [_ ->]. auto.
  - destruct MS as [_ ->]. auto.
Qed.

Lemma first_twins toler st o st2 o2 : same_view o o2 -> f_alambda o = -1 -> f_alambda o2 = -1 -> f_dim o = f_ma o -> f_dim o2 = f_ma o2 ->
  forall x' r y' r', ls_iterate toler (st, o) = (x', r) -> ls_iterate toler (st2, o2) = (y', r') ->
  r = r' /\ same_view (snd x') (snd y') /\ (forall b, r = Ok b -> twins x' y').
Proof.
  intros (SS & P & CQ & CU) L L2 D D2 x' r y' r' E E2. unfold ls_iterate, mrqmin in E, E2.
  set (o1 := set_ochisq o (f_chisq o)) in *. set (o3 := set_ochisq o2 (f_chisq o2)) in *.
  assert (SSs := SS). destruct SSs as (S1 & S2 & S3 & S4).
  pose proof (mrq_init_fresh st o1 ltac:(cbn; lra) D) as M. pose proof (mrq_init_fresh st2 o3 ltac:(cbn; lra) D2) as M2.
  pose proof (mrq_init_chisq st o1 ltac:(cbn; lra)) as K. pose proof (mrq_init_chisq st2 o3 ltac:(cbn; lra)) as K2.
  assert (TE : f_theory o3 (f_p o3) = f_theory o1 (f_p o1)) by (cbn; rewrite S3, P; auto).
  destruct (mrq_init st o1) as [[st1 oa] r1]. destruct (mrq_init st2 o3) as [[st3 ob] r3].
  destruct r1 as [u|e| |].
  2-4: destruct M as (MS & MP & MT); destruct r3 as [u'|e'| |];
     [destruct M2 as (ds & s0 & M2 & _); rewrite TE in M2; congruence|..];
     destruct M2 as (NSS & NP & NT); rewrite TE, MT in NT; inversion NT; subst; inversion E; inversion E2; subst;
     cbn [snd omap obind]; (split; [reflexivity|]; split; [|discriminate]);
     destruct MS as (A1 & A2 & A3 & A4), NSS as (B1 & B2 & B3 & B4); cbn in A1, A2, A3, A4, B1, B2, B3, B4, MP, NP;
     destruct (K ltac:(discriminate)) as [K3 K4]; destruct (K2 ltac:(discriminate)) as [K5 K6]; cbn in K3, K4, K5, K6;
     repeat split; congruence.
  destruct M as (ds & s & MT & MI & MS & MP & MO & ML & MC).
  destruct r3 as [u'|e'| |]; [|destruct M2 as (_ & _ & NT); rewrite TE, MT in NT; discriminate..].
  destruct M2 as (ds2 & s2 & NT & NI & NSS & NP & NO & NL & NC).
  assert (ds2 = ds) by congruence. subst ds2.
  assert (SE : same_session oa ob).
  { destruct MS as (A1 & A2 & A3 & A4), NSS as (B1 & B2 & B3 & B4). cbn in A1, A2, A3, A4, B1, B2, B3, B4. repeat split; congruence. }
  assert (ST1 : st1 = Some s) by (destruct MI; auto). assert (ST3 : st3 = Some s2) by (destruct NI; auto). subst st1 st3.
  assert (LP : 0 < f_alambda oa) by (rewrite ML; lra).
  assert (LE : f_alambda ob = f_alambda oa) by congruence.
  assert (PE : f_p ob = f_p oa) by (rewrite NP, MP; exact P).
  pose proof (mrq_main_step _ oa ds s MI LP) as Q. pose proof (mrq_main_step _ ob ds s2 NI ltac:(lra)) as Q2.
  destruct (mrq_main s oa) as [[sta oa'] ra] eqn:EA. destruct (mrq_main s2 ob) as [[stb ob'] rb] eqn:EB.
  destruct (mrq_main_twins _ oa s _ ob s2 ds MI NI SE PE LE LP ltac:(congruence) _ _ _ _ _ _ EA EB) as (-> & V & T).
  inversion E; inversion E2; subst. clear E E2. cbn [snd]. destruct rb as [v|e| |]; cbn [omap obind].
  2-4: split; auto; split; auto; discriminate.
  destruct Q as (_ & OC & _). destruct Q2 as (_ & OC2 & _).
  assert (OCE : f_ochisq ob' = f_ochisq oa') by (rewrite OC, OC2, NO, MO; exact CQ).
  assert (CE : f_chisq ob' = f_chisq oa') by (destruct V as (_ & _ & ? & _); auto).
  rewrite OCE, CE. split; auto. split; auto. intros b _. apply (T v); auto.
Qed.

Lemma refine_twins toler : forall fuel c x y, c_iter c <> 0%nat -> twins x y ->
  let '(r1, c1, x1, q1) := ls_refine toler fuel true c x in
  let '(r2, c2, x2, q2) := ls_refine toler fuel true c y in
  r1 = r2 /\ c1 = c2 /\ q1 = q2 /\ same_view (snd x1) (snd x2) /\
  (q1 = Ok tt -> forall l n, (1 <= l <= f_ma (snd x))%nat -> (1 <= n <= f_ma (snd x))%nat -> f_covar (snd x2) l n = f_covar (snd x1) l n).
Proof.
  induction fuel as [|n IH]; intros c x y NZ T.
  - cbn. destruct T as [ds s s' I I2 SS P L LP CU]. repeat split; auto; try apply SS; try discriminate. destruct I, I2; congruence.
  - unfold ls_refine. cbn [refine]. unfold refine_step. destruct (Nat.eqb_spec (c_iter c) 0); [congruence|]. cbn [negb andb]. cbv iota.
    destruct (need_more c).
    + destruct (ls_iterate toler x) as [x1 r1] eqn:E1. destruct (ls_iterate toler y) as [y1 r2] eqn:E2.
      destruct (iterate_twins toler x y T _ _ _ _ E1 E2) as (-> & V & T').
      destruct r2 as [b|e| |].
      2-4: repeat split; auto; try apply V; discriminate.
      pose proof (IH (bump c b) x1 y1 ltac:(cbn; lia) (T' b eq_refl)) as H. unfold ls_refine in H.
      destruct (refine ls_setup (ls_iterate toler) ls_finish n true (bump c b) x1) as [[[ra ca] xa] qa].
      destruct (refine ls_setup (ls_iterate toler) ls_finish n true (bump c b) y1) as [[[rb cb] xb] qb].
      assert (MA : f_ma (snd x1) = f_ma (snd x)).
      { destruct T as [ds s s' I I2 SS P L LP CU].
        pose proof (ls_iterate_next toler (snd x) ds x) as N. rewrite E1 in N.
        destruct N as ((N & _) & _); auto. apply UW with ds s; auto. repeat split. intros l _; auto. }
      rewrite MA in H. exact H.
    + destruct (ls_finish x) as [x1 r1] eqn:E1. destruct (ls_finish y) as [y1 r2] eqn:E2.
      destruct (finish_twins x y T _ _ _ _ E1 E2) as (-> & V & C).
      destruct r2 as [[]|e| |].
      * split; [reflexivity|]. split; [reflexivity|]. split; [reflexivity|]. split; [exact V|exact C].
      * repeat split; auto; try apply V; discriminate.
      * repeat split; auto; try apply V; discriminate.
      * repeat split; auto; try apply V; discriminate.
Qed.

(** a refinement that starts fresh depends on the session only *)
Lemma refine_independent toler fuel running c running2 c2 st o st2 o2 :
  fresh running c -> fresh running2 c2 -> same_start o o2 -> (0 < fuel)%nat ->
  let '(r1, c1, x1, q1) := ls_refine toler fuel running c (st, o) in
  let '(r2, c2, x2, q2) := ls_refine toler fuel running2 c2 (st2, o2) in
  r1 = r2 /\ c1 = c2 /\ q1 = q2 /\ same_view (snd x1) (snd x2) /\
  (q1 = Ok tt -> forall l n, (1 <= l <= f_ma o)%nat -> (1 <= n <= f_ma o)%nat -> f_covar (snd x2) l n = f_covar (snd x1) l n).
Proof.
  intros F F2 SA NZ. destruct fuel as [|n]; [lia|]. unfold ls_refine. cbn [refine]. unfold refine_step.
  rewrite (fresh_false _ _ F), (fresh_false _ _ F2).
  destruct (ls_setup (st, o)) as [x r] eqn:E. destruct (ls_setup (st2, o2)) as [x2 r2] eqn:E2.
  destruct (setup_same _ _ _ _ SA _ _ _ _ E E2) as (-> & V & K).
  destruct r2 as [[]|e| |].
  2-4: repeat split; auto; try apply V; discriminate.
  destruct (K eq_refl) as (L1 & L2 & D1 & D2). change (need_more (mkC 0 0)) with true. cbv iota.
  destruct x as [sx ox], x2 as [sy oy]. cbn [snd] in *.
  destruct (ls_iterate toler (sx, ox)) as [x1 r1] eqn:E1. destruct (ls_iterate toler (sy, oy)) as [y1 r2] eqn:E3.
  destruct (first_twins toler sx ox sy oy V L1 L2 D1 D2 _ _ _ _ E1 E3) as (-> & V' & T').
  destruct r2 as [b|e| |].
  2-4: repeat split; auto; try apply V'; discriminate.
  pose proof (refine_twins toler n (bump (mkC 0 0) b) x1 y1 ltac:(cbn; lia) (T' b eq_refl)) as H. unfold ls_refine in H.
  destruct (refine ls_setup (ls_iterate toler) ls_finish n true (bump (mkC 0 0) b) x1) as [[[ra ca] xa] qa].
  destruct (refine ls_setup (ls_iterate toler) ls_finish n true (bump (mkC 0 0) b) y1) as [[[rb cb] xb] qb].
  assert (MA : f_ma (snd x1) = f_ma o).
  { pose proof (ls_setup_spec st o) as SS. rewrite E in SS. cbn [fst snd] in SS. destruct SS as (_ & (MA & _) & _).
    pose proof (ls_iterate_first toler sx ox ltac:(lra) D1) as N. rewrite E1 in N. destruct N as ((N & _) & _). congruence. }
  rewrite MA in H. exact H.
Qed.
