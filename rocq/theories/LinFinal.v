(** Whole refinements of a model that is linear in the free parameters. *)
From Coq Require Import List Arith Reals Bool Lia Lra Classical_Prop FunctionalExtensionality.
From Verif Require Import Base RSum GaussModel GaussSpec GaussProof LsModel LsSpec LsProof CtlProof LsStep LsRun LsRaw LsMore LinSpec LinProof LinRun.
Import ListNotations.
Local Open Scope R_scope.

Section Whole.
Variable o : fobj.
Variable ds0 : list dsval.
Hypothesis LIN : linear o ds0.
Hypothesis W0 : weights_ok ds0.
Hypothesis ND0 : ~ dependent o ds0.
Variable q : nat -> R.
Variable c0 : R.
Hypothesis LQ : least o q c0.

Inductive prog (k : nat) (x : lst) : Prop :=
| PG (s : statics) (ds : list dsval) :
  lsinv (fst x) (snd x) ds s -> 0 < f_alambda (snd x) -> same_session o (snd x) -> fixed_kept o (snd x) ->
  (f_p (snd x) = f_p o /\ chisq_of ds = chisq_of ds0 \/ chisq_of ds < chisq_of ds0) ->
  bounds o ds0 q k (f_p (snd x)) -> there o q (f_p (snd x)) \/ f_alambda (snd x) = / 10 ^ (k + 3) ->
  prog k x.

Lemma lin_iterate toler k x : prog k x -> exists x' b, ls_iterate toler x = (x', Ok b) /\ prog (S k) x'.
Proof.
  intros [s ds I L SS FK BT BD PH]. destruct x as [st o1]. cbn [fst snd] in *. unfold ls_iterate.
  pose proof (i_st _ _ _ _ I) as ES. subst st.
  set (o2 := set_ochisq o1 (f_chisq o1)).
  assert (I' : lsinv (Some s) o2 ds s) by (apply (inv_session (Some s) o1); auto; repeat split).
  assert (SS1 : same_session o o2) by (eapply same_trans; [eauto|repeat split]).
  rewrite (mrqmin_nonneg (Some s) s o2) by (auto; cbn; lra).
  destruct (lin_main o ds0 LIN W0 ND0 q c0 LQ k s o2 ds I' L SS1 FK BD PH) as (s' & o' & ds' & E & I2 & L2 & S2 & F2 & _ & C2 & B2 & P2).
  rewrite E. cbn [omap obind]. do 2 eexists. split. reflexivity. exists s' ds'; auto. cbn [snd].
  destruct C2 as [[C2 C3]|C2]; [|right; destruct BT as [[_ BT]|BT]; lra]. rewrite C2, C3. auto.
Qed.
Lemma lin_first toler st o1 : f_alambda o1 < 0 -> f_dim o1 = f_ma o1 -> same_session o o1 -> f_p o1 = f_p o ->
  exists x' b, ls_iterate toler (st, o1) = (x', Ok b) /\ prog 1 x'.
Proof.
  intros L D SS P. unfold ls_iterate. set (o2 := set_ochisq o1 (f_chisq o1)).
  unfold mrqmin. pose proof (mrq_init_fresh st o2 L D) as MI.
  assert (T2 : f_theory o2 (f_p o2) = Ok ds0). { change (f_theory o1 (f_p o1) = Ok ds0). destruct SS as (_ & _ & -> & _). rewrite P. apply LIN. }
  rewrite T2 in MI.
  destruct (mrq_init st o2) as [[st1 o3] [u|e| |]]; try (destruct MI as (_ & _ & MI); discriminate).
  destruct MI as (ds & s & TH & I & MS & P3 & OC & LM & _). assert (ds = ds0) by congruence. subst ds.
  pose proof (i_st _ _ _ _ I) as ES. subst st1.
  assert (SS3 : same_session o o3). { eapply same_trans; [exact SS|]. eapply same_trans; [|exact MS]. repeat split. }
  assert (PP : f_p o3 = f_p o) by (rewrite P3; exact P).
  destruct (lin_main o ds0 LIN W0 ND0 q c0 LQ 0 s o3 ds0 I ltac:(rewrite LM; lra) SS3) as (s' & o' & ds' & E & I2 & L2 & S2 & F2 & _ & C2 & B2 & P2).
  - intros l _. rewrite PP. auto.
  - rewrite PP. split. lra. split. lia. intros kap _. cbn. lra.
  - right. rewrite LM. simpl. lra.
  - rewrite E. cbn [omap obind]. do 2 eexists. split. reflexivity. exists s' ds'; auto. cbn [snd]. rewrite PP in C2. auto.
Qed.
Lemma lin_finish k x : prog k x -> exists x', ls_finish x = (x', Ok tt) /\ f_p (snd x') = f_p (snd x) /\ fixed_kept o (snd x') /\
  f_chisq (snd x') = c0 + change2 o ds0 (fun l => f_p (snd x') l - q l).
Proof.
  intros [s ds I L SS FK BT BD PH]. destruct x as [st o1]. cbn [fst snd] in *. unfold ls_finish.
  pose proof (i_st _ _ _ _ I) as ES. subst st.
  set (o2 := set_lambda o1 0).
  assert (I' : lsinv (Some s) o2 ds s) by (apply (inv_session (Some s) o1); auto; repeat split).
  rewrite (mrqmin_nonneg (Some s) s o2) by (auto; cbn; lra).
  pose proof SS as (S1 & S2 & S3 & S4).
  assert (T1 : f_theory o (f_p o1) = Ok ds) by (rewrite <- S3; apply (i_th _ _ _ _ I)).
  destruct (lin_ok o ds0 LIN W0 ND0 _ _ FK T1) as [W ND].
  pose proof (mrq_main_final (Some s) o2 ds s I' eq_refl) as M. destruct (mrq_main s o2) as [[st' o'] [u|e| |]]; try contradiction.
  - destruct M as ((M1 & M2 & M3 & M4) & P & C & _). cbn [obind].
    assert (TH : f_theory o' (f_p o') = Ok ds). { rewrite M3, P. change (f_theory o1 (f_p o1) = Ok ds). rewrite S3; auto. }
    rewrite TH. cbn [omap obind]. eexists. split. reflexivity. cbn [snd]. split. exact P. split. { intros l NF. rewrite P. apply FK; auto. }
    rewrite C, P. change (f_chisq o1 = c0 + change2 o ds0 (fun l => f_p o1 l - q l)). rewrite (i_c _ _ _ _ I).
    apply (excess o ds0 LIN W0 ND0 q c0); auto.
  - exfalso. destruct M as (_ & _ & _ & _ & _ & _ & _ & _ & DS). change (f_ia o2) with (f_ia o1) in DS. change (f_ma o2) with (f_ma o1) in DS.
    rewrite S1, S2 in DS. apply ND. apply dependent_singular; auto.
Qed.

Definition ended (c' : ctl) (x' : lst) : Prop :=
  (4 <= c_iter c' <= 100)%nat /\ bounds o ds0 q (c_iter c') (f_p (snd x')) /\ fixed_kept o (snd x') /\
  f_chisq (snd x') = c0 + change2 o ds0 (fun l => f_p (snd x') l - q l).

Lemma lin_more toler : forall fuel c x, (1 <= c_iter c <= 100)%nat -> (c_stag c < c_iter c)%nat -> (101 <= c_iter c + fuel)%nat -> prog (c_iter c) x ->
  exists c' x', ls_refine toler fuel true c x = (false, c', x', Ok tt) /\ ended c' x'.
Proof.
  induction fuel as [|n IH]; intros c x IT ST FU P. lia.
  unfold ls_refine. cbn [refine]. unfold refine_step. destruct (Nat.eqb_spec (c_iter c) 0); [lia|]. cbn [negb andb]. cbv iota.
  destruct (need_more c) eqn:NM.
  - destruct (lin_iterate toler _ _ P) as (x1 & b & E & P1). rewrite E. apply need_more_lt in NM.
    apply (IH (bump c b) x1); cbn [bump c_iter c_stag]; auto; try lia. destruct (negb (c_iter c =? 0)%nat && b)%bool; lia.
  - destruct (lin_finish _ _ P) as (x1 & E & PP & FK & CQ). rewrite E. exists c, x1. split. reflexivity. split; [|split; [|split; auto]].
    + unfold need_more in NM. apply orb_false_iff in NM. destruct NM as [N1 N2]. apply Nat.ltb_ge in N1. apply andb_false_iff in N2.
      rewrite !Nat.ltb_ge in N2. lia.
    + rewrite PP. destruct P. auto.
Qed.
Lemma lin_whole toler fuel running c st : fresh running c -> f_setup o = Ok tt -> (101 <= fuel)%nat ->
  exists c' x', ls_refine toler fuel running c (st, o) = (false, c', x', Ok tt) /\ ended c' x'.
Proof.
  intros F SU FU. destruct fuel as [|n]; [lia|]. unfold ls_refine. cbn [refine]. unfold refine_step. rewrite (fresh_false _ _ F).
  pose proof (ls_setup_spec st o) as SS. destruct (ls_setup (st, o)) as [[st1 o1] r1].
  cbn [fst snd] in SS. destruct SS as (-> & SE & P & LM & D & RS). rewrite SU in RS. assert (r1 = Ok tt) by auto. subst r1.
  change (need_more (mkC 0 0)) with true. cbv iota.
  destruct (lin_first toler st o1 ltac:(rewrite LM; lra) (D eq_refl) SE P) as (x1 & b & E & P1). rewrite E.
  apply (lin_more toler n (bump (mkC 0 0) b) x1); cbn; auto; lia.
Qed.
End Whole.

(** * the theorems *)
Lemma least_squares toler fuel running c st o ds0 : fresh running c -> f_setup o = Ok tt -> (101 <= fuel)%nat ->
  linear o ds0 -> weights_ok ds0 -> ~ dependent o ds0 ->
  exists c' x' q cmin, ls_refine toler fuel running c (st, o) = (false, c', x', Ok tt) /\
    least o q cmin /\ (forall q' c1, least o q' c1 -> q' = q) /\
    let p := f_p (snd x') in let n := c_iter c' in
    (4 <= n <= 100)%nat /\ allowed o p /\ spread o ds0 p q <= spread o ds0 (f_p o) q /\
    cmin <= f_chisq (snd x') <= cmin + / 10 ^ (n + 2) / 4 * spread o ds0 (f_p o) q /\
    forall k, conditioned o ds0 k -> spread o ds0 p q <= (k ^ n * shrink n) * (k ^ n * shrink n) * spread o ds0 (f_p o) q.
Proof.
  intros F SU FU LIN W ND. destruct (least_exists o ds0 LIN W ND) as (q & cm & LQ).
  destruct (lin_whole o ds0 LIN W ND q cm LQ toler fuel running c st F SU FU) as (c' & x' & E & N & (B1 & B2 & B3) & FK & CQ).
  exists c', x', q, cm. split; auto. split; auto. split. { intros q' c1 L1. apply (least_unique o ds0 LIN W ND q cm q' c1 LQ L1). }
  cbv zeta. split; auto. split. exact FK. split; auto. split; auto. rewrite CQ. pose proof (change2_nonneg o ds0 (fun l => f_p (snd x') l - q l) W).
  specialize (B2 ltac:(lia)). lra.
Qed.

Lemma shrink_pos n : 0 < shrink n.
Proof. induction n; cbn. lra. apply Rmult_lt_0_compat; auto. apply Rinv_0_lt_compat. apply pow10_pos. Qed.
Lemma shrink_4 n : (4 <= n)%nat -> shrink n <= / 10 ^ 18.
Proof.
  intros H. induction H as [|n H IH].
  - cbn [shrink]. apply Req_le. simpl. field.
  - cbn [shrink]. pose proof (shrink_pos n). apply (Rle_trans _ (shrink n * 1)); [|lra]. apply Rmult_le_compat_l. lra.
    rewrite <- Rinv_1. apply Rinv_le_contravar. lra. apply pow_R1_Rle. lra.
Qed.
Lemma uncorrelated o ds0 : weights_ok ds0 -> (forall l m, free o l -> free o m -> l <> m -> curvature ds0 l m = 0) -> conditioned o ds0 1.
Proof.
  intros W Z. split. lra. intros x. rewrite Rmult_1_l, change2_form. right. apply sum_free_ext. intros l Hl El.
  rewrite (sum_free_single _ _ _ l); auto. ring. intros m Hm Em N. rewrite (Z l m) by (try split; auto). ring.
Qed.
Lemma single_parameter toler fuel running c st o ds0 l : fresh running c -> f_setup o = Ok tt -> (101 <= fuel)%nat ->
  linear o ds0 -> weights_ok ds0 -> (forall m, free o m <-> m = l) -> ~ no_influence ds0 l ->
  exists c' x' q cmin, ls_refine toler fuel running c (st, o) = (false, c', x', Ok tt) /\ least o q cmin /\
    Rabs (f_p (snd x') l - q l) <= / 10 ^ 18 * Rabs (f_p o l - q l) /\ (forall m, m <> l -> f_p (snd x') m = f_p o m).
Proof.
  intros F SU FU LIN W ONE INF. assert (FL : free o l) by (apply ONE; auto).
  assert (ND : ~ dependent o ds0).
  { intros (x & (m & Fm & NZ) & H). apply ONE in Fm. subst m. apply INF. intros d i Id Ii NW. specialize (H d i Id Ii NW). destruct FL as [Hl El].
    rewrite (sum_free_single _ _ _ l) in H; auto. apply Rmult_integral in H; tauto. intros m Hm Em N. exfalso. apply N. apply ONE. split; auto. }
  destruct (least_squares toler fuel running c st o ds0 F SU FU LIN W ND) as (c' & x' & q & cm & E & LQ & _ & N & A & _ & _ & B).
  exists c', x', q, cm. split; auto. split; auto. split; [|intros m NM; apply A; rewrite ONE; auto].
  assert (C1 : conditioned o ds0 1). { apply uncorrelated; auto. intros a b Fa Fb N1. apply ONE in Fa, Fb. congruence. }
  specialize (B 1 C1). rewrite pow1, !Rmult_1_l in B. unfold spread in B. destruct FL as [Hl El].
  assert (S : forall f, sum_free (f_ia o) (f_ma o) f = f l).
  { intros f. unfold sum_free. rewrite (S1_single _ _ l Hl). rewrite El. auto. intros m Hm NM. destruct (f_ia o m) eqn:Em; auto. exfalso. apply NM. apply ONE. split; auto. }
  rewrite !S in B. pose proof (diag_pos o ds0 l W ND (conj Hl El)) as P. pose proof (shrink_pos (c_iter c')) as SP. pose proof (shrink_4 (c_iter c') ltac:(lia)) as S4.
  set (a := f_p (snd x') l - q l) in *. set (b := f_p o l - q l) in *. set (s := shrink (c_iter c')) in *.
  assert (Q : a * a <= (s * b) * (s * b)). { apply (Rmult_le_reg_l (curvature ds0 l l)); auto. lra. }
  assert (Rabs a <= Rabs (s * b)). { apply Rsqr_le_abs_0. exact Q. }
  rewrite Rabs_mult, (Rabs_right s) in H by lra. apply (Rle_trans _ _ _ H). apply Rmult_le_compat_r; auto. apply Rabs_pos.
Qed.
Lemma exact_recovered toler fuel running c st o ds0 q : fresh running c -> f_setup o = Ok tt -> (101 <= fuel)%nat ->
  linear o ds0 -> weights_ok ds0 -> ~ dependent o ds0 -> allowed o q -> exact_at o q ->
  exists c' x', ls_refine toler fuel running c (st, o) = (false, c', x', Ok tt) /\
    0 <= f_chisq (snd x') <= / 10 ^ 6 / 4 * spread o ds0 (f_p o) q /\
    forall k, conditioned o ds0 k -> let g := k ^ c_iter c' * shrink (c_iter c') in spread o ds0 (f_p (snd x')) q <= g * g * spread o ds0 (f_p o) q.
Proof.
  intros F SU FU LIN W ND A EX. pose proof (exact_least o ds0 LIN W ND q A EX) as LQ.
  destruct (lin_whole o ds0 LIN W ND q 0 LQ toler fuel running c st F SU FU) as (c' & x' & E & N & (B1 & B2 & B3) & FK & CQ).
  exists c', x'. split; auto. split; [|exact B3]. rewrite CQ. pose proof (change2_nonneg o ds0 (fun l => f_p (snd x') l - q l) W).
  specialize (B2 ltac:(lia)). split. lra. rewrite Rplus_0_l. apply (Rle_trans _ _ _ B2). apply Rmult_le_compat_r.
  apply (dp_nonneg o ds0); auto. apply Rmult_le_compat_r. lra. apply Rinv_le_contravar. apply pow10_pos. apply Rle_pow. lra. lia.
Qed.
